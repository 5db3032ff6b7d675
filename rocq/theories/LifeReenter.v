(** A thread that enters exit again from its own exit callbacks. *)
From Verif Require Export LifeDone LifeEndSpec.

Local Open Scope nat_scope.

Lemma marks_orderly dyn s : reach dyn orderly_marks s -> reach dyn orderly s.
Proof. apply reach_weaken. intros s0 t c H. apply H. Qed.

(** ** A registered thread has its thread-specific data *)

Lemma reg_local dyn t u g tsd nc f c e t' k : frame_step dyn t u g tsd nc f c = Some e ->
  In (EReg t' k) (e_ev e) -> t' = t /\ exists x n, f = FBT (BTNum x) n.
Proof.
  intros H I. fs_cases H; brk H; inversion H; subst; clear H; cbn in I;
    repeat match type of I with context [if ?b then _ else _] => destruct b; cbn in I end;
    repeat (destruct I as [I|I]; [try discriminate I; inversion I; subst; eauto|]); try destruct I.
Qed.

Lemma reg_tsd dyn s : reach dyn clean_forks s -> forall t k, In (EReg t k) (s_tr s) ->
  th_live (s_th s t) = true -> th_tsd (s_th s t) <> None.
Proof.
  apply (reach_invariant dyn clean_forks (fun s => forall t k, In (EReg t k) (s_tr s) ->
    th_live (s_th s t) = true -> th_tsd (s_th s t) <> None)); [intros t k []|].
  clear s. intros s t c s' R HI HO HS t' k I LV'.
  pose proof (who_reach _ _ R) as W. pose proof (born_reach _ _ (clean_any _ _ R)) as BO.
  assert (OLD : In (EReg t' k) (s_tr s) -> th_tsd (s_th s' t') <> None).
  { intros I0. assert (NM : t' <> MAIN).
    { intros ->. destruct (reg_created _ _ _ _ R I0) as (c0 & q & X).
      exact (main_not_created _ _ (clean_any _ _ R) _ _ _ X). }
    destruct (th_live (s_th s t')) eqn:L0.
    - destruct (th_tsd (s_th s t')) as [n|] eqn:T; [|destruct (HI t' k I0 L0 T)].
      destruct (tsd_step _ _ _ _ _ _ _ R HO HS NM T) as [X|[_ X]]; [congruence|]. rewrite X in LV'. discriminate LV'.
    - exfalso. pose proof HS as HS0. apply step_view in HS. destruct HS as (_ & LV & V).
      assert (NT : t' <> t) by congruence.
      destruct V as [| | | | | | |f r e Hst Hun Hbar Hfs Es']; subst; cbn in LV'; try (rewrite upd_other in LV' by auto; congruence).
      destruct (e_child e) eqn:HC.
      { destruct (child_shape _ _ _ _ _ _ _ _ _ Hfs HC) as (_ & _ & _ & _ & _ & NN & KK & _).
        unfold apply_eff in LV'. rewrite HC, NN, KK in LV'. cbn in LV'. rewrite upd_other in LV' by auto. discriminate. }
      rewrite apply_live in LV' by exact HC. destruct (e_new e) eqn:EN.
      + destruct (Z.eqb_spec t' (s_next s)) as [->|]; [|destruct (Z.eqb_spec t' t); congruence].
        destruct (born_fresh _ BO (s_next s) (Z.le_refl _)) as (_ & _ & X). apply (X _ I0). reflexivity.
      + destruct (Z.eqb_spec t' t); congruence. }
  pose proof HS as HS0. apply step_view in HS. destruct HS as (_ & LV & V).
  destruct V as [| | | | | | |f r e Hst Hun Hbar Hfs Es'];
    try (apply OLD; subst; cbn in I; try (destruct I as [I|I]; [discriminate I|]); exact I).
  subst s'. rewrite apply_tr in I. apply in_app_or in I. destruct I as [I|I]; [|auto].
  destruct (reg_local _ _ _ _ _ _ _ _ _ _ _ Hfs I) as (-> & x & n & ->).
  pose proof (data_reach _ _ R t (FBT (BTNum x) n)) as Q. rewrite Hst in Q. specialize (Q (or_introl eq_refl)).
  destruct Q as [_ Q]. cbn in Q.
  assert (NM : t <> MAIN).
  { intros ->. pose proof (who_bt _ W (FBT (BTNum x) n)) as X. rewrite Hst in X. specialize (X (or_introl eq_refl)). discriminate X. }
  destruct (tsd_step _ _ _ _ _ _ _ R HO HS0 NM Q) as [X|[X _]]; [rewrite X; discriminate|].
  subst c. discriminate Hfs.
Qed.

(** ** Entries without a node *)

Definition tn_less (f : frame) : bool :=
  match f with FEPCas _ None | FEPWin _ None | FEPLose None => true | _ => false end.

Definition Qless (g : glob) (tr : list event) (tsd : option Z) (t : Z) (f : frame) : Prop :=
  tn_less f = true -> t <> MAIN /\ tsd = None.

Lemma less_local dyn t u g tsd nc f c e : frame_step dyn t u g tsd nc f c = Some e ->
  (forall f', In f' (e_fr e) -> tn_less f' = true ->
     (tn_less f = true \/ (exists h, f = FEPGet h) /\ get_tn g tsd = None) /\ e_tsd e = tsd) /\
  (forall st f', e_new e = Some st -> In f' st -> tn_less f' = false).
Proof.
  intros H. split.
  - intros f' I W. fs_cases H; brk H; inversion H; subst; clear H; cbn in I;
      repeat match type of I with context [if ?b then _ else _] => destruct b eqn:?; cbn in I end;
      repeat (destruct I as [I|I]; [subst f'; try discriminate W; cbn in W |- *; auto|]); try (destruct I; fail).
    split; [right; split; [eauto|]|reflexivity]. destruct (get_tn g tsd); [discriminate W|reflexivity].
  - intros st f' E I. fs_cases H; brk H; inversion H; subst; clear H; cbn in E; try discriminate; inversion E; subst; cbn in I;
      repeat (destruct I as [<-|I]; [reflexivity|]); destruct I.
Qed.

Lemma less_reach dyn s : reach dyn orderly s -> ft_inv Qless s.
Proof.
  apply ft_reach.
  - intros t f I. cbn in I. rewrite upd_if in I. destruct (Z.eqb t MAIN); [|destruct I].
    cbn in I. repeat (destruct I as [<-|I]; [intros X; discriminate X|]). destruct I.
  - auto.
  - intros s0 t c f _ _ _ _ _ _ I. cbn in I. repeat (destruct I as [<-|I]; [intros X; discriminate X|]). destruct I.
  - intros g tr d t X. discriminate X.
  - intros g tr d t n f _ _ X. discriminate X.
  - clear s. intros s t c f r e R FI HO Hst LV Hfs. pose proof (orderly_clean _ _ R) as RC.
    assert (IN : In f (th_stack (s_th s t))) by (rewrite Hst; now left).
    destruct (less_local _ _ _ _ _ _ _ _ _ Hfs) as [A B].
    split; [|split; [|split]].
    + intros f' I' L. destruct (A f' I' L) as [[X|[(h & ->) X]] E]; rewrite E.
      * exact (FI t f IN X).
      * eapply tn_none; eauto.
    + intros f' I' Q L. destruct (Q L) as [NM T]. split; [exact NM|].
      destruct (tsd_local _ _ _ _ _ _ _ _ _ Hfs) as [X|[(n & ->)|[(q & -> & U)|X]]]; [congruence| | |].
      * pose proof (bt_top _ _ _ _ _ (orderly_any _ _ R) Hst eq_refl) as ->. destruct I' as [<-|[]]. discriminate L.
      * rewrite (who_alone _ (who_reach _ _ RC) U t NM) in LV. discriminate.
      * assert (RS : existsb resetting (th_stack (s_th s t)) = true) by (apply existsb_exists; eauto).
        destruct (who_reset _ (who_reach _ _ RC) t RS) as [Y _]. contradiction.
    + auto.
    + intros st f' EN I' L. rewrite (B st f' EN I') in L. discriminate.
Qed.

(** ** The winner is marked *)

Lemma holds_det n m f : holds n f = true -> holds m f = true -> n = m.
Proof.
  destruct f; cbn; try discriminate; try (intros A B; apply Z.eqb_eq in A; apply Z.eqb_eq in B; congruence).
  - destruct k; try discriminate; intros A B; apply Z.eqb_eq in A; apply Z.eqb_eq in B; congruence.
  - destruct p; try discriminate; intros A B; apply Z.eqb_eq in A; apply Z.eqb_eq in B; congruence.
Qed.

Lemma belongs_tsd dyn s t n m : reach dyn clean_forks s -> existsb resetting (th_stack (s_th s MAIN)) = false ->
  belongs s t n -> th_tsd (s_th s t) = Some m -> m = n.
Proof.
  intros R NR B T. destruct B as [(b & I & O & H)|(NM & L & S)].
  - pose proof (owner_holds _ _ _ _ _ m O (data_reach _ _ R t b I) T) as X. eapply holds_det; eauto.
  - destruct (li_fact _ (listed_reach _ _ R) NR n L NM) as [_ X]. rewrite S, T in X. now inversion X.
Qed.

Lemma cookie_win dyn s : reach dyn any s -> forall t, In (EWin t) (s_tr s) -> g_cookie (s_g s) = true.
Proof.
  apply (reach_invariant dyn any (fun s => forall t, In (EWin t) (s_tr s) -> g_cookie (s_g s) = true)); [intros t []|].
  clear s. intros s t c s' R HI _ HS t' I. apply step_view in HS. destruct HS as (_ & LV & V).
  destruct V as [| | | | | | |f r e Hst Hun Hbar Hfs Es']; subst;
    try (cbn in I |- *; try (destruct I as [I|I]; [discriminate I|]); eauto; fail).
  rewrite apply_tr in I. rewrite apply_g. apply in_app_or in I. destruct I as [I|I].
  - clear - Hfs I. fs_cases Hfs; brk Hfs; inversion Hfs; subst; clear Hfs; cbn in I;
      repeat match type of I with context [if ?b then _ else _] => destruct b; cbn in I end;
      repeat (destruct I as [I|I]; [try discriminate I; reflexivity|]); try destruct I.
  - specialize (HI _ I). destruct (fz_local _ _ _ _ _ _ _ _ _ Hfs) as ([X|[X _]] & _); congruence.
Qed.

Lemma winkeep_local dyn t u g tsd nc f c e n : frame_step dyn t u g tsd nc f c = Some e ->
  n_win (nd g n) = true -> n_win (nd (e_g e) n) = true \/ resetting f = true \/ f = FClean CLZero n \/
  (exists q my d, f = FPCZero q my d n).
Proof.
  intros H W. fs_cases H; brk H; inversion H; subst; clear H; cbn [e_g]; auto;
    unfold nd in *; cbn; g_brk; rewrite ?upd_if; auto;
    repeat match goal with |- context [Z.eqb ?a ?b] => destruct (Z.eqb_spec a b); subst end; cbn; auto; eauto 8;
    rewrite ?upd_if; auto;
    repeat match goal with |- context [Z.eqb ?a ?b] => destruct (Z.eqb_spec a b); subst end; cbn; auto; eauto 8.
Qed.

Definition marked (s : state) (t : Z) : Prop :=
  (t = MAIN /\ n_win (nd (s_g s) MAIN_TN) = true) \/
  (t <> MAIN /\ forall n, belongs s t n -> n_win (nd (s_g s) n) = true).
Definition unreg (t : Z) (tr : list event) : Prop :=
  t <> MAIN /\ exists a b, tr = a ++ EWin t :: b /\ forall k, ~ In (EReg t k) b.
Definition at_win (s : state) (t : Z) : Prop :=
  exists h n r, th_stack (s_th s t) = FEPWin h (Some n) :: r.
Definition mark_inv (s : state) : Prop :=
  forall t, In (EWin t) (s_tr s) -> at_win s t \/ marked s t \/ unreg t (s_tr s).

Lemma unreg_mono t tr ev : unreg t tr -> unreg t (ev ++ tr).
Proof. intros (NM & a & b & -> & X). split; [exact NM|]. exists (ev ++ a), b. split; [now rewrite app_assoc|exact X]. Qed.

Lemma win_ev dyn t u g tsd nc f c e t' : frame_step dyn t u g tsd nc f c = Some e -> In (EWin t') (e_ev e) ->
  t' = t /\ exists h o, f = FEPCas h o /\ e_fr e = [FEPWin h o] /\ e_ev e = [EWin t] /\ g_cookie g = false /\ e_new e = None.
Proof.
  intros H I. fs_cases H; brk H; inversion H; subst; clear H; cbn in I;
    repeat match type of I with context [if ?b then _ else _] => destruct b; cbn in I end;
    repeat (destruct I as [I|I]; [try discriminate I; inversion I; subst; eauto 10|]); try destruct I.
Qed.

(** A marked thread stays marked. *)
Lemma marked_step dyn s t c s' u : reach dyn orderly s -> orderly s t c -> step dyn s t c = Some s' ->
  In (EWin u) (s_tr s) -> marked s u -> marked s' u.
Proof.
  intros R HO HS EW M. pose proof (orderly_clean _ _ R) as RC. pose proof (orderly_any _ _ R) as RA.
  pose proof (cookie_win _ _ RA u EW) as CK.
  assert (R' : reach dyn orderly s') by (econstructor; eauto).
  assert (CK' : g_cookie (s_g s') = true) by (eapply cookie_win; [eapply orderly_any; exact R'|eapply tr_step; eauto]).
  assert (KEEP : forall n, n_win (nd (s_g s) n) = true -> n = MAIN_TN \/ (belongs s u n /\ belongs s' u n) -> n_win (nd (s_g s') n) = true).
  { intros n W D. pose proof HS as HS0. apply step_view in HS. destruct HS as (_ & LV & V).
    destruct V as [| | | | | | |f r e Hst Hun Hbar Hfs Es']; subst; try exact W.
    assert (IN : In f (th_stack (s_th s t))) by (rewrite Hst; now left).
    rewrite apply_g. destruct (winkeep_local _ _ _ _ _ _ _ _ _ n Hfs W) as [X|[X|[->|(q & my & d & ->)]]]; [exact X|exfalso..].
    - pose proof (no_reset_exit _ _ t R CK) as Y. rewrite (existsb_false_in _ _ _ Y IN) in X. discriminate.
    - destruct D as [->|[_ B']].
      + pose proof (hold_main _ _ _ _ RC IN) as X. cbn in X. discriminate.
      + pose proof (belongs_magic _ _ _ _ (orderly_clean _ _ R') (no_reset_exit _ _ _ R' CK') B') as X.
        rewrite apply_g in X. destruct c; try discriminate Hfs. cbn in Hfs. inversion Hfs; subst. cbn in X.
        rewrite upd_same in X. discriminate.
    - destruct D as [->|[B _]].
      + pose proof (hold_main _ _ _ _ RC IN) as X. cbn in X. discriminate.
      + eapply belongs_not_making; eauto. unfold making. cbn. apply Z.eqb_refl. }
  destruct M as [[-> W]|[NM W]]; [left; auto|right]. split; [exact NM|]. intros n B'.
  destruct (belongs_new _ _ _ _ _ _ _ RC (proj1 HO) HS B') as [B|(-> & _)]; [auto|exfalso].
  destruct (born_fresh _ (born_reach _ _ RA) (s_next s) (Z.le_refl _)) as (_ & _ & X). exact (X _ EW eq_refl).
Qed.

Lemma stack_other dyn s t c s' u : reach dyn orderly s -> orderly s t c -> step dyn s t c = Some s' -> u <> t ->
  g_cookie (s_g s) = true -> th_live (s_th s u) = true -> th_stack (s_th s' u) = th_stack (s_th s u).
Proof.
  intros R HO HS NE CK LU. apply step_view in HS. destruct HS as (_ & LV & V).
  destruct V as [| | | | | | |f r e Hst Hun Hbar Hfs Es']; subst; cbn [add_ev set_th s_th]; try (now rewrite upd_other by auto).
  destruct (e_child e) eqn:HC.
  { destruct (child_shape _ _ _ _ _ _ _ _ _ Hfs HC) as (CC & _). rewrite (proj1 (proj2 HO) CC) in CK. discriminate. }
  rewrite apply_stack by exact HC. destruct (Z.eqb_spec u t); [contradiction|].
  destruct (e_new e); [|reflexivity]. destruct (Z.eqb_spec u (s_next s)) as [->|]; [|reflexivity].
  destruct (born_fresh _ (born_reach _ _ (orderly_any _ _ R)) (s_next s) (Z.le_refl _)) as (_ & X & _). congruence.
Qed.

Lemma mark_reach dyn s : reach dyn orderly_marks s -> mark_inv s.
Proof.
  apply (reach_invariant dyn orderly_marks mark_inv); [intros t []|].
  clear s. intros s t c s' RM HI [HO HM] HS u EW. pose proof (marks_orderly _ _ RM) as R.
  pose proof (orderly_clean _ _ R) as RC. pose proof (orderly_any _ _ R) as RA.
  assert (R' : reach dyn orderly s') by (econstructor; eauto).
  assert (OLD : In (EWin u) (s_tr s) -> at_win s' u \/ marked s' u \/ unreg u (s_tr s')).
  { intros EW0. pose proof (cookie_win _ _ RA u EW0) as CK. destruct (HI u EW0) as [(h & n & r0 & A)|[M|U]].
    - destruct (Z.eq_dec u t) as [->|NE].
      + right. left. specialize (HM _ _ _ A). subst c.
        assert (IN : In (FEPWin h (Some n)) (th_stack (s_th s t))) by (rewrite A; now left).
        pose proof (mine_reach _ _ RC t _ IN n eq_refl) as M.
        pose proof HS as HS0. apply step_view in HS. destruct HS as (_ & LV & V).
        inversion V as [| | | | |H1 H2 H3 H4|H1 H2|f r e Hst Hun Hbar Hfs Es']; try (rewrite A in *; discriminate).
        rewrite A in Hst. inversion Hst; subst f r. cbn in Hfs. inversion Hfs; subst e.
        destruct M as [[-> ->]|[NM T]].
        * left. split; [reflexivity|]. rewrite Es'. rewrite apply_g. cbn. rewrite ?upd_same. reflexivity.
        * right. split; [exact NM|]. intros m B'.
          destruct (belongs_new _ _ _ _ _ _ _ RC (proj1 HO) HS0 B') as [B|(_ & X & _)]; [|discriminate X].
          rewrite (belongs_tsd _ _ _ _ _ RC (no_reset_exit _ _ MAIN R CK) B T) in *.
          rewrite Es'. rewrite apply_g. cbn. rewrite ?upd_same. reflexivity.
      + left. exists h, n, r0. rewrite <- A. eapply stack_other; eauto.
        destruct (th_live (s_th s u)) eqn:L; [reflexivity|]. rewrite (born_dead _ (born_reach _ _ RA) u L) in A. discriminate.
    - right. left. exact (marked_step _ _ _ _ _ _ R HO HS EW0 M).
    - right. right. apply step_view in HS. destruct HS as (_ & LV & V).
      destruct V as [| | | | | | |f r e Hst Hun Hbar Hfs Es']; subst; try exact U; try (now apply (unreg_mono _ _ [_])).
      rewrite apply_tr. now apply unreg_mono. }
  pose proof HS as HS0. apply step_view in HS. destruct HS as (_ & LV & V).
  destruct V as [| | | | | | |f r e Hst Hun Hbar Hfs Es'];
    try (apply OLD; subst; cbn in EW; try (destruct EW as [EW|EW]; [discriminate EW|]); exact EW).
  subst s'. rewrite apply_tr in EW. apply in_app_or in EW. destruct EW as [EW|EW]; [|auto].
  destruct (win_ev _ _ _ _ _ _ _ _ _ _ Hfs EW) as (-> & h & o & -> & EF & EV & CK & EN).
  assert (HC : e_child e = false).
  { destruct (e_child e) eqn:HC; [|reflexivity]. destruct (child_shape _ _ _ _ _ _ _ _ _ Hfs HC) as (CC & _). subst c. discriminate. }
  destruct o as [n|].
  - left. exists h, n, r. rewrite apply_stack by exact HC. rewrite EN, Z.eqb_refl, EF. reflexivity.
  - right. right. pose proof (less_reach _ _ R t (FEPCas h None)) as Q. rewrite Hst in Q.
    specialize (Q (or_introl eq_refl) eq_refl). destruct Q as [NM T].
    split; [exact NM|]. rewrite apply_tr, EV. exists [], (s_tr s). split; [reflexivity|].
    intros k IK. exact (reg_tsd _ _ RC t k IK LV T).
Qed.

(** ** The winner does not wait *)

Definition wait_inv (s : state) : Prop := forall t, In FEPWait (th_stack (s_th s t)) ->
  In (EWin t) (s_tr s) -> unreg t (s_tr s).

Lemma wait_local dyn t u g tsd nc f c e : frame_step dyn t u g tsd nc f c = Some e ->
  (In FEPWait (e_fr e) -> exists o, f = FEPLose o /\ (forall n, o = Some n -> n_win (nd g n) = false)) /\
  (forall st, e_new e = Some st -> ~ In FEPWait st).
Proof.
  intros H. split.
  - intros I. fs_cases H; brk H; inversion H; subst; clear H; cbn in I |- *;
      repeat match type of I with context [if ?b then _ else _] => destruct b eqn:?; cbn in I end;
      repeat (destruct I as [I|I]; [try discriminate I|]); try (destruct I; fail).
    + eexists. split; [reflexivity|]. intros n X. inversion X; subst. assumption.
    + eexists. split; [reflexivity|]. discriminate.
  - intros st E I. fs_cases H; brk H; inversion H; subst; clear H; cbn in E; try discriminate; inversion E; subst; cbn in I;
      repeat (destruct I as [I|I]; [discriminate I|]); destruct I.
Qed.

Lemma less_unreg dyn s t f : reach dyn orderly s -> In f (th_stack (s_th s t)) -> tn_less f = true ->
  In (EWin t) (s_tr s) -> unreg t (s_tr s).
Proof.
  intros R IN L EW. destruct (less_reach _ _ R t f IN L) as [NM T].
  assert (LV : th_live (s_th s t) = true).
  { destruct (th_live (s_th s t)) eqn:X; [reflexivity|].
    rewrite (born_dead _ (born_reach _ _ (orderly_any _ _ R)) t X) in IN. destruct IN. }
  split; [exact NM|]. apply in_split in EW. destruct EW as (a & b & E). exists a, b. split; [exact E|].
  intros k IK. apply (reg_tsd _ _ (orderly_clean _ _ R) t k); auto. rewrite E. apply in_or_app. right. now right.
Qed.

Lemma lose_unreg dyn s t o r : reach dyn orderly_marks s -> th_stack (s_th s t) = FEPLose o :: r ->
  (forall n, o = Some n -> n_win (nd (s_g s) n) = false) -> In (EWin t) (s_tr s) -> unreg t (s_tr s).
Proof.
  intros RM Hst W EW. pose proof (marks_orderly _ _ RM) as R. pose proof (orderly_clean _ _ R) as RC.
  assert (IN : In (FEPLose o) (th_stack (s_th s t))) by (rewrite Hst; now left).
  destruct o as [n|]; [|eapply less_unreg; eauto].
  pose proof (mine_reach _ _ RC t _ IN n eq_refl) as M.
  destruct (mark_reach _ _ RM t EW) as [(h & m & r' & X)|[X|X]]; [congruence| |exact X]. exfalso.
  destruct (mine_belongs _ _ _ _ _ R IN eq_refl M) as [[-> ->]|[NM B]]; destruct X as [[E X]|[E X]]; try contradiction.
  - rewrite (W _ eq_refl) in X. discriminate.
  - specialize (X n B). rewrite (W _ eq_refl) in X. discriminate.
Qed.

Lemma wait_reach dyn s : reach dyn orderly_marks s -> wait_inv s.
Proof.
  apply (reach_invariant dyn orderly_marks wait_inv).
  - intros t _ [].
  - clear s. intros s t c s' RM HI [HO HM] HS u IW EW. pose proof (marks_orderly _ _ RM) as R.
    pose proof (orderly_any _ _ R) as RA.
    assert (UM : forall e, unreg u (s_tr s) -> unreg u (e :: s_tr s)) by (intros e; apply (unreg_mono _ _ [e])).
    apply step_view in HS. destruct HS as (_ & LV & V).
    assert (UW : forall st, In FEPWait (th_stack (upd (s_th s) t (with_stack (s_th s t) (unwind st)) u)) -> In FEPWait (th_stack (s_th s u))).
    { intros st I. rewrite upd_if in I. destruct (Z.eqb u t); [cbn in I|exact I].
      destruct (unwind_shape st) as [U|(n & p & U & _)]; rewrite U in I; cbn in I; repeat (destruct I as [I|I]; [discriminate I|]); destruct I. }
    destruct V as [| | | | | | |f r e Hst Hun Hbar Hfs Es']; subst;
      cbn in IW, EW; try (destruct EW as [EW|EW]; [discriminate EW|]);
      try (cbn; try apply UM; apply (HI u); [|exact EW]; first [exact (UW _ IW) |
        rewrite upd_if in IW; destruct (Z.eqb_spec u t) as [->|]; [cbn in IW; repeat (destruct IW as [IW|IW]; [discriminate IW|]); try exact IW; destruct IW|exact IW]]; fail).
    rewrite apply_tr in *. destruct (wait_local _ _ _ _ _ _ _ _ _ Hfs) as [A B].
    apply in_app_or in EW. destruct EW as [EW|EW].
    + exfalso. destruct (win_ev _ _ _ _ _ _ _ _ _ _ Hfs EW) as (-> & h & o & -> & EF & EV & CK & EN).
      assert (HC : e_child e = false).
      { destruct (e_child e) eqn:HC; [|reflexivity]. destruct (child_shape _ _ _ _ _ _ _ _ _ Hfs HC) as (CC & _). subst c. discriminate. }
      rewrite apply_stack in IW by exact HC. rewrite EN, Z.eqb_refl, EF in IW. destruct IW as [X|IW]; [discriminate X|].
      destruct (fz_reach _ _ R t FEPWait) as (Q & _); [rewrite Hst; now right|]. rewrite (Q eq_refl) in CK. discriminate.
    + apply unreg_mono. destruct (e_child e) eqn:HC.
      { destruct (child_shape _ _ _ _ _ _ _ _ _ Hfs HC) as (CC & _).
        pose proof (cookie_win _ _ RA u EW) as CK. rewrite (proj1 (proj2 HO) CC) in CK. discriminate. }
      destruct (stack_after s t f r e u FEPWait Hst HC IW) as [(E & [D|D])|[(NE & D)|(st & EN & E & D)]].
      * subst u. destruct (A D) as (o & -> & W). eapply lose_unreg; eauto.
      * subst u. apply HI; [rewrite Hst; now right|exact EW].
      * now apply HI.
      * destruct (B st EN D).
Qed.

(** ** Entering again, run alone, leaves again *)

Lemma step_top dyn s t f r e : g_dead (s_g s) = false -> th_live (s_th s t) = true ->
  th_stack (s_th s t) = f :: r -> is_unwind f = false ->
  frame_step dyn t (s_next s) (s_g s) (th_tsd (s_th s t)) (th_nc (s_th s t)) f CStep = Some e ->
  step dyn s t CStep = Some (apply_eff s t (s_th s t) r e).
Proof.
  intros D L S U F. unfold step. rewrite D, L, S, U. cbn [orb negb barred]. now rewrite F.
Qed.

Lemma ret_state s t r g fr tsd nc ev : apply_eff s t (s_th s t) r (mkeff g fr tsd nc ev None None false) =
  mkst g (upd (s_th s) t (mkth (fr ++ r) tsd true nc (th_pend (s_th s t)))) (s_next s) (ev ++ s_tr s).
Proof. reflexivity. Qed.

Lemma tick_ret dyn s t f r g fr ev : g_dead (s_g s) = false -> th_live (s_th s t) = true ->
  th_stack (s_th s t) = f :: r -> is_unwind f = false ->
  frame_step dyn t (s_next s) (s_g s) (th_tsd (s_th s t)) (th_nc (s_th s t)) f CStep =
    Some (mkeff g fr (th_tsd (s_th s t)) (th_nc (s_th s t)) ev None None false) ->
  exists s', step dyn s t CStep = Some s' /\ s_g s' = g /\ th_stack (s_th s' t) = fr ++ r /\
    th_live (s_th s' t) = true /\ th_tsd (s_th s' t) = th_tsd (s_th s t) /\ s_tr s' = ev ++ s_tr s /\
    (forall u, u <> t -> s_th s' u = s_th s u).
Proof.
  intros D L S U F. eexists. split; [eapply step_top; eauto|]. rewrite ret_state. cbn.
  rewrite upd_same. cbn. repeat split. intros u N. now rewrite upd_other.
Qed.

Lemma reenter_run dyn s t how r : reach dyn orderly_marks s -> In (EWin t) (s_tr s) -> ~ unreg t (s_tr s) ->
  g_dead (s_g s) = false -> th_stack (s_th s t) = FEPGet how :: r ->
  exists s', run dyn s (ticks t 4) = Some s' /\ th_stack (s_th s' t) = r /\ s_tr s' = EExit t how :: s_tr s.
Proof.
  intros RM EW NU D Hst. pose proof (marks_orderly _ _ RM) as R. pose proof (orderly_any _ _ R) as RA.
  pose proof (orderly_clean _ _ R) as RC.
  pose proof (cookie_win _ _ RA t EW) as CK.
  assert (IN : In (FEPGet how) (th_stack (s_th s t))) by (rewrite Hst; now left).
  assert (LV : th_live (s_th s t) = true).
  { destruct (th_live (s_th s t)) eqn:X; [reflexivity|]. rewrite (born_dead _ (born_reach _ _ RA) t X) in IN. destruct IN. }
  assert (TN : exists n, get_tn (s_g s) (th_tsd (s_th s t)) = Some n /\ n_win (nd (s_g s) n) = true).
  { destruct (get_tn (s_g s) (th_tsd (s_th s t))) as [n|] eqn:G.
    - exists n. split; [reflexivity|]. pose proof (ca_tn _ _ _ _ (caller_ready _ _ _ RC LV) G) as M.
      destruct (mark_reach _ _ RM t EW) as [(h & m & r' & X)|[X|X]]; [congruence| |contradiction].
      destruct (mine_belongs _ _ _ _ _ R IN eq_refl M) as [[-> ->]|[NM B]]; destruct X as [[E X]|[E X]]; try contradiction; auto.
    - exfalso. apply NU. destruct (tn_none _ _ _ _ R LV IN eq_refl eq_refl G) as [NM T].
      split; [exact NM|]. pose proof EW as EW'. apply in_split in EW'. destruct EW' as (a & b & E). exists a, b.
      split; [exact E|]. intros k IK. apply (reg_tsd _ _ RC t k); auto. rewrite E. apply in_or_app. right. now right. }
  destruct TN as (n & G & W).
  edestruct (tick_ret dyn s t (FEPGet how) r) as (s1 & S1 & G1 & ST1 & L1 & T1 & R1 & _); eauto.
  { cbn [frame_step auto_step]. unfold ret. reflexivity. }
  edestruct (tick_ret dyn s1 t (FEPCas how (get_tn (s_g s) (th_tsd (s_th s t)))) r) as (s2 & S2 & G2 & ST2 & L2 & T2 & R2 & _); eauto.
  { now rewrite G1. } { cbn [frame_step auto_step]. rewrite G1, CK. unfold go, ret. reflexivity. }
  rewrite G in ST2. cbn [app] in ST2.
  edestruct (tick_ret dyn s2 t (FEPLose (Some n)) r) as (s3 & S3 & G3 & ST3 & L3 & T3 & R3 & _); eauto.
  { now rewrite G2. } { cbn [frame_step auto_step]. rewrite G2, W. unfold go, ret. reflexivity. }
  cbn [app] in ST3.
  edestruct (tick_ret dyn s3 t FEPDone r) as (s4 & S4 & G4 & ST4 & L4 & T4 & R4 & _); eauto.
  { now rewrite G3. } { cbn [frame_step auto_step]. unfold ret. reflexivity. }
  exists s4. split; [|split].
  - unfold ticks. cbn [repeat run]. now rewrite S1, S2, S3, S4.
  - exact ST4.
  - rewrite R4, R3, R2, R1. reflexivity.
Qed.

(** ** There is at most one winner *)

Definition is_win (e : event) : bool := match e with EWin _ => true | _ => false end.

Lemma one_win dyn s : reach dyn any s -> count is_win (s_tr s) <= b2n (g_cookie (s_g s)).
Proof.
  apply (reach_invariant dyn any (fun s => count is_win (s_tr s) <= b2n (g_cookie (s_g s)))); [cbn; lia|].
  clear s. intros s t c s' R HI _ HS. apply step_view in HS. destruct HS as (_ & LV & V).
  destruct V as [| | | | | | |f r e Hst Hun Hbar Hfs Es']; subst; try exact HI.
  rewrite apply_tr, apply_g, count_app. destruct (fz_local _ _ _ _ _ _ _ _ _ Hfs) as (X & _).
  assert (D : count is_win (e_ev e) = 0 \/ (count is_win (e_ev e) = 1 /\ g_cookie (s_g s) = false /\ g_cookie (e_g e) = true)).
  { clear - Hfs. fs_cases Hfs; brk Hfs; inversion Hfs; subst; clear Hfs; cbn; auto;
      repeat match goal with |- context [if ?b then _ else _] => destruct b; cbn end; auto. }
  destruct D as [D|(D & C1 & C2)]; rewrite D; [|rewrite C1 in HI; rewrite C2; cbn in *; lia].
  destruct X as [X|[X _]]; rewrite X; [exact HI|]. destruct (g_cookie (s_g s)); cbn in *; lia.
Qed.

Lemma win_split dyn s t a b a' b' : reach dyn any s -> s_tr s = a ++ EWin t :: b -> s_tr s = a' ++ EWin t :: b' -> b = b'.
Proof.
  intros R E E'. pose proof (one_win _ _ R) as W. assert (C : count is_win (s_tr s) <= 1) by (destruct (g_cookie (s_g s)); cbn in W; lia).
  clear W R. revert a a' E E' C. generalize (s_tr s). intros l. induction l as [|x l IH]; intros a a' E E' C.
  { destruct a; discriminate. }
  destruct a as [|y a]; destruct a' as [|y' a']; cbn in E, E'; inversion E; inversion E'; subst; subst; auto.
  - exfalso. cbn in C. rewrite count_app in C. cbn in C. lia.
  - exfalso. cbn in C. rewrite count_app in C. cbn in C. lia.
  - eapply IH; eauto. cbn in C. destruct (is_win y'); lia.
Qed.
