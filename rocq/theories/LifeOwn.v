(** Ownership of nodes in orderly executions. *)
From Verif Require Export LifeCreate LifeExitSpec.

Local Open Scope nat_scope.

Lemma orderly_clean dyn s : reach dyn orderly s -> reach dyn clean_forks s.
Proof. apply reach_weaken. intros s0 t c H. apply H. Qed.
Lemma orderly_any dyn s : reach dyn orderly s -> reach dyn any s.
Proof. intros R. apply clean_any, orderly_clean, R. Qed.

(** ** A thread's own function is at the bottom of its stack *)

Fixpoint based (st : list frame) : Prop :=
  match st with
  | [] => True
  | f :: r => (bt_frame f = true -> r = [FApp AppTsd]) /\ based r
  end.

Lemma based_app a r : (existsb bt_frame a = true -> r = [FApp AppTsd]) ->
  based (a ++ [FApp AppTsd]) -> based r -> based (a ++ r).
Proof.
  induction a as [|f a IH]; cbn; [auto|]. intros E [A B] R. split.
  - intros X. rewrite X in E. cbn in E. rewrite (E eq_refl). auto.
  - apply IH; auto. intros X. apply E. rewrite X. now rewrite orb_true_r.
Qed.

Lemma based_local dyn t u g tsd nc f c e : frame_step dyn t u g tsd nc f c = Some e ->
  based (e_fr e ++ [FApp AppTsd]) /\ (bt_frame f = false -> existsb bt_frame (e_fr e) = false) /\
  (forall st, e_new e = Some st -> based st).
Proof.
  intros H. split; [|split].
  - fs_cases H; brk H; inversion H; subst; clear H; cbn; repeat split; intros; try discriminate; auto.
  - intros B. fs_cases H; brk H; inversion H; subst; clear H; cbn in B |- *; try discriminate B; auto; now rewrite orb_false_r.
  - intros st E. fs_cases H; brk H; inversion H; subst; clear H; cbn in E; try discriminate E; inversion E; subst;
      cbn; repeat split; intros; try discriminate; auto.
Qed.

Lemma based_unwind st : based (unwind st).
Proof. destruct (unwind_shape st) as [U|(n & p & U & _)]; rewrite U; cbn; repeat split; intros; auto; discriminate. Qed.

Lemma based_reach dyn s : reach dyn any s -> forall t, based (th_stack (s_th s t)).
Proof.
  apply (reach_invariant dyn any (fun s => forall t, based (th_stack (s_th s t)))).
  - intros t. cbn. rewrite upd_if. destruct (Z.eqb t MAIN); cbn; repeat split; intros; discriminate.
  - clear s. intros s t c s' R HI _ HS. apply step_view in HS. destruct HS as (_ & LV & V).
    destruct V as [| | | | | | |f r e Hst Hun Hbar Hfs Es']; subst; intros t'; cbn [add_ev set_th s_th];
      try (rewrite upd_if; destruct (Z.eqb t' t); [cbn|apply HI]; try apply based_unwind;
           repeat split; intros; try discriminate; auto; apply HI).
    destruct (based_local _ _ _ _ _ _ _ _ _ Hfs) as (A & B & C).
    pose proof (HI t) as HT. rewrite Hst in HT. destruct HT as [HT1 HT2].
    assert (D : based (e_fr e ++ r)).
    { apply based_app; auto. intros X. apply HT1. destruct (bt_frame f); [reflexivity|]. rewrite B in X by reflexivity. discriminate. }
    destruct (e_child e) eqn:HC.
    + destruct (child_shape _ _ _ _ _ _ _ _ _ Hfs HC) as (_ & _ & _ & _ & _ & N & K & _).
      rewrite apply_stack_child by auto. destruct (Z.eqb t' t); [exact D|exact I].
    + rewrite apply_stack by auto. destruct (e_new e) as [st|].
      * destruct (Z.eqb t' (s_next s)); [now apply C|]. destruct (Z.eqb t' t); auto.
      * destruct (Z.eqb t' t); auto.
Qed.

Lemma based_split st l b r : based st -> st = l ++ b :: r -> bt_frame b = true -> r = [FApp AppTsd].
Proof.
  revert st. induction l as [|x l IH]; intros st B -> T; cbn in B; [now apply B|].
  eapply IH; [apply B|reflexivity|exact T].
Qed.

Lemma bt_top dyn s t f r : reach dyn any s -> th_stack (s_th s t) = f :: r -> bt_frame f = true ->
  r = [FApp AppTsd].
Proof.
  intros R Hst B. pose proof (based_reach _ _ R t) as X. rewrite Hst in X. now apply X.
Qed.

(** ** The frames of a stack after a step *)

Lemma stack_after s t f r e t' f' : th_stack (s_th s t) = f :: r -> e_child e = false ->
  In f' (th_stack (s_th (apply_eff s t (s_th s t) r e) t')) ->
  (t' = t /\ (In f' (e_fr e) \/ In f' r)) \/ (t' <> t /\ In f' (th_stack (s_th s t'))) \/
  (exists st, e_new e = Some st /\ t' = s_next s /\ In f' st).
Proof.
  intros Hst HC. rewrite apply_stack by auto. intros I.
  destruct (e_new e) as [st|].
  - destruct (Z.eqb_spec t' (s_next s)); [right; right; eauto|].
    destruct (Z.eqb_spec t' t); [left; apply in_app_iff in I; auto|auto].
  - destruct (Z.eqb_spec t' t); [left; apply in_app_iff in I; auto|auto].
Qed.

(** ** Exit frames, the exit flags and resets *)

(** Frames of end_process past the compare-and-swap. *)
Definition exiting (f : frame) : bool :=
  match f with
  | FEPWin _ _ | FEPBegin _ | FEPFini _ | FEPLose _ | FEPWait | FEPDone
  | FSUsed | FSLock _ | FSSet _ | FSUnlock _ | FSInstall _ | FSMain _ | FSPass _ | FSNode _ _
  | FSStarted _ _ _ | FSDone _ _ _ | FSEnd _ | FSOwn _ | FSOwnCall _ _ | FSOwnDone _ _ | FSRestore _ => true
  | FCb _ (KBeginExit _) | FCb _ KFiniProcess | FCb _ (KFiniOwn _ _) => true
  | _ => false
  end.
(** Frames of thread_shootdown past its first test. *)
Definition shootdown (f : frame) : bool :=
  match f with
  | FSLock _ | FSSet _ | FSUnlock _ | FSInstall _ | FSMain _ | FSPass _ | FSNode _ _
  | FSStarted _ _ _ | FSDone _ _ _ | FSEnd _ | FSOwn _ | FSOwnCall _ _ | FSOwnDone _ _ | FSRestore _ => true
  | FCb _ (KFiniOwn _ _) => true
  | _ => false
  end.

Definition Qfz (g : glob) (tr : list event) (t : Z) (f : frame) : Prop :=
  (exiting f = true -> g_cookie g = true) /\ (resetting f = true -> g_cookie g = false) /\
  (shootdown f = true -> g_used g = true).

Lemma fz_local dyn t u g tsd nc f c e : frame_step dyn t u g tsd nc f c = Some e ->
  (g_cookie (e_g e) = g_cookie g \/ (g_cookie (e_g e) = true /\ exists h o, f = FEPCas h o)) /\
  (resetting f = false -> g_used g = true -> g_used (e_g e) = true) /\
  (forall f', In f' (e_fr e) -> exiting f' = true -> exiting f = true \/ g_cookie (e_g e) = true) /\
  (forall f', In f' (e_fr e) -> shootdown f' = true -> shootdown f = true \/ g_used (e_g e) = true) /\
  (shootdown f = true -> exiting f = true) /\
  (e_child e = false -> forall f', In f' (e_fr e) -> resetting f' = true -> resetting f = true) /\
  (forall st f', e_new e = Some st -> In f' st -> exiting f' = false /\ shootdown f' = false /\ resetting f' = false).
Proof.
  intros H. split; [|split; [|split; [|split; [|split; [|split]]]]].
  - fs_cases H; brk H; inversion H; subst; clear H; cbn; auto; g_brk; auto; eauto 6.
  - intros X. fs_cases H; try discriminate X; brk H; inversion H; subst; clear H; cbn; auto; g_brk; auto; congruence.
  - intros f' I' X. fs_cases H; brk H; inversion H; subst; clear H; cbn; cbn in I'; auto;
      repeat (destruct I' as [<-|I']; [cbn in X |- *; try discriminate X; auto|]); try (destruct I'; fail).
  - intros f' I' X. fs_cases H; brk H; inversion H; subst; clear H; cbn; cbn in I'; auto;
      repeat (destruct I' as [<-|I']; [cbn in X |- *; try discriminate X; auto|]); try (destruct I'; fail).
  - clear H. intros X. destruct f; try discriminate X; try reflexivity. destruct k; try discriminate X; reflexivity.
  - intros HC f' I' X. fs_cases H; brk H; inversion H; subst; clear H; cbn in HC; try discriminate HC; cbn; cbn in I'; auto;
      repeat (destruct I' as [<-|I']; [cbn in X |- *; try discriminate X; auto|]); try (destruct I'; fail).
  - intros st f' E I'. fs_cases H; brk H; inversion H; subst; clear H; cbn in E; try discriminate E;
      inversion E; subst; cbn in I'; repeat (destruct I' as [<-|I']; [auto|]); destruct I'.
Qed.

Lemma fz_reach dyn s : reach dyn orderly s -> fr_inv Qfz s.
Proof.
  apply fr_reach.
  - intros t f I. cbn in I. rewrite upd_if in I. destruct (Z.eqb t MAIN); [|destruct I].
    cbn in I. unfold Qfz. repeat destruct I as [<-|I]; try (repeat split; discriminate). destruct I.
  - auto.
  - intros g tr t f I. cbn in I. unfold Qfz. repeat destruct I as [<-|I]; try (repeat split; discriminate). destruct I.
  - intros. repeat split; discriminate.
  - intros s0 t c f r e R HI HO Hst LV Hfs. pose proof (who_reach _ _ (orderly_clean _ _ R)) as W.
    assert (IN : In f (th_stack (s_th s0 t))) by (rewrite Hst; now left).
    destruct (fz_local _ _ _ _ _ _ _ _ _ Hfs) as (A & B & C & D & E & F & G).
    destruct (HI t f IN) as (Q1 & Q2 & Q3).
    assert (NR : forall t' f', resetting f' = true -> t' = t /\ In f' r \/
         t' <> t /\ e_child e = false /\ In f' (th_stack (s_th s0 t')) -> False).
    { intros t' f' RS [[-> J]|[N [_ J]]].
      - destruct (who_reset _ W t) as (_ & (f1 & r1 & E1 & R1 & R2 & _) & _).
        { apply existsb_exists. exists f'. split; [rewrite Hst; now right|exact RS]. }
        rewrite Hst in E1. inversion E1; subst. pose proof (existsb_false_in _ _ _ R2 J). congruence.
      - destruct (who_reset _ W t') as (M & _ & AL); [apply existsb_exists; eauto|].
        subst t'. rewrite AL in LV by auto. discriminate. }
    assert (K : exiting f = true -> resetting f = false).
    { intros X. destruct (resetting f); [|reflexivity]. rewrite (Q1 X) in Q2. specialize (Q2 eq_refl). discriminate. }
    split; [|split].
    + intros f' J. unfold Qfz. split; [|split].
      * intros X. destruct (C _ J X) as [Y|Y]; [|exact Y].
        destruct A as [A|(A & _)]; [rewrite A; auto|exact A].
      * intros X. destruct (e_child e) eqn:HC.
        -- destruct (child_shape _ _ _ _ _ _ _ _ _ Hfs HC) as (CC & GG & _). rewrite GG.
           apply (proj1 (proj2 HO)). exact CC.
        -- pose proof (F eq_refl _ J X) as Y. specialize (Q2 Y).
           destruct A as [A|(A & h & o & ->)]; [congruence|discriminate Y].
      * intros X. destruct (D _ J X) as [Y|Y]; [|exact Y]. apply B; auto.
    + intros t' f' J (P1 & P2 & P3). unfold Qfz. split; [|split].
      * intros X. destruct A as [A|(A & _)]; [rewrite A; auto|exact A].
      * intros X. destruct (NR _ _ X J).
      * intros X. apply B; [|auto].
        destruct (resetting f) eqn:RS; [|reflexivity]. specialize (Q2 eq_refl).
        assert (Y : exiting f' = true) by (clear - X; destruct f'; try discriminate X; try reflexivity;
          destruct k; try discriminate X; reflexivity).
        rewrite P1 in Q2 by exact Y. discriminate.
    + intros st f' E1 J. destruct (G _ _ E1 J) as (X & Y & Z). unfold Qfz. rewrite X, Y, Z. repeat split; discriminate.
Qed.

(** Once the exit cleanup has begun, the list only grows. *)
Record frozen_inv (g : glob) : Prop := mkfrozen {
  fz_cookie : g_cookie g = true;
  fz_used : g_used g = true
}.

Lemma no_reset_exit dyn s t : reach dyn orderly s -> g_cookie (s_g s) = true ->
  existsb resetting (th_stack (s_th s t)) = false.
Proof.
  intros R C. apply existsb_false_all. intros f I. destruct (fz_reach _ _ R t f I) as (_ & Q & _).
  destruct (resetting f); [|reflexivity]. rewrite C in Q. specialize (Q eq_refl). discriminate.
Qed.

Lemma frozen_reach dyn s : reach dyn orderly s -> g_inexit (s_g s) = true -> frozen_inv (s_g s).
Proof.
  apply (reach_invariant dyn orderly (fun s => g_inexit (s_g s) = true -> frozen_inv (s_g s))); [discriminate|].
  clear s. intros s t c s' R HI HO HS. apply step_view in HS. destruct HS as (_ & LV & V).
  destruct V as [| | | | | | |f r e Hst Hun Hbar Hfs Es']; subst; try exact HI.
  rewrite apply_g. intros IE.
  assert (IN : In f (th_stack (s_th s t))) by (rewrite Hst; now left).
  destruct (fz_reach _ _ R t f IN) as (Q1 & Q2 & Q3).
  destruct (fz_local _ _ _ _ _ _ _ _ _ Hfs) as (A & B & _).
  assert (Z : frozen_inv (s_g s)).
  { destruct (exit_local _ _ _ _ _ _ _ _ _ Hfs) as ([X|(X & old & ->)] & _).
    - apply HI. congruence.
    - constructor; [apply Q1|apply Q3]; reflexivity. }
  destruct Z as [Z1 Z2]. constructor.
  - destruct A as [A|(A & _)]; congruence.
  - apply B; [|exact Z2]. destruct (resetting f); [|reflexivity]. rewrite Z1 in Q2. specialize (Q2 eq_refl). discriminate.
Qed.


Lemma exit_grow dyn s t c f r e : reach dyn orderly s -> orderly s t c -> th_stack (s_th s t) = f :: r ->
  frame_step dyn t (s_next s) (s_g s) (th_tsd (s_th s t)) (th_nc (s_th s t)) f c = Some e ->
  g_inexit (s_g s) = true ->
  incl (g_list (s_g s)) (g_list (e_g e)) /\ g_inexit (e_g e) = true /\ e_child e = false.
Proof.
  intros R HO Hst Hfs IE. destruct (frozen_reach _ _ R IE) as [Z1 Z2].
  assert (IN : In f (th_stack (s_th s t))) by (rewrite Hst; now left).
  pose proof (no_reset_exit _ _ t R Z1) as NR.
  pose proof (exit_frames _ _ (orderly_any _ _ R)) as EF.
  split; [|split].
  - intros n I. destruct (list_stay _ _ _ _ _ _ _ _ _ _ Hfs I) as [J | ->]; auto.
    + apply (existsb_false_in _ _ _ NR IN).
    + destruct (EF t _ IN) as [Y _]. rewrite (Y eq_refl) in IE. discriminate IE.
  - destruct (exit_local _ _ _ _ _ _ _ _ _ Hfs) as ([X|(X & _)] & _); congruence.
  - destruct (e_child e) eqn:HC; [|reflexivity].
    destruct (child_shape _ _ _ _ _ _ _ _ _ Hfs HC) as (CC & _).
    rewrite (proj1 (proj2 HO) CC) in Z1. discriminate.
Qed.

(** ** The owner of a listed node does not change *)

Lemma self_local dyn t u g tsd nc f c e n : frame_step dyn t u g tsd nc f c = Some e -> n <> MAIN_TN ->
  n_self (nd (e_g e) n) = n_self (nd g n) \/ f = FBT BTSelf n \/ f = FClean CLZero n \/
  (exists q my d, f = FPCZero q my d n).
Proof.
  intros H N. fs_cases H; brk H; inversion H; subst; clear H; cbn [e_g]; auto;
    unfold nd; cbn; g_brk; rewrite ?upd_if; auto;
    repeat match goal with |- context [Z.eqb ?a ?b] => destruct (Z.eqb_spec a b); subst end;
    cbn; auto; try congruence; eauto 10.
Qed.

(** Thread t's node n is on the list of a process in its exit cleanup. *)
Definition kept (s : state) (t n : Z) : Prop :=
  n <> MAIN_TN /\ In n (g_list (s_g s)) /\ n_self (nd (s_g s) n) = t /\ g_inexit (s_g s) = true.

Lemma kept_step dyn s t c s' : reach dyn orderly s -> orderly s t c -> step dyn s t c = Some s' ->
  forall u n, kept s u n -> kept s' u n.
Proof.
  intros R HO HS. pose proof (nodes_reach _ _ (orderly_clean _ _ R)) as (N & _ & _).
  apply step_view in HS. destruct HS as (_ & LV & V).
  destruct V as [| | | | | | |f r e Hst Hun Hbar Hfs Es']; subst; auto.
  intros u n (NM & L & S & IE).
  assert (IN : In f (th_stack (s_th s t))) by (rewrite Hst; now left).
  destruct (exit_grow _ _ _ _ _ _ _ R HO Hst Hfs IE) as (G1 & G2 & G3).
  unfold kept. rewrite !apply_g. split; [exact NM|]. split; [now apply G1|]. split; [|exact G2].
  pose proof (ni_q _ N t f IN) as Q.
  destruct (self_local _ _ _ _ _ _ _ _ _ n Hfs NM) as [X|[->|[->|(q & my & d & ->)]]]; [congruence|..];
    destruct (Q L).
Qed.

(** ** The thread-specific data of a created thread is set once *)

Lemma fresh_tsd dyn s : reach dyn any s -> forall t, (s_next s <= t)%Z -> th_tsd (s_th s t) = None.
Proof.
  apply (reach_invariant dyn any (fun s => forall t, (s_next s <= t)%Z -> th_tsd (s_th s t) = None)).
  - intros t L. cbn in *. rewrite upd_if. destruct (Z.eqb t MAIN); reflexivity.
  - clear s. intros s t c s' R HI HO HS. pose proof (born_reach _ _ R) as B.
    apply step_view in HS. destruct HS as (_ & LV & V).
    assert (T : (t < s_next s)%Z).
    { destruct (Z.lt_ge_cases t (s_next s)) as [L|L]; [exact L|].
      destruct (born_fresh _ B t L) as (_ & X & _). rewrite LV in X. discriminate. }
    destruct V as [| | | | | | |f r e Hst Hun Hbar Hfs Es']; subst; intros t' L; cbn [add_ev set_th s_th s_next] in *;
      try (rewrite upd_other by lia; now apply HI).
    rewrite apply_next in L.
    destruct (e_child e) eqn:HC.
    { destruct (child_shape _ _ _ _ _ _ _ _ _ Hfs HC) as (CC & _ & _ & _ & _ & N & K & _).
      unfold apply_eff. rewrite HC, N, K. rewrite N in L. cbn. rewrite upd_other by lia. reflexivity. }
    rewrite apply_tsd by auto. destruct (e_new e).
    + rewrite (proj2 (Z.eqb_neq t' (s_next s))), (proj2 (Z.eqb_neq t' t)) by lia. apply HI. lia.
    + rewrite (proj2 (Z.eqb_neq t' t)) by lia. now apply HI.
Qed.

Lemma tsd_step dyn s t c s' u n : reach dyn clean_forks s -> clean_forks s t c -> step dyn s t c = Some s' ->
  u <> MAIN -> th_tsd (s_th s u) = Some n -> th_tsd (s_th s' u) = Some n \/ (c = CChild /\ s_th s' u = th0).
Proof.
  intros R HO HS NM T. pose proof (who_reach _ _ R) as W. pose proof (data_reach _ _ R) as DA.
  pose proof (fresh_tsd _ _ (clean_any _ _ R)) as FT.
  apply step_view in HS. destruct HS as (_ & LV & V).
  destruct V as [| | | | | | |f r e Hst Hun Hbar Hfs Es']; subst; cbn [add_ev set_th s_th];
    try (left; rewrite upd_if; destruct (Z.eqb_spec u t); [subst u|]; cbn; exact T).
  assert (IN : In f (th_stack (s_th s t))) by (rewrite Hst; now left).
  destruct (e_child e) eqn:HC.
  { destruct (child_shape _ _ _ _ _ _ _ _ _ Hfs HC) as (CC & _ & _ & _ & _ & N & K & _).
    right. destruct (proj1 HO CC) as [-> _]. split; [exact CC|]. unfold apply_eff. rewrite HC, N, K. cbn.
    rewrite upd_if. destruct (Z.eqb_spec u MAIN); [contradiction|reflexivity]. }
  left. rewrite apply_tsd by auto.
  assert (X : (if Z.eqb u t then e_tsd e else th_tsd (s_th s u)) = Some n).
  { destruct (Z.eqb_spec u t); [subst u|exact T].
    destruct (tsd_local _ _ _ _ _ _ _ _ _ Hfs) as [Y|[(m & ->)|[(q & -> & U)|RS]]].
    - congruence.
    - pose proof (DA t _ IN) as Q. cbn in Q. destruct Q as [_ Q]. congruence.
    - rewrite (who_alone _ W U t NM) in LV. discriminate.
    - destruct (who_reset _ W t) as (Y & _); [rewrite Hst; cbn; now rewrite RS|contradiction]. }
  destruct (e_new e); [|exact X]. destruct (Z.eqb_spec u (s_next s)) as [E|]; [|exact X].
  rewrite FT in T by lia. discriminate.
Qed.

(** ** What the exit code scans *)

Definition Qscan (g : glob) (tr : list event) (t : Z) (f : frame) : Prop :=
  match f with
  | FSNode _ r => incl r (g_list g)
  | FSStarted _ n r | FSDone _ n r => incl (n :: r) (g_list g)
  | _ => True
  end.

Lemma scan_reach dyn s : reach dyn orderly s -> fr_inv Qscan s.
Proof.
  apply fr_reach.
  - intros t f I. cbn in I. rewrite upd_if in I. destruct (Z.eqb t MAIN); [|destruct I].
    cbn in I. repeat (destruct I as [<-|I]; [exact I || (cbn; trivial)|]). destruct I.
  - auto.
  - intros g tr t f I. cbn in I. repeat (destruct I as [<-|I]; [cbn; trivial|]). destruct I.
  - intros. exact I.
  - intros s0 t c f r e R HI HO Hst LV Hfs.
    assert (IN : In f (th_stack (s_th s0 t))) by (rewrite Hst; now left).
    pose proof (exit_frames _ _ (orderly_any _ _ R)) as EF.
    assert (M : forall t' f', In f' (th_stack (s_th s0 t')) -> Qscan (s_g s0) (s_tr s0) t' f' ->
        Qscan (e_g e) (e_ev e ++ s_tr s0) t' f').
    { intros t' f' J Q. destruct (EF t' f' J) as [_ X].
      assert (Y : forall l, after_freeze f' = true -> incl l (g_list (s_g s0)) -> incl l (g_list (e_g e))).
      { intros l A B. eapply incl_tran; [exact B|]. apply (exit_grow _ _ _ _ _ _ _ R HO Hst Hfs (X A)). }
      destruct f'; auto; apply Y; auto. }
    split; [|split].
    + pose proof (HI t f IN) as Q. intros f' J. clear M.
      fs_cases Hfs; brk Hfs; inversion Hfs; subst; clear Hfs; cbn in J;
        repeat (destruct J as [<-|J]; [cbn; try exact I|]); try (destruct J; fail).
      all: try (cbn in Q |- *; try exact Q; try (apply incl_refl); try (intros y Y; apply Q; now right)).
    + intros t' f' [[-> J]|(_ & _ & J)]; apply M; auto. rewrite Hst. now right.
    + intros st f' E1 J. fs_cases Hfs; brk Hfs; inversion Hfs; subst; clear Hfs; cbn in E1; try discriminate E1;
      inversion E1; subst; cbn in J; repeat (destruct J as [<-|J]; [cbn; trivial|]); destruct J.
Qed.

(** ** A thread with a pending shootdown signal *)

Lemma kill_local dyn t u g tsd nc f c e k : frame_step dyn t u g tsd nc f c = Some e -> e_kill e = Some k ->
  exists l n r, f = FSStarted l n r /\ k = n_self (nd g n) /\ e_g e = g.
Proof.
  intros H K. fs_cases H; brk H; inversion H; subst; clear H; cbn in K; try discriminate K. inversion K. eauto 6.
Qed.

Definition pend_inv (s : state) : Prop := forall t, t <> MAIN -> th_pend (s_th s t) = true ->
  exists n, th_tsd (s_th s t) = Some n /\ kept s t n.

Lemma pend_reach dyn s : reach dyn orderly s -> pend_inv s.
Proof.
  apply (reach_invariant dyn orderly pend_inv).
  - intros t NM P. cbn in P. rewrite upd_if in P. destruct (Z.eqb t MAIN); discriminate.
  - clear s. intros s t c s' R HI HO HS. pose proof HS as HS0. pose proof (orderly_clean _ _ R) as RC.
    apply step_view in HS. destruct HS as (_ & LV & V).
    assert (K : forall u, u <> MAIN -> c <> CChild -> th_pend (s_th s u) = true ->
       exists n, th_tsd (s_th s' u) = Some n /\ kept s' u n).
    { intros u NM NC P. destruct (HI u NM P) as (n & T & KP). exists n. split.
      - destruct (tsd_step _ _ _ _ _ _ _ RC (proj1 HO) HS0 NM T) as [X|[X _]]; [exact X|contradiction].
      - eapply kept_step; eauto. }
    intros u NM P.
    destruct V as [| | | | | | |f r e Hst Hun Hbar Hfs Es'];
      try (subst c; apply K; [exact NM|discriminate|];
           subst s'; cbn [add_ev set_th s_th] in P; rewrite upd_if in P; destruct (Z.eqb_spec u t); [subst u|exact P];
           cbn in P; try discriminate P; exact P).
    assert (IN : In f (th_stack (s_th s t))) by (rewrite Hst; now left).
    destruct (e_child e) eqn:HC.
    { destruct (child_shape _ _ _ _ _ _ _ _ _ Hfs HC) as (CC & _ & _ & _ & _ & N & KK & _).
      exfalso. subst s'. unfold apply_eff in P. rewrite HC, N, KK in P. cbn in P. rewrite upd_if in P.
      destruct (Z.eqb u t); discriminate P. }
    assert (NC : c <> CChild).
    { intros ->. destruct f; try discriminate Hfs; cbn in Hfs; inversion Hfs; subst; discriminate HC. }
    subst s'. destruct (apply_pend _ _ _ _ _ _ HC eq_refl P) as [P'|EK]; [now apply K|].
    destruct (kill_local _ _ _ _ _ _ _ _ _ _ Hfs EK) as (l & n & r' & -> & S & EG).
    pose proof (scan_reach _ _ R t _ IN) as SC. cbn in SC.
    assert (L : In n (g_list (s_g s))) by (apply SC; now left).
    destruct (fz_reach _ _ R t _ IN) as (Q1 & _ & Q3). specialize (Q1 eq_refl). specialize (Q3 eq_refl).
    destruct (exit_frames _ _ (orderly_any _ _ R) t _ IN) as [_ IE]. specialize (IE eq_refl).
    assert (NT : n <> MAIN_TN).
    { intros ->. apply NM. rewrite S. apply (mi_self _ (main_reach _ _ RC)). now left. }
    destruct (li_fact _ (listed_reach _ _ RC) (no_reset_exit _ _ MAIN R Q1) n L NT) as [_ T].
    rewrite <- S in T. exists n. split.
    + destruct (tsd_step _ _ _ _ _ _ _ RC (proj1 HO) HS0 NM T) as [X|[X _]]; [exact X|contradiction].
    + eapply kept_step; eauto. split; [exact NT|]. split; [exact L|]. split; [now symmetry|exact IE].
Qed.

(** ** Valid nodes *)

(** Frames a thread can have without an entry into the library other than its own
    function. *)
Definition quiet (f : frame) : bool :=
  match f with FApp _ | FRun _ _ => true | _ => bt_frame f end.

(** Node n belongs to thread t: t is in its own function and holds n, or n is kept. *)
Definition valid (s : state) (t n : Z) : Prop :=
  (exists b, In b (th_stack (s_th s t)) /\ owner b = true /\ holds n b = true) \/ kept s t n.

Definition own_inv (s : state) : Prop := forall t n f, t <> MAIN ->
  In f (th_stack (s_th s t)) -> quiet f = false -> th_tsd (s_th s t) = Some n -> valid s t n.

Lemma owner_holds g tr tsd t b n : owner b = true -> Qdata g tr tsd t b -> tsd = Some n -> holds n b = true.
Proof.
  intros O Q T. destruct b; try discriminate O.
  - destruct k; try discriminate O; cbn in Q |- *; destruct Q as (_ & _ & Q); rewrite T in Q; inversion Q; apply Z.eqb_refl.
  - cbn in Q. destruct Q as [_ Q]. rewrite T in Q. cbn. destruct (keyless p); [discriminate|]. inversion Q. apply Z.eqb_refl.
  - cbn in Q. destruct p; try discriminate O; cbn; destruct Q as [_ Q]; rewrite T in Q; inversion Q; apply Z.eqb_refl.
Qed.

Lemma owner_valid dyn s t n : reach dyn clean_forks s -> th_tsd (s_th s t) = Some n ->
  existsb owner (th_stack (s_th s t)) = true -> valid s t n.
Proof.
  intros R T E. apply existsb_exists in E. destruct E as (b & I & O). left. exists b. split; [exact I|].
  split; [exact O|]. eapply owner_holds; [exact O|apply (data_reach _ _ R t b I)|exact T].
Qed.

Lemma owner_bt b : owner b = true -> bt_frame b = true.
Proof. destruct b; try discriminate; intros; try reflexivity. destruct k; try discriminate; reflexivity. Qed.

(** New frames that are not quiet come from frames that are not, or from a call. *)
Lemma call_local dyn t u g tsd nc f a e : frame_step dyn t u g tsd nc f (CCall a) = Some e ->
  open f = true /\ e_fr e = api_frames a (g_calls g) ++ [f] /\ e_tsd e = tsd /\ e_nc e = nc /\ e_new e = None /\
  e_kill e = None /\ e_child e = false.
Proof.
  intros H. cbn in H. destruct f; try discriminate H; destruct a; try discriminate H; try (inversion H; subst; auto 10; fail).
  destruct a0; try discriminate H. destruct dyn; try discriminate H. inversion H; subst; auto 10.
Qed.

Lemma quiet_local dyn t u g tsd nc f c e : frame_step dyn t u g tsd nc f c = Some e -> quiet f = true ->
  (exists a, c = CCall a /\ open f = true /\ exists l, e_fr e = l ++ [f]) \/ forallb quiet (e_fr e) = true.
Proof.
  intros H Q. destruct c as [|a| | | | | | | | | |];
    [|left; exists a; destruct (call_local _ _ _ _ _ _ _ _ _ H) as (A & B & _); split; [reflexivity|]; split; [exact A|]; eauto|..];
    right; destruct f; try discriminate Q; try discriminate H; cbn in H.
  - inversion H; subst; reflexivity.
  - destruct p; cbn in H; brk H; inversion H; subst; try reflexivity. 
  - destruct p; cbn in H; brk H; inversion H; subst; try reflexivity. 
  - inversion H; subst; reflexivity.
  - destruct k; try discriminate Q; inversion H; subst; reflexivity.
Qed.

Lemma own_reach dyn s : reach dyn orderly s -> own_inv s.
Proof.
  apply (reach_invariant dyn orderly own_inv).
  - intros t n f NM I. cbn in I. rewrite upd_other in I by auto. destruct I.
  - clear s. intros s t c s' R HI HO HS. pose proof HS as HS0. pose proof (orderly_clean _ _ R) as RC.
    pose proof (orderly_any _ _ R) as RA.
    apply step_view in HS. destruct HS as (_ & LV & V).
    assert (KV : forall u n, kept s u n -> valid s' u n) by (intros u n K; right; eapply kept_step; eauto).
    (* steps that push on the stack *)
    assert (PUSH : forall l u n f, s_g s' = s_g s -> (forall u, th_tsd (s_th s' u) = th_tsd (s_th s u)) ->
       (forall u, th_stack (s_th s' u) = if Z.eqb u t then l ++ th_stack (s_th s u) else th_stack (s_th s u)) ->
       (forall f, In f l -> quiet f = false -> forall n, t <> MAIN -> th_tsd (s_th s t) = Some n -> valid s t n) ->
       u <> MAIN -> In f (th_stack (s_th s' u)) -> quiet f = false -> th_tsd (s_th s' u) = Some n -> valid s' u n).
    { intros l u n f EG ET ES EL NM I Q T. rewrite ET in T. rewrite ES in I.
      assert (X : valid s u n).
      { destruct (Z.eqb_spec u t) as [E|]; [|eapply HI; eauto]. subst u. apply in_app_iff in I.
        destruct I as [I|I]; [eapply EL; eauto|eapply HI; eauto]. }
      destruct X as [(b & IB & OB & HB)|K]; [left|now apply KV]. exists b. split; [|auto].
      rewrite ES. destruct (Z.eqb u t); [apply in_app_iff; now right|exact IB]. }
    assert (UNW : forall st, s' = set_th s t (with_stack (s_th s t) (unwind st)) -> own_inv s').
    { intros st -> u n f NM I Q T. cbn in I, T. rewrite upd_if in I, T. destruct (Z.eqb_spec u t) as [E|E].
      - subst u. cbn in I. exfalso.
        destruct (unwind_shape st) as [U|(m & p & U & _)]; rewrite U in I; cbn in I;
          repeat (destruct I as [<-|I]; [discriminate Q|]); destruct I.
      - destruct (HI u n f NM I Q T) as [(b & IB & OB & HB)|K]; [left|now apply KV].
        exists b. cbn. rewrite upd_other by auto. auto. }
    destruct V as [| | | | | | |f r e Hst Hun Hbar Hfs Es'].
    + intros u n f NM I Q T. apply (PUSH [FApp AppHandler] u n f); auto; subst s'; cbn.
      * reflexivity.
      * intros u'. rewrite upd_if. destruct (Z.eqb_spec u' t); subst; reflexivity.
      * intros u'. rewrite upd_if. destruct (Z.eqb_spec u' t); subst; reflexivity.
      * intros f' [<-|[]] X. discriminate X.
    + intros u n f NM I Q T. apply (PUSH [FEPGet EXIT_SIGNAL; FEndLibDyn; FSigEnd] u n f); auto; subst s'; cbn.
      * reflexivity.
      * intros u'. rewrite upd_if. destruct (Z.eqb_spec u' t); subst; reflexivity.
      * intros u'. rewrite upd_if. destruct (Z.eqb_spec u' t); subst; reflexivity.
      * intros f' _ _ m NM' T'. subst c. destruct (proj2 (proj2 HO) (or_introl eq_refl)) as [X|[X|X]]; [contradiction|congruence|].
        eapply owner_valid; eauto.
    + intros u n f NM I Q T. apply (PUSH [FHGet] u n f); auto; subst s'; cbn.
      * reflexivity.
      * intros u'. rewrite upd_if. destruct (Z.eqb_spec u' t); subst; reflexivity.
      * intros u'. rewrite upd_if. destruct (Z.eqb_spec u' t); subst; reflexivity.
      * intros f' _ _ m NM' T'. destruct (pend_reach _ _ R t NM' H0) as (m' & T2 & K).
        rewrite T' in T2. inversion T2; subst. now right.
    + intros u n f' NM I Q T. apply (PUSH [FWGet] u n f'); auto; subst s'; cbn.
      * reflexivity.
      * intros u'. rewrite upd_if. destruct (Z.eqb_spec u' t); subst; reflexivity.
      * intros u'. rewrite upd_if. destruct (Z.eqb_spec u' t); subst; reflexivity.
      * intros f2 _ _ m NM' T'. destruct (pend_reach _ _ R t NM' H0) as (m' & T2 & K).
        rewrite T' in T2. inversion T2; subst. now right.
    + eapply UNW; eauto.
    + eapply UNW; eauto.
    + intros u n f NM I Q T. apply (PUSH [] u n f); auto; subst s'; cbn.
      * reflexivity.
      * intros u'. rewrite upd_if. destruct (Z.eqb_spec u' t); subst; reflexivity.
      * intros u'. rewrite upd_if. destruct (Z.eqb_spec u' t); [subst|reflexivity]. now rewrite H0.
      * intros f' [].
    + assert (IN : In f (th_stack (s_th s t))) by (rewrite Hst; now left).
      intros u n f' NM I Q T.
      destruct (e_child e) eqn:HC.
      { destruct (child_shape _ _ _ _ _ _ _ _ _ Hfs HC) as (CC & _ & _ & _ & _ & N & KK & _).
        exfalso. destruct (proj1 (proj1 HO) CC) as [-> _]. subst s'. rewrite apply_stack_child in I by auto.
        rewrite (proj2 (Z.eqb_neq u MAIN)) in I by auto. destruct I. }
      subst s'. rewrite apply_tsd in T by auto.
      destruct (stack_after s t f r e u f' Hst HC I) as [(E & D)|[(NE & D)|(st & EN & E & D)]].
      * subst u.
        assert (NX : t <> s_next s).
        { intros E. destruct (born_fresh _ (born_reach _ _ RA) t) as (_ & X & _); [lia|]. congruence. }
        assert (ET : e_tsd e = Some n).
        { destruct (e_new e); rewrite ?(proj2 (Z.eqb_neq _ _) NX), Z.eqb_refl in T; exact T. }
        (* the owner frame stays *)
        assert (STAY : forall b, In b (th_stack (s_th s t)) -> owner b = true -> holds n b = true ->
            (bt_frame f = false \/ exists l, e_fr e = l ++ [f]) -> valid (apply_eff s t (s_th s t) r e) t n).
        { intros b IB OB HB ALT. left. exists b. split; [|auto]. rewrite apply_stack by auto.
          assert (X : In b (e_fr e ++ r)).
          { rewrite Hst in IB. destruct IB as [<-|IB]; [|apply in_app_iff; now right].
            destruct ALT as [B|(l & ->)]; [rewrite (owner_bt _ OB) in B; discriminate|].
            rewrite !in_app_iff. left. right. now left. }
          destruct (e_new e); rewrite ?(proj2 (Z.eqb_neq _ _) NX), Z.eqb_refl; exact X. }
        destruct (bt_frame f) eqn:BF.
        -- pose proof (bt_top _ _ _ _ _ RA Hst BF) as ->.
           destruct D as [D|[<-|[]]]; [|discriminate Q].
           destruct (quiet_local _ _ _ _ _ _ _ _ _ Hfs) as [(a & -> & OP & l & EL)|FQ].
           { destruct f; try discriminate BF; cbn; auto. }
           ++ assert (T0 : th_tsd (s_th s t) = Some n).
              { destruct (tsd_local _ _ _ _ _ _ _ _ _ Hfs) as [Y|[(m & ->)|[(q & -> & U)|RS]]];
                  [congruence|discriminate OP|discriminate BF|].
                destruct f; try discriminate OP; discriminate RS. }
              destruct (proj2 (proj2 HO)) as [X|[X|X]]; [right; now exists a|contradiction|congruence|].
              destruct (owner_valid _ _ _ _ RC T0 X) as [(b & IB & OB & HB)|K]; [|now apply KV].
              eapply STAY; eauto.
           ++ rewrite forallb_forall in FQ. rewrite (FQ _ D) in Q. discriminate.
        -- assert (T0 : th_tsd (s_th s t) = Some n).
           { destruct (tsd_local _ _ _ _ _ _ _ _ _ Hfs) as [Y|[(m & ->)|[(q & -> & U)|RS]]];
               [congruence|discriminate BF|..].
             - rewrite (who_alone _ (who_reach _ _ RC) U t NM) in LV. discriminate.
             - destruct (who_reset _ (who_reach _ _ RC) t) as (Y & _); [rewrite Hst; cbn; now rewrite RS|contradiction]. }
           assert (VS : valid s t n).
           { destruct D as [D|D].
             - destruct (quiet f) eqn:QF; [|eapply HI; eauto].
               destruct (quiet_local _ _ _ _ _ _ _ _ _ Hfs QF) as [(a & -> & OP & l & EL)|FQ].
               + destruct (proj2 (proj2 HO)) as [X|[X|X]]; [right; now exists a|contradiction|congruence|].
                 eapply owner_valid; eauto.
               + rewrite forallb_forall in FQ. rewrite (FQ _ D) in Q. discriminate.
             - apply (HI t n f' NM); auto. rewrite Hst. now right. }
           destruct VS as [(b & IB & OB & HB)|K]; [|now apply KV]. eapply STAY; eauto.
      * assert (NX : u <> s_next s).
        { intros E. destruct (born_fresh _ (born_reach _ _ RA) u) as (X & _); [lia|]. rewrite X in D. destruct D. }
        assert (T0 : th_tsd (s_th s u) = Some n).
        { destruct (e_new e); rewrite ?(proj2 (Z.eqb_neq _ _) NX), (proj2 (Z.eqb_neq _ _) NE) in T; exact T. }
        destruct (HI u n f' NM D Q T0) as [(b & IB & OB & HB)|K]; [left|now apply KV].
        exists b. split; [|auto]. rewrite apply_stack by auto.
        destruct (e_new e); rewrite ?(proj2 (Z.eqb_neq _ _) NX), (proj2 (Z.eqb_neq _ _) NE); exact IB.
      * exfalso. clear - Hfs EN D Q. fs_cases Hfs; brk Hfs; inversion Hfs; subst; clear Hfs; cbn in EN; try discriminate EN;
          inversion EN; subst; cbn in D; repeat (destruct D as [<-|D]; [discriminate Q|]); destruct D.
Qed.

(** ** A valid node has one thread *)

Lemma valid_holder dyn s t n t' f : reach dyn clean_forks s -> valid s t n ->
  In f (th_stack (s_th s t')) -> holds n f = true -> t' = t.
Proof.
  intros R V I H. pose proof (nodes_reach _ _ R) as (N & _ & _).
  destruct V as [(b & IB & OB & HB)|(NM & L & S & IE)].
  - destruct (ni_own _ N) as (ow & A & _).
    pose proof (held_owned s ow t b n A IB HB). pose proof (held_owned s ow t' f n A I H). congruence.
  - pose proof (ni_q _ N t' f I) as Q. pose proof (data_reach _ _ R t' f I) as D.
    destruct f; try discriminate H; cbn in H; try (apply Z.eqb_eq in H; subst); cbn in Q; try (destruct (Q L)).
    + destruct k; try discriminate H; apply Z.eqb_eq in H; subst; cbn in D; destruct D as [D _].
      * destruct D as (c0 & q & d & _ & _ & _ & _ & X & _). destruct (X eq_refl). congruence.
      * destruct D as (c0 & q & d & _ & _ & _ & _ & X & _). congruence.
    + cbn in D. destruct D as [(c0 & q & d & _ & _ & _ & _ & X & _) _].
      destruct p; try (destruct (Q L)); destruct (X eq_refl); congruence.
    + destruct p; try discriminate H; apply Z.eqb_eq in H; subst; try (destruct (Q L)); cbn in D;
        destruct D as [(c0 & q & d & _ & _ & _ & _ & X & _) _]; congruence.
Qed.

Lemma valid_unique dyn s t n t' : reach dyn clean_forks s -> valid s t n -> valid s t' n -> t' = t.
Proof.
  intros R V V'. destruct V' as [(b & IB & OB & HB)|K].
  - eapply valid_holder; eauto.
  - destruct V as [(b & IB & OB & HB)|(_ & _ & S & _)].
    + symmetry. eapply valid_holder; eauto. now right.
    + destruct K as (_ & _ & S' & _). congruence.
Qed.
