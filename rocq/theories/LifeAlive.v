(** Threads that get a signal are alive. *)
From Verif Require Export LifeOwnFini LifeAliveSpec.

Local Open Scope nat_scope.

Lemma calm_orderly dyn u s : reach dyn (calm u) s -> reach dyn orderly s.
Proof. apply reach_weaken. intros s0 t c H. apply H. Qed.

(** ** A thread that has ended stays dead *)

Lemma ended_dead dyn s : reach dyn any s -> forall u, In (EEnd u) (s_tr s) -> th_live (s_th s u) = false /\ (u < s_next s)%Z.
Proof.
  apply (reach_invariant dyn any (fun s => forall u, In (EEnd u) (s_tr s) -> th_live (s_th s u) = false /\ (u < s_next s)%Z)).
  - intros u [].
  - clear s. intros s t c s' R HI _ HS u IE. pose proof (born_reach _ _ R) as B. apply step_view in HS. destruct HS as (_ & LV & V).
    assert (T : (t < s_next s)%Z).
    { destruct (Z.lt_ge_cases t (s_next s)) as [L|L]; [exact L|]. destruct (born_fresh _ B t L) as (_ & X & _). congruence. }
    assert (OLD : In (EEnd u) (s_tr s) -> u <> t).
    { intros J ->. destruct (HI t J). congruence. }
    destruct V as [| | | | | | |f r e Hst Hun Hbar Hfs Es']; subst; unfold add_ev in *; cbn [set_th s_th s_next s_tr app] in *;
      try (try (destruct IE as [IE|IE]; [discriminate IE|]); rewrite upd_other by (apply OLD, IE); now apply HI).
    + destruct IE as [IE|IE]; [inversion IE; subst; rewrite upd_same; auto|].
      rewrite upd_other by (apply OLD, IE); now apply HI.
    + rewrite apply_tr in IE. apply in_app_or in IE. destruct IE as [IE|IE].
      { exfalso. clear - Hfs IE. fs_cases Hfs; brk Hfs; inversion Hfs; subst; clear Hfs; cbn in IE;
          repeat match type of IE with context [if ?b then _ else _] => destruct b; cbn in IE end;
          repeat (destruct IE as [IE|IE]; [discriminate IE|]); destruct IE. }
      destruct (HI u IE) as [D L]. pose proof (OLD IE) as NE. rewrite apply_next. split.
      * destruct (e_child e) eqn:HC.
        -- unfold apply_eff. rewrite HC. destruct (child_shape _ _ _ _ _ _ _ _ _ Hfs HC) as (_ & _ & _ & _ & _ & N & K & _).
           rewrite N, K. cbn. now rewrite upd_other.
        -- rewrite apply_live by auto. rewrite (proj2 (Z.eqb_neq u t) NE).
           destruct (e_new e); [|exact D]. rewrite (proj2 (Z.eqb_neq u (s_next s))) by lia. exact D.
      * destruct (e_new e); lia.
Qed.

(** ** The flag monitor_fini_thread_done *)

Lemma inexit_freeze dyn s : reach dyn orderly s -> g_inexit (s_g s) = true -> exists w, In (EFreeze w) (image (s_tr s)).
Proof.
  apply (reach_invariant dyn orderly (fun s => g_inexit (s_g s) = true -> exists w, In (EFreeze w) (image (s_tr s)))).
  - discriminate.
  - clear s. intros s t c s' R HI HO HS. pose proof (frozen_reach _ _ R) as FZ. apply step_view in HS. destruct HS as (_ & LV & V).
    destruct V as [| | | | | | |f r e Hst Hun Hbar Hfs Es']; subst; cbn [add_ev set_th s_tr s_g app image]; auto;
      try (intros X; destruct (HI X) as (w & J); exists w; now right).
    rewrite apply_g, apply_tr. intros IE.
    destruct (g_inexit (s_g s)) eqn:I0.
    + destruct (HI eq_refl) as (w & J). exists w.
      destruct (exit_grow _ _ _ _ _ _ _ R HO Hst Hfs I0) as (_ & _ & HC).
      rewrite image_app by (eapply no_fork_ev; eauto). apply in_or_app. now right.
    + destruct (exit_local _ _ _ _ _ _ _ _ _ Hfs) as ([X|(X & old & ->)] & _); [congruence|].
      exists t. destruct c; try discriminate Hfs. cbn in Hfs. inversion Hfs; subst. now left.
Qed.

Lemma ftdone_set dyn t u g tsd nc f c e : frame_step dyn t u g tsd nc f c = Some e ->
  g_ftdone (e_g e) = g_ftdone g \/ (g_ftdone (e_g e) = true /\ exists l, f = FSEnd l).
Proof. intros H. fs_cases H; brk H; inversion H; subst; clear H; cbn; eauto; g_brk; cbn; auto. Qed.

Lemma ftdone_inexit dyn s : reach dyn orderly s -> g_ftdone (s_g s) = true -> g_inexit (s_g s) = true.
Proof.
  apply (reach_invariant dyn orderly (fun s => g_ftdone (s_g s) = true -> g_inexit (s_g s) = true)).
  - discriminate.
  - clear s. intros s t c s' R HI HO HS. apply step_view in HS. destruct HS as (_ & LV & V).
    destruct V as [| | | | | | |f r e Hst Hun Hbar Hfs Es']; subst; auto.
    rewrite apply_g. intros X.
    assert (I0 : g_inexit (s_g s) = true).
    { destruct (ftdone_set _ _ _ _ _ _ _ _ _ Hfs) as [Y|(_ & l & ->)]; [apply HI; congruence|].
      apply (exit_frames _ _ (orderly_any _ _ R) t (FSEnd l)); [rewrite Hst; now left|reflexivity]. }
    apply (exit_grow _ _ _ _ _ _ _ R HO Hst Hfs I0).
Qed.

Definition early_sd (f : frame) : bool :=
  match f with
  | FEPWin _ _ | FEPBegin _ | FCb _ (KBeginExit _) | FSUsed | FSLock _ | FSSet _ | FSUnlock _
  | FSInstall _ | FSMain _ | FSPass _ | FSNode _ _ | FSStarted _ _ _ | FSDone _ _ _ | FSEnd _ => true
  | _ => false
  end.

Lemma early_local dyn t u g tsd nc f c e : frame_step dyn t u g tsd nc f c = Some e ->
  (forall f', In f' (e_fr e) -> early_sd f' = true -> (early_sd f = true /\ g_ftdone (e_g e) = g_ftdone g) \/
     (g_cookie g = false /\ g_ftdone (e_g e) = g_ftdone g)) /\
  (forall st f', e_new e = Some st -> In f' st -> early_sd f' = false).
Proof.
  intros H. split.
  - intros f' I E. fs_cases H; brk H; inversion H; subst; clear H; cbn in I;
      repeat match type of I with context [if ?b then _ else _] => destruct b; cbn in I end;
      repeat (destruct I as [I|I]; [subst f'; try discriminate E; cbn; auto|]); try (destruct I; fail).
  - intros st f' EN I. fs_cases H; brk H; inversion H; subst; clear H; cbn in EN; try discriminate EN; inversion EN; subst;
      cbn in I; repeat (destruct I as [<-|I]; [reflexivity|]); destruct I.
Qed.

Definition Qearly (g : glob) (tr : list event) (t : Z) (f : frame) : Prop := early_sd f = true -> g_ftdone g = false.

Lemma early_reach dyn s : reach dyn orderly s -> fr_inv Qearly s.
Proof.
  apply fr_reach.
  - intros t f I. cbn in I. rewrite upd_if in I. destruct (Z.eqb t MAIN); [|destruct I].
    cbn in I. repeat (destruct I as [<-|I]; [intros X; discriminate X|]). destruct I.
  - intros g tr t f e t' _ H. exact H.
  - intros g tr t f I. cbn in I. repeat (destruct I as [<-|I]; [intros X; discriminate X|]). destruct I.
  - intros g tr t n f _ _ X. discriminate X.
  - clear s. intros s t c f r e R FI HO Hst LV Hfs. pose proof (orderly_any _ _ R) as RA.
    assert (IN : In f (th_stack (s_th s t))) by (rewrite Hst; now left).
    pose proof (FI t f IN) as Q. destruct (early_local _ _ _ _ _ _ _ _ _ Hfs) as (L1 & L2).
    split; [|split].
    + intros f' I' E. destruct (L1 f' I' E) as [[X Y]|[X Y]].
      * rewrite Y. now apply Q.
      * rewrite Y. destruct (g_ftdone (s_g s)) eqn:D; [|reflexivity].
        destruct (frozen_reach _ _ R (ftdone_inexit _ _ R D)). congruence.
    + intros t' f' D P E.
      destruct (ftdone_set _ _ _ _ _ _ _ _ _ Hfs) as [X|(_ & l & ->)]; [rewrite X; now apply P|].
      exfalso. assert (W : w_sd f' = 0).
      { apply (sd_one _ _ t (FSEnd l) r t' f' RA Hst eq_refl). destruct D as [D|(A & _ & B)]; auto. }
      clear - E W. destruct f'; try discriminate E; try discriminate W. destruct k; discriminate.
    + intros st f' EN I' E. rewrite (L2 st f' EN I') in E. discriminate.
Qed.

(** ** A thread being examined has started *)

Definition Qst (g : glob) (tr : list event) (t : Z) (f : frame) : Prop :=
  match f with FSStarted _ n _ => n_appl (nd g n) = true | _ => True end.

Lemma st_reach dyn s : reach dyn orderly s -> fr_inv Qst s.
Proof.
  apply fr_reach.
  - intros t f I. cbn in I. rewrite upd_if in I. destruct (Z.eqb t MAIN); [|destruct I].
    cbn in I. repeat (destruct I as [<-|I]; [exact Logic.I|]). destruct I.
  - intros g tr t f e t' _ H. exact H.
  - intros g tr t f I. cbn in I. repeat (destruct I as [<-|I]; [exact Logic.I|]). destruct I.
  - intros. exact I.
  - clear s. intros s t c f r e R FI HO Hst LV Hfs. pose proof (orderly_any _ _ R) as RA. pose proof (orderly_clean _ _ R) as RC.
    pose proof (nodes_reach _ _ RC) as (N & _ & _).
    assert (IN : In f (th_stack (s_th s t))) by (rewrite Hst; now left).
    split; [|split].
    + clear - Hfs. q_step; cbn [e_fr e_g app api_frames] in *; intros f' I'; cbn in I';
        repeat (destruct I' as [<-|I']; [cbn in *; try exact I; auto|]); try (destruct I'; fail).
    + intros t' f' D P. destruct f'; try exact I. cbn in P |- *. rename n into m.
      assert (IN' : In (FSStarted l m rest) (th_stack (s_th s t'))).
      { destruct D as [[-> X]|(_ & _ & X)]; [rewrite Hst; now right|exact X]. }
      pose proof (scan_reach _ _ R t' _ IN') as QS. cbn in QS.
      assert (L : In m (g_list (s_g s))) by (apply QS; now left).
      destruct (exit_frames _ _ RA t' _ IN') as [_ EX].
      destruct (frozen_reach _ _ R (EX eq_refl)) as [CK _].
      destruct (applkeep_local _ _ _ _ _ _ _ _ _ m Hfs P) as [X|[X|[->|(q & my & d & ->)]]]; [exact X|exfalso..].
      * pose proof (existsb_false_in _ _ _ (no_reset_exit _ _ t R CK) IN). congruence.
      * exact (ni_q _ N t _ IN L).
      * exact (ni_q _ N t _ IN L).
    + clear - Hfs. intros st f' EN I'. q_step; cbn in EN; try discriminate EN; inversion EN; subst; cbn in I';
        repeat (destruct I' as [<-|I']; [exact I|]); destruct I'.
Qed.

(** ** A thread that never blocks *)

Definition is_block (f : frame) : bool := match f with FBlock => true | _ => false end.
Definition Qblk (u : Z) (g : glob) (tr : list event) (t : Z) (f : frame) : Prop := t = u -> is_block f = false.

Lemma blk_local dyn t u g tsd nc f c e : frame_step dyn t u g tsd nc f c = Some e ->
  (forall f', In f' (e_fr e) -> is_block f' = true -> c = CCall ABlock) /\
  (forall st f', e_new e = Some st -> In f' st -> is_block f' = false).
Proof.
  intros H. split.
  - intros f' I E. fs_cases H; brk H; inversion H; subst; clear H; cbn in I;
      repeat match type of I with context [if ?b then _ else _] => destruct b; cbn in I end;
      repeat (destruct I as [I|I]; [subst f'; try discriminate E; cbn; auto|]); try (destruct I; fail).
  - intros st f' EN I. fs_cases H; brk H; inversion H; subst; clear H; cbn in EN; try discriminate EN; inversion EN; subst;
      cbn in I; repeat (destruct I as [<-|I]; [reflexivity|]); destruct I.
Qed.

Lemma blk_reach dyn u s : reach dyn (calm u) s -> fr_inv (Qblk u) s.
Proof.
  apply fr_reach.
  - intros t f I _. cbn in I. rewrite upd_if in I. destruct (Z.eqb t MAIN); [|destruct I].
    cbn in I. repeat (destruct I as [<-|I]; [reflexivity|]). destruct I.
  - intros g tr t f e t' _ H. exact H.
  - intros g tr t f I _. cbn in I. repeat (destruct I as [<-|I]; [reflexivity|]). destruct I.
  - intros g tr t n f _ _ _. reflexivity.
  - clear s. intros s t c f r e R FI HO Hst LV Hfs. destruct (blk_local _ _ _ _ _ _ _ _ _ Hfs) as (A & B).
    split; [|split].
    + intros f' I' E. destruct (is_block f') eqn:X; [|reflexivity]. exfalso. apply (proj2 (proj2 (proj2 HO)) E). eapply A; eauto.
    + intros t' f' _ P. exact P.
    + intros st f' EN I' _. eapply B; eauto.
Qed.

Lemma block_set dyn t u g tsd nc f c e n : frame_step dyn t u g tsd nc f c = Some e ->
  n_block (nd (e_g e) n) = true -> n_block (nd g n) = true \/ (f = FBlock /\ get_tn g tsd = Some n).
Proof.
  intros H W. fs_cases H; brk H; inversion H; subst; clear H; cbn [e_g] in W |- *; auto;
    revert W; unfold nd; cbn; g_brk; cbn; rewrite ?upd_if; auto;
    repeat match goal with |- context [Z.eqb ?a ?b] => destruct (Z.eqb_spec a b); subst end;
    cbn; auto; try congruence; eauto 10; try discriminate.
Qed.

Lemma unblocked dyn u s : reach dyn (calm u) s -> forall t n, belongs s t n -> t = u -> n_block (nd (s_g s) n) = false.
Proof.
  apply (belongs_reach dyn (calm u) (fun s t n => t = u -> n_block (nd (s_g s) n) = false)).
  - intros s0. apply calm_orderly.
  - intros s0 t c H. apply H.
  - clear s. intros s t c s' v n R HI HO HS B HB E. subst v. specialize (HB eq_refl).
    pose proof (calm_orderly _ _ _ R) as RO. pose proof (orderly_clean _ _ RO) as RC.
    apply step_view in HS. destruct HS as (_ & LV & V).
    destruct V as [| | | | | | |f r e Hst Hun Hbar Hfs Es']; subst; try exact HB.
    rewrite apply_g. destruct (n_block (nd (e_g e) n)) eqn:X; [exfalso|reflexivity].
    assert (IN : In f (th_stack (s_th s t))) by (rewrite Hst; now left).
    destruct (block_set _ _ _ _ _ _ _ _ _ n Hfs X) as [Y|[-> G]]; [congruence|].
    pose proof (caller_ready _ _ _ RC LV) as CA. pose proof (ca_tn _ _ _ _ CA G) as M.
    destruct (mine_belongs _ _ _ _ _ RO IN eq_refl M) as [[_ Y]|[_ BT]].
    + subst n. exact (belongs_main _ _ _ _ RC B eq_refl).
    + pose proof (belongs_unique _ _ _ _ _ RC B BT) as E.
      pose proof (blk_reach _ _ _ R t _ IN E) as Z. discriminate Z.
  - intros s0 t s' q my n r R HS Hst EQ (_ & _ & _ & BL & _) _. now rewrite EQ.
Qed.

(** ** A listed thread that has started and not begun its fini_thread is alive *)

(** Frames of a thread's own function before it sets tn_fini_started. *)
Definition early_own (f : frame) : bool :=
  match f with
  | FBT _ _ | FCb _ (KInitThread _) => true
  | FClean CLChk _ | FClean CLDone _ | FClean CLSet _ => true
  | _ => false
  end.

Lemma early_owner b : early_own b = true -> owner b = true.
Proof. destruct b; try discriminate; auto; [destruct k; try discriminate|destruct p; try discriminate]; auto. Qed.
Lemma early_bt b : early_own b = true -> bt_frame b = true.
Proof. intros E. now apply owner_bt, early_owner. Qed.

Definition alive (s : state) (u n : Z) : Prop :=
  belongs s u n ->
  existsb resetting (th_stack (s_th s MAIN)) = true \/
  (exists b, In b (th_stack (s_th s u)) /\ early_own b = true /\ holds n b = true) \/
  n_fstart (nd (s_g s) n) = true \/ n_appl (nd (s_g s) n) = false \/ n_block (nd (s_g s) n) = true \/
  g_ftdone (s_g s) = true.

Lemma own_next dyn t u g tsd nc f c e n : frame_step dyn t u g tsd nc f c = Some e ->
  early_own f = true -> holds n f = true -> n_magic (nd g n) = true ->
  (forall p, f = FBT p n -> n_appl (nd g n) = started p) ->
  (exists b, In b (e_fr e) /\ early_own b = true /\ holds n b = true) \/
  n_fstart (nd (e_g e) n) = true \/ n_appl (nd (e_g e) n) = false \/ n_block (nd (e_g e) n) = true \/ g_ftdone (e_g e) = true.
Proof.
  intros H E HB M ST.
  assert (LAST : forall b, In b (e_fr e) -> early_own b = true -> holds n b = true ->
    (exists b, In b (e_fr e) /\ early_own b = true /\ holds n b = true)) by eauto.
  destruct f; try discriminate E.
  - destruct k; try discriminate E. cbn in HB. destruct c; try discriminate H.
    + left. destruct (call_local _ _ _ _ _ _ _ _ _ H) as (_ & F & _). rewrite F. eexists. split; [apply in_or_app; right; now left|]. cbn. auto.
    + left. cbn in H. inversion H; subst. cbn. eexists. split; [now left|]. cbn. auto.
  - destruct c; try discriminate H. cbn in HB. apply Z.eqb_eq in HB. subst n0.
    destruct p; cbn in H; brk H; inversion H; subst; cbn [e_fr e_g];
      try (left; eexists; split; [first [now left|right; now left]|]; cbn; rewrite ?Z.eqb_refl; auto; fail).
    + right. right. left. exact (ST BTRefuse eq_refl).
    + left. exists (FBT BTPop n). cbn. rewrite Z.eqb_refl. auto.
  - destruct c; try discriminate H. destruct p; try discriminate E; cbn in HB; apply Z.eqb_eq in HB; subst n0; cbn in H.
    + destruct (negb (n_magic (nd g n)) || negb (n_appl (nd g n)) || n_fstart (nd g n) || n_block (nd g n))%bool eqn:C;
        inversion H; subst; cbn [e_g e_fr].
      * right. rewrite M in C. cbn in C. apply orb_prop in C. destruct C as [C|C]; auto. apply orb_prop in C. destruct C as [C|C]; auto.
        right. left. now apply negb_true_iff.
      * left. eexists. split; [now left|]. cbn. rewrite Z.eqb_refl. auto.
    + destruct (g_ftdone g) eqn:C; inversion H; subst; cbn [e_g e_fr]; auto.
      left. eexists. split; [now left|]. cbn. rewrite Z.eqb_refl. auto.
    + inversion H; subst; cbn [e_g e_fr]. right. left. unfold nd. cbn. rewrite upd_same. reflexivity.
Qed.

Lemma appl_set dyn t u g tsd nc f c e n : frame_step dyn t u g tsd nc f c = Some e -> n <> MAIN_TN ->
  n_appl (nd (e_g e) n) = true -> n_appl (nd g n) = true \/ f = FBT BTStarted n.
Proof.
  intros H NM W. fs_cases H; brk H; inversion H; subst; clear H; cbn [e_g] in W |- *; auto;
    revert W; unfold nd; cbn; g_brk; cbn; rewrite ?upd_if; auto;
    repeat match goal with |- context [Z.eqb ?a ?b] => destruct (Z.eqb_spec a b); subst end;
    cbn; auto; try congruence; eauto 10; try discriminate.
Qed.

Lemma unwind_keep st b n : In b st -> pushed_frame n b -> (forall b', In b' st -> bt_frame b' = true -> b' = b) ->
  unwind st = [FClean CLChk n; FApp AppTsd].
Proof.
  induction st as [|f r IH]; [intros []|]. intros I P U.
  assert (BB : bt_frame b = true) by (destruct P as [(p & -> & _)|(c & ->)]; reflexivity).
  destruct (bt_frame f) eqn:BF.
  - assert (f = b) by (apply U; [now left|exact BF]). subst f.
    destruct P as [(p & -> & X)|(c & ->)]; cbn; [now rewrite X|reflexivity].
  - assert (IR : In b r) by (destruct I as [->|I]; [congruence|exact I]).
    assert (X : unwind r = [FClean CLChk n; FApp AppTsd]) by (apply IH; auto; intros b' J; apply U; now right).
    destruct f; try exact X; try discriminate BF. destruct k; try exact X; discriminate BF.
Qed.

Lemma alive_reach dyn u s : reach dyn (calm u) s -> forall t n, belongs s t n -> t = u -> alive s t n.
Proof.
  apply (belongs_reach dyn (calm u) (fun s t n => t = u -> alive s t n)).
  - intros s0. apply calm_orderly.
  - intros s0 t c H. apply H.
  - clear s. intros s t c s' v n R HI HO HS B HB EVU B'. specialize (HB EVU B).
    pose proof (calm_orderly _ _ _ R) as RO. pose proof (orderly_clean _ _ RO) as RC. pose proof (orderly_any _ _ RO) as RA.
    pose proof (who_reach _ _ RC) as W. pose proof (data_reach _ _ RC) as DA. pose proof (based_reach _ _ RA) as BA.
    pose proof (nodes_reach _ _ RC) as (N & _ & _). pose proof (born_reach _ _ RA) as BO.
    assert (NM : n <> MAIN_TN) by (eapply belongs_main; eauto).
    pose proof HS as HS0.
    destruct HO as (HO & WC & FF & NB).
    assert (NRS : existsb resetting (th_stack (s_th s MAIN)) = true -> t = MAIN /\ c = CStep).
    { intros X. destruct (who_reset _ W MAIN X) as (_ & _ & D). apply step_view in HS. destruct HS as (_ & LV & _).
      destruct (Z.eq_dec t MAIN) as [->|Y]; [|rewrite (D t Y) in LV; discriminate]. split; [reflexivity|]. now apply (proj2 (proj1 HO)). }
    apply step_view in HS. destruct HS as (_ & LV & V).
    (* unwinding *)
    assert (UW : forall st, incl st (th_stack (s_th s t)) -> (forall b, In b (th_stack (s_th s t)) -> bt_frame b = true -> In b st) ->
       existsb cleaning (th_stack (s_th s t)) = false -> existsb locked st = false ->
       s' = set_th s t (with_stack (s_th s t) (unwind st)) -> existsb resetting (th_stack (s_th s MAIN)) = false ->
       (exists b, In b (th_stack (s_th s' v)) /\ early_own b = true /\ holds n b = true) \/
       n_fstart (nd (s_g s') n) = true \/ n_appl (nd (s_g s') n) = false \/ n_block (nd (s_g s') n) = true \/ g_ftdone (s_g s') = true).
    { intros st IC BT CL LK -> NR. destruct HB as [X|[(b & IB & EB & HB)|X]]; [congruence| |right; exact X].
      cbn [set_th s_th s_g]. rewrite upd_if. destruct (Z.eqb_spec v t) as [->|NE]; [|left; exists b; auto].
      cbn [with_stack th_stack].
      assert (P : pushed_frame n b \/ n_appl (nd (s_g s) n) = false).
      { pose proof (DA t b IB) as D. destruct b; try discriminate EB.
        - destruct k; try discriminate EB. cbn in HB. apply Z.eqb_eq in HB. subst. left. right. eauto.
        - cbn in HB. apply Z.eqb_eq in HB. subst n0. destruct (pushed p) eqn:PP; [left; left; eauto|right].
          cbn in D. destruct D as [(c0 & q0 & d0 & _ & _ & _ & _ & _ & _ & X & _) _]. rewrite X. now destruct p.
        - exfalso. pose proof (existsb_false_in _ _ _ CL IB) as X. destruct p; discriminate. }
      destruct P as [P|P]; [left|right; auto].
      assert (E : unwind st = [FClean CLChk n; FApp AppTsd]).
      { apply (unwind_keep st b n); [apply BT; [exact IB|now apply early_bt]|exact P|].
        intros b' I' T. apply (one_bt (th_stack (s_th s t))); auto. now apply early_bt. }
      rewrite E. exists (FClean CLChk n). split; [now left|]. cbn. rewrite Z.eqb_refl. auto. }
    assert (PUSH : forall l, s_g s' = s_g s ->
       (forall w, th_stack (s_th s' w) = if Z.eqb w t then l ++ th_stack (s_th s w) else th_stack (s_th s w)) ->
       existsb resetting (th_stack (s_th s' MAIN)) = true \/
       (exists b, In b (th_stack (s_th s' v)) /\ early_own b = true /\ holds n b = true) \/
       n_fstart (nd (s_g s') n) = true \/ n_appl (nd (s_g s') n) = false \/ n_block (nd (s_g s') n) = true \/ g_ftdone (s_g s') = true).
    { intros l EG ES. rewrite EG. destruct HB as [X|[(b & IB & EB & HB)|X]]; [left|right; left|right; right; exact X].
      - rewrite ES. destruct (Z.eqb MAIN t); [rewrite existsb_app, X; apply orb_true_r|exact X].
      - exists b. split; [|auto]. rewrite ES. destruct (Z.eqb v t); [apply in_or_app; now right|exact IB]. }
    destruct V as [| | | |f0 r0 Ec Est Enc Elk|r0 Ec Est Elk| |f r e Hst Hun Hbar Hfs Es'].
    + apply (PUSH [FApp AppHandler]); subst; cbn; [reflexivity|]. intros w. rewrite upd_if. destruct (Z.eqb_spec w t); subst; reflexivity.
    + apply (PUSH [FEPGet EXIT_SIGNAL; FEndLibDyn; FSigEnd]); subst; cbn; [reflexivity|]. intros w. rewrite upd_if. destruct (Z.eqb_spec w t); subst; reflexivity.
    + apply (PUSH [FHGet]); subst; cbn; [reflexivity|]. intros w. rewrite upd_if. destruct (Z.eqb_spec w t); subst; reflexivity.
    + apply (PUSH [FWGet]); subst; cbn; [reflexivity|]. intros w. rewrite upd_if. destruct (Z.eqb_spec w t); subst; reflexivity.
    + right. apply (UW (th_stack (s_th s t))); auto.
      * apply incl_refl.
      * destruct (existsb resetting (th_stack (s_th s MAIN))) eqn:X; [|reflexivity]. destruct (NRS eq_refl). congruence.
    + right. apply (UW r0); auto.
      * rewrite Est. apply incl_tl, incl_refl.
      * rewrite Est. intros b [<-|I'] T; [discriminate T|exact I'].
      * apply WC. right. eauto.
      * destruct (existsb resetting (th_stack (s_th s MAIN))) eqn:X; [|reflexivity]. destruct (NRS eq_refl) as [-> _].
        destruct (who_reset _ W MAIN X) as (_ & (f1 & r1 & E1 & E2 & _) & _). rewrite Est in E1. inversion E1; subst. discriminate E2.
    + apply (PUSH []); subst; cbn; [reflexivity|]. intros w. rewrite upd_if. destruct (Z.eqb_spec w t); [subst; now symmetry|reflexivity].
    + subst s'. assert (IN : In f (th_stack (s_th s t))) by (rewrite Hst; now left).
      rewrite apply_g.
      destruct (existsb resetting (th_stack (s_th s MAIN))) eqn:RS.
      { destruct (NRS eq_refl) as [-> ->].
        destruct (who_reset _ W MAIN RS) as (_ & (f1 & r1 & E1 & E2 & E3 & _) & DD). rewrite Hst in E1. inversion E1; subst f1 r1.
        destruct (e_child e) eqn:HC.
        { destruct (child_shape _ _ _ _ _ _ _ _ _ Hfs HC) as (X & _). discriminate X. }
        destruct f; try discriminate E2.
        - (* the reset itself, or just before *)
          destruct is_fork; [|discriminate E2]. left. rewrite apply_stack by auto. cbn in Hfs. inversion Hfs; subst. cbn. reflexivity.
        - exfalso. assert (G : g_list (e_g e) = []).
          { cbn in Hfs. inversion Hfs; subst. cbn. unfold reset_list. destruct (g_used (s_g s)) eqn:U; [|cbn; now apply (li_used _ (listed_reach _ _ RC))].
            destruct (get_tn _ _) as [m|]; [destruct (m =? MAIN_TN)%Z|]; reflexivity. }
          destruct B' as [(b & IB & OB & _)|(_ & L & _)]; [|rewrite apply_g, G in L; destruct L].
          rewrite apply_stack in IB by auto.
          assert (IB2 : In b (if Z.eqb v MAIN then e_fr e ++ r else th_stack (s_th s v))).
          { cbn in Hfs. inversion Hfs; subst. exact IB. }
          destruct (Z.eqb_spec v MAIN) as [->|NV].
          + exfalso. apply (belongs_not_main _ _ _ RC B).
          + rewrite (born_dead _ BO v (DD v NV)) in IB2. destruct IB2.
        - exfalso. assert (G : g_list (e_g e) = []).
          { cbn in Hfs. inversion Hfs; subst. cbn. unfold reset_list. destruct (g_used (s_g s)) eqn:U; [|cbn; now apply (li_used _ (listed_reach _ _ RC))].
            destruct (get_tn _ _) as [m|]; [destruct (m =? MAIN_TN)%Z|]; reflexivity. }
          destruct B' as [(b & IB & OB & _)|(_ & L & _)]; [|rewrite apply_g, G in L; destruct L].
          rewrite apply_stack in IB by auto.
          assert (IB2 : In b (if Z.eqb v MAIN then e_fr e ++ r else th_stack (s_th s v))).
          { cbn in Hfs. inversion Hfs; subst. exact IB. }
          destruct (Z.eqb_spec v MAIN) as [->|NV].
          + exfalso. apply (belongs_not_main _ _ _ RC B).
          + rewrite (born_dead _ BO v (DD v NV)) in IB2. destruct IB2. }
      destruct (e_child e) eqn:HC.
      { destruct (child_shape _ _ _ _ _ _ _ _ _ Hfs HC) as (CC & _ & _ & _ & _ & NN & KK & D).
        destruct (proj1 (proj1 HO) CC) as [-> _]. left. rewrite apply_stack_child by auto. rewrite Z.eqb_refl.
        destruct D as [(d & _ & ->)|(_ & ->)]; reflexivity. }
      right.
      assert (RF : resetting f = false).
      { destruct (resetting f) eqn:X; [|reflexivity].
        destruct (who_reset _ W t) as (Y & _); [apply existsb_exists; eauto|]. subst t.
        pose proof (existsb_false_in _ _ _ RS IN). congruence. }
      assert (NV : v <> s_next s).
      { intros ->. destruct (born_fresh _ BO (s_next s) (Z.le_refl _)) as (F1 & F2 & F3).
        destruct B as [(b & IB & _)|(X1 & X2 & X3)].
        - rewrite F1 in IB. destruct IB.
        - destruct (li_fact _ (listed_reach _ _ RC) RS n X2 X1) as [(c0 & q0 & d0 & _ & _ & _ & _ & _ & _ & X & _) _].
          exact (F3 _ X X3). }
      assert (STK : th_stack (s_th (apply_eff s t (s_th s t) r e) v) = if Z.eqb v t then e_fr e ++ r else th_stack (s_th s v)).
      { rewrite apply_stack by auto. destruct (e_new e); [|reflexivity]. now rewrite (proj2 (Z.eqb_neq v (s_next s)) NV). }
      rewrite STK.
      destruct HB as [X|[(b & IB & EB & HB)|HB]]; [congruence| |].
      * destruct (Z.eqb_spec v t) as [->|NE]; [|left; exists b; auto].
        rewrite Hst in IB. destruct IB as [<-|IB]; [|left; exists b; split; [apply in_or_app; now right|auto]].
        destruct (own_next _ _ _ _ _ _ _ _ _ n Hfs EB HB) as [(b & I1 & I2)|X].
        -- eapply belongs_magic; eauto.
        -- intros p ->. pose proof (DA t _ IN) as D. cbn in D. now destruct D as [(c0 & q0 & d0 & _ & _ & _ & _ & _ & _ & X & _) _].
        -- left. exists b. split; [apply in_or_app; now left|exact I2].
        -- right. exact X.
      * destruct HB as [X|[X|[X|X]]].
        -- destruct (fskeep_local _ _ _ _ _ _ _ _ _ n Hfs NM X) as [Y|[Y|[->|(q & my & d & ->)]]]; [auto|congruence| |].
           ++ right. right. left. destruct c; try discriminate Hfs. cbn in Hfs. inversion Hfs; subst. unfold nd. cbn. now rewrite upd_same.
           ++ exfalso. eapply (belongs_not_making dyn s v n t (FPCZero q my d n)); eauto. unfold making. cbn. now rewrite Z.eqb_refl.
        -- destruct (n_appl (nd (e_g e) n)) eqn:Y; [|auto].
           destruct (appl_set _ _ _ _ _ _ _ _ _ n Hfs NM Y) as [Z|Z]; [congruence|]. subst f.
           assert (VT : v = t) by (symmetry; eapply belongs_holder; eauto; cbn; apply Z.eqb_refl). rewrite (proj2 (Z.eqb_eq v t) VT).
           left. exists (FBT BTCall n). destruct c; try discriminate Hfs. cbn in Hfs. inversion Hfs; subst. cbn. rewrite Z.eqb_refl. auto.
        -- rewrite (unblocked _ _ _ R v n B EVU) in X. discriminate.
        -- right. right. right. right. destruct (ftdone_set _ _ _ _ _ _ _ _ _ Hfs) as [Y|(Y & _)]; congruence.
  - intros s0 t s' q my n r R HS Hst EQ (_ & _ & _ & _ & AP & _) _ _. rewrite EQ. auto.
Qed.

Lemma listed_alive dyn u s n : reach dyn (calm u) s -> In n (g_list (s_g s)) -> n <> MAIN_TN -> n_self (nd (s_g s) n) = u ->
  n_appl (nd (s_g s) n) = true -> n_fstart (nd (s_g s) n) = false -> g_ftdone (s_g s) = false ->
  existsb resetting (th_stack (s_th s MAIN)) = false -> th_live (s_th s u) = true.
Proof.
  intros R L NM SE AP FS FD NR. assert (B : belongs s u n) by (right; auto).
  destruct (alive_reach _ _ _ R u n B eq_refl B) as [X|[(b & IB & _)|[X|[X|[X|X]]]]]; try congruence.
  - destruct (th_live (s_th s u)) eqn:LV; [reflexivity|].
    pose proof (born_reach _ _ (orderly_any _ _ (calm_orderly _ _ _ R))) as BO.
    rewrite (born_dead _ BO u LV) in IB. destruct IB.
  - rewrite (unblocked _ _ _ R u n B eq_refl) in X. discriminate.
Qed.

(** ** The list walked by broadcast_signal *)

Definition free (s : state) (t : Z) (c : choice) : Prop := orderly s t c /\ free_forks s t c.

Lemma free_orderly dyn s : reach dyn free s -> reach dyn orderly s.
Proof. apply reach_weaken. intros s0 t c H. apply H. Qed.
Lemma calm_free dyn u s : reach dyn (calm u) s -> reach dyn free s.
Proof. apply reach_weaken. intros s0 t c H. split; apply H. Qed.

Lemma reset_lock dyn t u g tsd nc f c e : frame_step dyn t u g tsd nc f c = Some e ->
  resetting f = true -> g_lock (e_g e) = g_lock g.
Proof. intros H RF. fs_cases H; try discriminate RF; brk H; inversion H; subst; clear H; cbn; auto; g_brk; auto. Qed.

Lemma reset_free dyn s : reach dyn free s -> existsb resetting (th_stack (s_th s MAIN)) = true -> g_lock (s_g s) = None.
Proof.
  apply (reach_invariant dyn free (fun s => existsb resetting (th_stack (s_th s MAIN)) = true -> g_lock (s_g s) = None)).
  - discriminate.
  - clear s. intros s t c s' R HI HO HS. pose proof (free_orderly _ _ R) as RO. pose proof (orderly_clean _ _ RO) as RC.
    pose proof (who_reach _ _ RC) as W. apply step_view in HS. destruct HS as (_ & LV & V). destruct HO as (HO & FF).
    assert (NRS : existsb resetting (th_stack (s_th s MAIN)) = true -> t = MAIN /\ c = CStep).
    { intros X. destruct (who_reset _ W MAIN X) as (_ & _ & D).
      destruct (Z.eq_dec t MAIN) as [->|Y]; [|rewrite (D t Y) in LV; discriminate]. split; [reflexivity|]. now apply (proj2 (proj1 HO)). }
    destruct V as [| | | |f0 r0 Ec Est Enc Elk|r0 Ec Est Elk| |f r e Hst Hun Hbar Hfs Es']; subst; unfold add_ev; cbn [set_th s_th s_g];
      try (rewrite upd_if; destruct (Z.eqb_spec MAIN t) as [<-|]; [cbn [with_stack th_stack existsb resetting orb]|exact HI]; intros X).
    1-4: now apply HI.
    1,2: exfalso; match type of X with existsb resetting (unwind ?l) = true => destruct (unwind_shape l) as [U|(n & f & U & _)]; rewrite U in X end; discriminate X.
    + discriminate X.
    + rewrite apply_g. intros X.
      destruct (e_child e) eqn:HC.
      { destruct (child_shape _ _ _ _ _ _ _ _ _ Hfs HC) as (CC & -> & _). now apply FF. }
      destruct (existsb resetting (th_stack (s_th s MAIN))) eqn:RS.
      * destruct (NRS eq_refl) as [-> ->]. destruct (who_reset _ W MAIN RS) as (_ & (f1 & r1 & E1 & E2 & _) & _).
        rewrite Hst in E1. inversion E1; subst. rewrite (reset_lock _ _ _ _ _ _ _ _ _ Hfs E2). now apply HI.
      * exfalso. destruct (reset_local _ _ _ _ _ _ _ _ _ Hfs HC) as (A & _ & _ & A4 & _).
        rewrite apply_stack in X by auto. pose proof (who_next _ W) as NX.
        assert (Y : existsb resetting (if Z.eqb MAIN t then e_fr e ++ r else th_stack (s_th s MAIN)) = true).
        { destruct (e_new e); [|exact X]. rewrite (proj2 (Z.eqb_neq MAIN (s_next s))) in X by (unfold MAIN; lia). exact X. }
        destruct (Z.eqb_spec MAIN t) as [<-|]; [|congruence].
        rewrite Hst in RS. cbn in RS. apply orb_false_elim in RS. destruct RS as [R1 R2].
        rewrite existsb_app, R2, (A R1) in Y. discriminate Y.
Qed.

Definition Qbc (g : glob) (tr : list event) (t : Z) (f : frame) : Prop :=
  match f with FBcNode _ r => incl r (g_list g) | _ => True end.

Lemma bc_reach dyn s : reach dyn free s -> fr_inv Qbc s.
Proof.
  apply fr_reach.
  - intros t f I. cbn in I. rewrite upd_if in I. destruct (Z.eqb t MAIN); [|destruct I].
    cbn in I. repeat (destruct I as [<-|I]; [exact Logic.I|]). destruct I.
  - intros g tr t f e t' _ H. exact H.
  - intros g tr t f I. cbn in I. repeat (destruct I as [<-|I]; [exact Logic.I|]). destruct I.
  - intros. exact I.
  - clear s. intros s t c f r e R FI HO Hst LV Hfs.
    pose proof (free_orderly _ _ R) as RO. pose proof (orderly_any _ _ RO) as RA. pose proof (orderly_clean _ _ RO) as RC.
    pose proof (who_reach _ _ RC) as W. pose proof (lock_reach _ _ RA) as LK.
    assert (IN : In f (th_stack (s_th s t))) by (rewrite Hst; now left).
    split; [|split].
    + pose proof (FI t f IN) as Q. clear - Hfs Q. q_step; cbn [e_fr e_g app api_frames] in *; intros f' I'; cbn in I';
        repeat (destruct I' as [<-|I']; [cbn in *; try exact I; auto|]); try (destruct I'; fail).
      * apply incl_refl.
      * intros x J. apply Q. now right.
      * intros x J. apply Q. now right.
    + intros t' f' D P. destruct f'; try exact I. cbn in P |- *. intros m J. specialize (P m J).
      assert (LF : locked (FBcNode sig rest) = true) by reflexivity.
      assert (NRF : resetting f = false).
      { destruct (resetting f) eqn:X; [exfalso|reflexivity].
        destruct (who_reset _ W t) as (-> & _); [apply existsb_exists; eauto|].
        assert (RS : existsb resetting (th_stack (s_th s MAIN)) = true) by (apply existsb_exists; eauto).
        pose proof (reset_free _ _ R RS) as LN. pose proof (LK t') as K. unfold held in K. rewrite LN in K.
        assert (IN' : In (FBcNode sig rest) (th_stack (s_th s t'))).
        { destruct D as [[-> Y]|(_ & _ & Y)]; [rewrite Hst; now right|exact Y]. }
        pose proof (w_lock_in _ _ IN' LF). lia. }
      assert (U : g_used (s_g s) = true).
      { destruct (g_used (s_g s)) eqn:U; [reflexivity|]. rewrite (li_used _ (listed_reach _ _ RC) U) in P. destruct P. }
      destruct (list_stay _ _ _ _ _ _ _ _ _ m Hfs P NRF U) as [X|X]; [exact X|exfalso].
      assert (X2 : locked (FBcNode sig rest) = false); [|discriminate X2].
      apply (lock_one s t f r t' _ LK Hst); [subst f; reflexivity|]. destruct D as [D|(A & _ & D)]; auto.
    + clear - Hfs. intros st f' EN I'. q_step; cbn in EN; try discriminate EN; inversion EN; subst; cbn in I';
        repeat (destruct I' as [<-|I']; [exact I|]); destruct I'.
Qed.

Definition bcasting (f : frame) : bool :=
  match f with FBcTry _ | FBcFirst _ | FBcNode _ _ | FBcMain _ => true | _ => false end.

Lemma bc_local dyn t u g tsd nc f c e : frame_step dyn t u g tsd nc f c = Some e ->
  (forall f', In f' (e_fr e) -> bcasting f' = true -> e_g e = g \/ g_heap (e_g e) = g_heap g) /\
  (forall f', In f' (e_fr e) -> bcasting f' = true -> bcasting f = true \/ g_used g = true) /\
  (forall st f', e_new e = Some st -> In f' st -> bcasting f' = false).
Proof.
  intros H. split; [|split].
  - intros f' I E. fs_cases H; brk H; inversion H; subst; clear H; cbn in I;
      repeat match type of I with context [if ?b then _ else _] => destruct b; cbn in I end;
      repeat (destruct I as [I|I]; [subst f'; try discriminate E; cbn; auto|]); try (destruct I; fail).
  - intros f' I E. fs_cases H; brk H; inversion H; subst; clear H; cbn in I;
      repeat match type of I with context [if ?b then _ else _] => destruct b eqn:?; cbn in I end;
      repeat (destruct I as [I|I]; [subst f'; try discriminate E; cbn; auto|]); try (destruct I; fail).
  - intros st f' EN I. fs_cases H; brk H; inversion H; subst; clear H; cbn in EN; try discriminate EN; inversion EN; subst;
      cbn in I; repeat (destruct I as [<-|I]; [reflexivity|]); destruct I.
Qed.

Definition Qself (g : glob) (tr : list event) (t : Z) (f : frame) : Prop :=
  bcasting f = true -> n_self (nd g MAIN_TN) = MAIN.

Lemma bcself_reach dyn s : reach dyn clean_forks s -> fr_inv Qself s.
Proof.
  apply fr_reach.
  - intros t f I E. cbn in I. rewrite upd_if in I. destruct (Z.eqb t MAIN); [|destruct I].
    cbn in I. repeat (destruct I as [<-|I]; [discriminate E|]). destruct I.
  - intros g tr t f e t' _ H. exact H.
  - intros g tr t f I E. cbn in I. repeat (destruct I as [<-|I]; [discriminate E|]). destruct I.
  - intros g tr t n f _ _ E. discriminate E.
  - clear s. intros s t c f r e R FI HO Hst LV Hfs. pose proof (who_reach _ _ R) as W.
    assert (IN : In f (th_stack (s_th s t))) by (rewrite Hst; now left).
    destruct (bc_local _ _ _ _ _ _ _ _ _ Hfs) as (A & B & C). split; [|split].
    + intros f' I' E. assert (X : n_self (nd (s_g s) MAIN_TN) = MAIN).
      { destruct (B f' I' E) as [X|X]; [exact (FI t f IN X)|apply (mi_self _ (main_reach _ _ R)); auto]. }
      destruct (A f' I' E) as [-> | Y]; [exact X|]. unfold nd in *. now rewrite Y.
    + intros t' f' D P E. specialize (P E).
      assert (OW : holds MAIN_TN f = false) by (eapply hold_main; eauto).
      assert (TS : resetting f = true -> th_tsd (s_th s t) = None \/ th_tsd (s_th s t) = Some MAIN_TN).
      { intros X. destruct (who_reset _ W t) as (-> & _); [apply existsb_exists; eauto|]. apply (mi_tsd _ (main_reach _ _ R)). }
      destruct (main_local _ _ _ _ _ _ _ _ _ Hfs OW TS) as (_ & [X|(U & q & F)] & Y); [congruence|].
      destruct (Y q F U) as (X & _). rewrite X.
      destruct (Z.eq_dec t MAIN) as [|NT]; [assumption|]. rewrite (who_alone _ W U t NT) in LV. discriminate.
    + intros st f' EN I' E. rewrite (C st f' EN I') in E. discriminate.
Qed.

(** ** The signals *)

Lemma shoot_ev dyn t u g tsd nc f c e t' w : frame_step dyn t u g tsd nc f c = Some e -> In (EShoot t' w) (e_ev e) ->
  t' = t /\ exists l n r, f = FSStarted l n r /\ w = n_self (nd g n) /\ n_fstart (nd g n) = false.
Proof.
  intros H I. fs_cases H; brk H; inversion H; subst; clear H; cbn in I;
    repeat match type of I with context [if ?b then _ else _] => destruct b eqn:?; cbn in I end;
    repeat (destruct I as [I|I]; [try discriminate I; inversion I; subst; eauto 8|]); try (destruct I; fail).
Qed.

Lemma kill_ev dyn t u g tsd nc f c e t' w sig : frame_step dyn t u g tsd nc f c = Some e -> In (EKill t' w sig) (e_ev e) ->
  t' = t /\ ((exists n r, f = FBcNode sig (n :: r) /\ w = n_self (nd g n) /\ w <> t /\ n_appl (nd g n) = true /\ n_fstart (nd g n) = false) \/
             (f = FBcMain sig /\ w = n_self (nd g MAIN_TN) /\ w <> t)).
Proof.
  intros H I. fs_cases H; brk H; inversion H; subst; clear H; cbn in I;
    repeat match type of I with context [if ?b then _ else _] => destruct b eqn:B; cbn in I end;
    repeat (destruct I as [I|I]; [try discriminate I; inversion I; subst|]); try (destruct I; fail).
  - split; [reflexivity|]. left. apply andb_prop in E0. destruct E0 as [B C]. apply andb_prop in B. destruct B as [A B].
    apply negb_true_iff in A, C. apply Z.eqb_neq in A. eauto 10.
  - split; [reflexivity|]. right. apply Z.eqb_neq in E. auto.
Qed.

(** The new events of a step. *)
Lemma new_event dyn s t c s' e : step dyn s t c = Some s' -> s_tr s' = e :: s_tr s ->
  match e with EShoot _ _ | EKill _ _ _ => True | _ => False end ->
  exists f r ef, th_stack (s_th s t) = f :: r /\ th_live (s_th s t) = true /\
    frame_step dyn t (s_next s) (s_g s) (th_tsd (s_th s t)) (th_nc (s_th s t)) f c = Some ef /\ In e (e_ev ef).
Proof.
  intros HS E K. apply step_view in HS. destruct HS as (_ & LV & V).
  destruct V as [| | | | | | |f r ef Hst Hun Hbar Hfs Es']; subst; unfold add_ev in E; cbn [set_th s_tr app] in E.
  1,2,5,6: apply (f_equal (@length event)) in E; cbn in E; lia.
  1-3: inversion E; subst; destruct K.
  exists f, r, ef. rewrite apply_tr in E. repeat split; auto.
  destruct (e_ev ef) as [|x l]; cbn in E; [apply (f_equal (@length event)) in E; cbn in E; lia|].
  inversion E; subst. now left.
Qed.

Lemma shoot_live dyn s t c s' w u : reach dyn (calm u) s -> step dyn s t c = Some s' -> s_tr s' = EShoot w u :: s_tr s -> u <> MAIN ->
  th_live (s_th s u) = true.
Proof.
  intros R HS E NM. destruct (new_event _ _ _ _ _ _ HS E I) as (f & r & ef & Hst & LV & Hfs & IE).
  pose proof (calm_orderly _ _ _ R) as RO. pose proof (orderly_clean _ _ RO) as RC. pose proof (orderly_any _ _ RO) as RA.
  destruct (shoot_ev _ _ _ _ _ _ _ _ _ _ _ Hfs IE) as (_ & l & n & rest & -> & EU & FS).
  assert (IN : In (FSStarted l n rest) (th_stack (s_th s t))) by (rewrite Hst; now left).
  destruct (exit_frames _ _ RA t _ IN) as [_ EX]. destruct (frozen_reach _ _ RO (EX eq_refl)) as [CK US].
  pose proof (scan_reach _ _ RO t _ IN) as QS. cbn in QS.
  apply (listed_alive dyn u s n); auto.
  - apply QS. now left.
  - intros ->. rewrite (mi_self _ (main_reach _ _ RC)) in EU; auto.
  - exact (st_reach _ _ RO t _ IN).
  - apply (early_reach _ _ RO t _ IN). reflexivity.
  - apply (no_reset_exit _ _ MAIN RO CK).
Qed.

Lemma kill_live dyn s t c s' w u sig : reach dyn (calm u) s -> step dyn s t c = Some s' -> s_tr s' = EKill w u sig :: s_tr s -> u <> MAIN ->
  (forall x, ~ In (EFreeze x) (image (s_tr s))) -> th_live (s_th s u) = true.
Proof.
  intros R HS E NM NF. destruct (new_event _ _ _ _ _ _ HS E I) as (f & r & ef & Hst & LV & Hfs & IE).
  pose proof (calm_orderly _ _ _ R) as RO. pose proof (orderly_clean _ _ RO) as RC. pose proof (orderly_any _ _ RO) as RA.
  assert (FD : g_ftdone (s_g s) = false).
  { destruct (g_ftdone (s_g s)) eqn:X; [exfalso|reflexivity].
    destruct (inexit_freeze _ _ RO (ftdone_inexit _ _ RO X)) as (x & J). exact (NF x J). }
  assert (LK : forall f0, In f0 (th_stack (s_th s t)) -> locked f0 = true -> existsb resetting (th_stack (s_th s MAIN)) = false).
  { intros f0 I0 L0. destruct (existsb resetting (th_stack (s_th s MAIN))) eqn:RS; [exfalso|reflexivity].
    pose proof (reset_free _ _ (calm_free _ _ _ R) RS) as LN. pose proof (lock_reach _ _ RA t) as K. unfold held in K. rewrite LN in K.
    pose proof (w_lock_in _ _ I0 L0). lia. }
  destruct (kill_ev _ _ _ _ _ _ _ _ _ _ _ _ Hfs IE) as (_ & [(n & rest & -> & EU & _ & AP & FS)|(-> & EU & _)]).
  - assert (IN : In (FBcNode sig (n :: rest)) (th_stack (s_th s t))) by (rewrite Hst; now left).
    assert (L : In n (g_list (s_g s))) by (apply (bc_reach _ _ (calm_free _ _ _ R) t _ IN); now left).
    assert (US : g_used (s_g s) = true).
    { destruct (g_used (s_g s)) eqn:U; [reflexivity|]. rewrite (li_used _ (listed_reach _ _ RC) U) in L. destruct L. }
    apply (listed_alive dyn u s n); auto.
    + intros ->. rewrite (mi_self _ (main_reach _ _ RC)) in EU; auto.
    + eapply LK; eauto.
  - exfalso. apply NM. rewrite EU. apply (bcself_reach _ _ RC t (FBcMain sig)); [rewrite Hst; now left|reflexivity].
Qed.
