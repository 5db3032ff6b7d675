(** No fini_thread after the end of the wait. *)
From Verif Require Export LifeWaitEnd LifeCloseSpec.

Local Open Scope nat_scope.

Lemma quiet_any dyn s : reach dyn quiet_end s -> reach dyn any s.
Proof. apply reach_weaken. intros; exact I. Qed.

(** ** The shootdown runs above the call of fini_process *)

Definition in_sd2 (f : frame) : bool :=
  match f with
  | FSUsed | FSLock _ | FSSet _ | FSUnlock _
  | FSInstall _ | FSMain _ | FSPass _ | FSNode _ _ | FSStarted _ _ _ | FSDone _ _ _ | FSEnd _
  | FSOwn _ | FSOwnCall _ _ | FCb _ (KFiniOwn _ _) | FSOwnDone _ _ | FSRestore _ => true
  | _ => false
  end.

Fixpoint above (st : list frame) : Prop :=
  match st with
  | [] => True
  | f :: r => (in_sd2 f = true -> existsb at_fini r = true) /\ above r
  end.

Lemma above_none a r : existsb in_sd2 a = false -> above r -> above (a ++ r).
Proof.
  induction a as [|f a IH]; cbn; auto. intros E A. apply orb_false_elim in E. destruct E as [E1 E2].
  split; auto. intros X. congruence.
Qed.
Lemma above_in st f : above st -> In f st -> in_sd2 f = true -> existsb at_fini st = true.
Proof.
  induction st as [|x st IH]; [intros _ []|]. intros [A B] [->|I] S; cbn.
  - rewrite (A S). apply orb_true_r.
  - rewrite (IH B I S). apply orb_true_r.
Qed.

Lemma above_local dyn t u g tsd nc f c e : frame_step dyn t u g tsd nc f c = Some e ->
  (existsb in_sd2 (e_fr e) = false \/ (in_sd2 f = true /\ exists k f', e_fr e = k ++ [f'] /\ existsb in_sd2 k = false) \/ exists how, e_fr e = [FSUsed; FEPFini how]) /\
  (forall st, e_new e = Some st -> existsb in_sd2 st = false).
Proof.
  intros H. split.
  - assert (ONE : forall f', in_sd2 f = true -> e_fr e = [f'] ->
      in_sd2 f = true /\ exists k f', e_fr e = k ++ [f'] /\ existsb in_sd2 k = false).
    { intros f' A B. split; auto. exists [], f'. auto. }
    destruct (open f) eqn:O.
    + destruct f; try discriminate O; destruct c; try discriminate H.
      * left. destruct a, a0; cbn in H; try destruct dyn; inversion H; subst; try reflexivity; destruct expected; reflexivity.
      * inversion H. auto.
      * destruct (in_sd2 (FCb c0 k)) eqn:S.
        -- right. left. split; [reflexivity|]. exists (api_frames a (g_calls g)), (FCb c0 k).
           destruct a; cbn in H; inversion H; subst; split; try reflexivity; destruct expected; reflexivity.
        -- left. destruct a; cbn in H; inversion H; subst; cbn -[in_sd2]; rewrite ?S; try reflexivity; destruct expected; cbn -[in_sd2]; now rewrite S.
      * destruct k; cbn in H; inversion H; subst; cbn; eauto.
        right. left. split; [reflexivity|]. exists [], (FSOwnDone l n). auto.
    + fs_cases H; try discriminate O; brk H; inversion H; subst; clear H; cbn [e_fr] in *;
        first [left; reflexivity|right; left; eapply ONE; reflexivity|
          left; repeat match goal with |- context [if ?b then _ else _] => destruct b; cbn end; reflexivity|idtac].
  - intros st E. fs_cases H; brk H; inversion H; subst; clear H; cbn in E; try discriminate E; inversion E; reflexivity.
Qed.

Lemma above_reach dyn s : reach dyn any s -> forall t, above (th_stack (s_th s t)).
Proof.
  apply (reach_invariant dyn any (fun s => forall t, above (th_stack (s_th s t)))).
  - intros t. cbn. rewrite upd_if. destruct (Z.eqb t MAIN); cbn; repeat split; intros; discriminate.
  - clear s. intros s t c s' R HI _ HS. apply step_view in HS. destruct HS as (_ & LV & V).
    assert (UW : forall st, above (unwind st)).
    { intros st. destruct (unwind_shape st) as [U|(n & p & U & _)]; rewrite U; cbn; repeat split; intros; auto; discriminate. }
    destruct V as [| | | | | | |f r e Hst Hun Hbar Hfs Es']; subst; intros t'; cbn [add_ev set_th s_th];
      try (rewrite upd_if; destruct (Z.eqb t' t); [cbn|apply HI]; try apply UW;
           repeat split; intros; try discriminate; auto; apply HI).
    destruct (above_local _ _ _ _ _ _ _ _ _ Hfs) as (A & C).
    pose proof (HI t) as HT. rewrite Hst in HT. destruct HT as [HT1 HT2].
    assert (D : above (e_fr e ++ r)).
    { destruct A as [A|[(S & k & f' & E & K)|(how & E)]].
      - now apply above_none.
      - rewrite E, <- app_assoc. apply above_none; [exact K|]. cbn. split; auto.
      - rewrite E. cbn. repeat split; auto. discriminate. }
    destruct (e_child e) eqn:HC.
    + destruct (child_shape _ _ _ _ _ _ _ _ _ Hfs HC) as (_ & _ & _ & _ & _ & N & K & _).
      rewrite apply_stack_child by auto. destruct (Z.eqb t' t); [exact D|exact I].
    + rewrite apply_stack by auto. destruct (e_new e) as [st|].
      * destruct (Z.eqb t' (s_next s)); [|destruct (Z.eqb t' t); auto].
        rewrite <- (app_nil_r st). apply above_none; [now apply C|exact I].
      * destruct (Z.eqb t' t); auto.
Qed.

Lemma sd_before dyn s t f w how d : reach dyn any s -> In f (th_stack (s_th s t)) -> in_sd2 f = true ->
  ~ In (ECall w (CbFiniProcess how d)) (image (s_tr s)).
Proof.
  intros R IN S J. pose proof (above_in _ _ (above_reach _ _ R t) IN S) as X.
  apply existsb_exists in X. destruct X as (p & IP & P). destruct p; try discriminate P.
  destruct (fini_token _ _ R) as (w0 & A & _). unfold phi in A.
  pose proof (wsum_in w_fini _ _ IP) as X1. cbn in X1.
  pose proof (wsum_in (by_thread is_fini_process w) _ _ J) as X2. unfold by_thread at 1 in X2. cbn in X2. rewrite Z.eqb_refl in X2. cbn in X2.
  pose proof (A t) as A1. pose proof (A w) as A2. destruct (Z.eqb_spec t w0), (Z.eqb_spec w w0); subst; try lia.
Qed.

(** ** The flag *)

Lemma ftdone_local dyn t u g tsd nc f c e : frame_step dyn t u g tsd nc f c = Some e ->
  g_ftdone (e_g e) = g_ftdone g \/ (at_end f = true /\ c = CStep /\ g_ftdone (e_g e) = true).
Proof.
  intros H. fs_cases H; brk H; inversion H; subst; clear H; cbn; auto; g_brk; cbn; auto.
Qed.
Lemma ftdone_grow dyn t u g tsd nc f c e : frame_step dyn t u g tsd nc f c = Some e ->
  g_ftdone g = true -> g_ftdone (e_g e) = true.
Proof. intros H X. destruct (ftdone_local _ _ _ _ _ _ _ _ _ H) as [->|(_ & _ & ->)]; auto. Qed.

Definition Qend (g : glob) (tr : list event) (t : Z) (f : frame) : Prop :=
  match f with
  | FHSet _ | FHCall _ _ | FClean CLSet _ | FClean CLCall _ => g_ftdone g = false
  | FSOwn _ | FSOwnCall _ _ | FCb _ (KFiniOwn _ _) | FSOwnDone _ _ | FSRestore _ => g_ftdone g = true
  | _ => True
  end.

Lemma end_reach dyn s : reach dyn quiet_end s -> fr_inv Qend s.
Proof.
  apply fr_reach.
  - intros t f I. cbn in I. rewrite upd_if in I. destruct (Z.eqb t MAIN); [|destruct I].
    cbn in I. repeat destruct I as [<-|I]; try exact I. all: destruct I.
  - intros g tr t f e t' _ H. exact H.
  - intros g tr t f I. cbn in I. repeat destruct I as [<-|I]; try exact I. all: destruct I.
  - intros. exact I.
  - clear s. intros s t c f r e R FI HO Hst LV Hfs.
    split; [|split].
    + pose proof (FI t f) as Q. rewrite Hst in Q. specialize (Q (or_introl eq_refl)).
      clear HO FI R Hst LV. clear - Q Hfs.
      q_step; cbn [e_fr e_ev e_g app api_frames] in *; intros f' I'; cbn in I';
        repeat (destruct I' as [<-|I']; [cbn in *; try exact I; auto; try tauto; eauto|]);
        try (destruct I'; fail).
      all: repeat match goal with
           | H : _ && _ = true |- _ => apply andb_prop in H; destruct H
           | H : negb _ = true |- _ => apply negb_true_iff in H
           | |- context [if ?b then _ else _] => destruct b eqn:?
           end; cbn; auto.
    + intros t' f' D Q.
      destruct (ftdone_local _ _ _ _ _ _ _ _ _ Hfs) as [E|(AE & EC & E)].
      * revert Q. unfold Qend. now rewrite E.
      * destruct (past_check f') eqn:PC.
        -- exfalso. assert (IN : In f' (th_stack (s_th s t'))) by (destruct D as [[-> I']|(_ & _ & I')]; auto; rewrite Hst; now right).
           rewrite (HO f r Hst AE EC t' f' IN) in PC. discriminate.
        -- revert PC Q. unfold Qend. rewrite E. clear. destruct f'; cbn; auto; try discriminate; [destruct k; auto|destruct p; auto; discriminate].
    + clear - Hfs. intros st f' EN I'. q_step; cbn in EN; try discriminate EN; inversion EN; subst; cbn in I';
        repeat (destruct I' as [<-|I']; [exact I|]); destruct I'.
Qed.

Definition Cend (g : glob) (tr : list event) (t : Z) : Prop := In (EFreeze t) (image tr) -> g_ftdone g = true.

Lemma end_uncovered dyn s : reach dyn quiet_end s -> uncovered_inv in_sd at_fini Cend s.
Proof.
  apply uncovered_reach.
  - intros t L. cbn in L. rewrite upd_if in L. destruct (Z.eqb t MAIN); discriminate L.
  - intros g tr t e t' D C F. apply C. destruct D as [->| ->]; destruct F as [F|F]; try discriminate F; exact F.
  - discriminate.
  - discriminate.
  - discriminate.
  - discriminate.
  - split; reflexivity.
  - clear s. intros s t c f r e R NI HO Hst LV Hfs HC. pose proof (quiet_any _ _ R) as RA.
    assert (IN : In f (th_stack (s_th s t))) by (rewrite Hst; now left).
    pose proof (no_fork_ev _ _ _ _ _ _ _ _ _ Hfs HC) as NF.
    destruct (look_local _ _ _ _ _ _ _ _ _ Hfs) as (L1 & L2 & L3).
    assert (KEEP : forall t', ~ In (EFreeze t') (e_ev e) ->
       Cend (s_g s) (s_tr s) t' -> Cend (e_g e) (e_ev e ++ s_tr s) t').
    { intros t' N2 C F. rewrite image_app in F by exact NF. apply in_app_or in F. destruct F as [F|F]; [contradiction|].
      eapply ftdone_grow; eauto. }
    split; [|split; [|split; [|split]]].
    + intros t' NE. apply KEEP.
      intros J. destruct (freeze_ev _ _ _ _ _ _ _ _ _ _ Hfs J). contradiction.
    + intros CV _. apply KEEP.
      intros J. destruct (freeze_ev _ _ _ _ _ _ _ _ _ _ Hfs J) as (_ & l & ->). discriminate CV.
    + intros L. contradiction.
    + intros LN CV. destruct (L3 LN CV) as [[-> EV]|(o & -> & EV)]; rewrite EV; cbn [app].
      * intros F. exfalso. eapply frz_none; eauto.
      * intros _. eapply ftdone_grow; [exact Hfs|]. exact (end_reach _ _ R t _ IN).
    + exact L2.
  - clear s. intros s t c f r e R NI HO Hst Hfs HC L F.
    destruct (child_shape _ _ _ _ _ _ _ _ _ Hfs HC) as (_ & _ & _ & _ & EV & _). rewrite EV in F. destruct F.
Qed.

(** ** After fini_process has begun *)

Definition fini_begun (tr : list event) : Prop :=
  exists w how d, In (ECall w (CbFiniProcess how d)) (image tr) /\ In (EFreeze w) (image tr).

Lemma finiproc_ev dyn t u g tsd nc f c e t' how d : frame_step dyn t u g tsd nc f c = Some e ->
  In (ECall t' (CbFiniProcess how d)) (e_ev e) -> t' = t /\ exists h, f = FEPFini h.
Proof.
  intros H J. fs_cases H; brk H; inversion H; subst; clear H; cbn in J;
    repeat match type of J with context [if ?b then _ else _] => destruct b; cbn in J end;
    repeat (destruct J as [J|J]; [try discriminate J; inversion J; eauto|]); try (destruct J; fail).
  all: destruct p; discriminate.
Qed.

Lemma begun_done dyn s : reach dyn quiet_end s -> fini_begun (s_tr s) -> g_ftdone (s_g s) = true.
Proof.
  apply (reach_invariant dyn quiet_end (fun s => fini_begun (s_tr s) -> g_ftdone (s_g s) = true)).
  - intros (w & how & d & [] & _).
  - clear s. intros s t c s' R HI HO HS. pose proof (quiet_any _ _ R) as RA. apply step_view in HS. destruct HS as (_ & LV & V).
    destruct V as [| | | | | | |f r e Hst Hun Hbar Hfs Es']; subst; cbn [add_ev set_th s_tr s_g app]; auto;
      try (intros (w & how & d & [A|A] & [B|B]); try discriminate A; try discriminate B; apply HI; exists w, how, d; auto; fail).
    rewrite apply_g, apply_tr. intros (w & how & d & A & B).
    destruct (e_child e) eqn:HC.
    { destruct (child_shape _ _ _ _ _ _ _ _ _ Hfs HC) as (_ & _ & _ & _ & EV & _). rewrite EV in A. destruct A. }
    pose proof (no_fork_ev _ _ _ _ _ _ _ _ _ Hfs HC) as NF. rewrite image_app in A, B by exact NF.
    assert (IN : In f (th_stack (s_th s t))) by (rewrite Hst; now left).
    apply in_app_or in A. apply in_app_or in B. destruct A as [A|A].
    + destruct (finiproc_ev _ _ _ _ _ _ _ _ _ _ _ _ Hfs A) as (-> & h & ->).
      destruct B as [B|B]; [destruct (freeze_ev _ _ _ _ _ _ _ _ _ _ Hfs B) as (_ & o & X); discriminate|].
      eapply ftdone_grow; [exact Hfs|]. apply (end_uncovered _ _ R t); [|exact B]. now rewrite Hst.
    + destruct B as [B|B].
      * destruct (freeze_ev _ _ _ _ _ _ _ _ _ _ Hfs B) as (-> & o & ->). exfalso. exact (sd_before _ _ _ _ _ _ _ RA IN eq_refl A).
      * eapply ftdone_grow; [exact Hfs|]. apply HI. exists w, how, d. auto.
Qed.

Definition Jend (tr : list event) (e : event) : Prop :=
  match e with ECall _ (CbFiniThread _) => ~ fini_begun tr | _ => True end.

Lemma end_hist dyn s : reach dyn quiet_end s -> hist Jend (s_tr s).
Proof.
  apply hist_reach; try (intros; exact I).
  clear s. intros s t c f r e R _ _ Hst LV Hfs.
  assert (IN : In f (th_stack (s_th s t))) by (rewrite Hst; now left).
  assert (P : past_check f = true -> ~ fini_begun (s_tr s)).
  { intros PC F. pose proof (end_reach _ _ R t f IN) as Q. pose proof (begun_done _ _ R F) as X. revert PC Q. unfold Qend. rewrite X. clear. destruct f; cbn; try discriminate; destruct p; discriminate. }
  assert (P2 : in_sd2 f = true -> ~ fini_begun (s_tr s)).
  { intros S (w & how & d & A & _). exact (sd_before _ _ _ _ _ _ _ (quiet_any _ _ R) IN S A). }
  clear R Hst LV IN. q_step; cbn [e_ev justified app] in *; repeat split; cbn in *; auto.
  all: repeat match goal with |- context [if ?x then _ else _] => destruct x end; cbn; repeat split; auto.
  all: try (destruct p; exact I).
Qed.
