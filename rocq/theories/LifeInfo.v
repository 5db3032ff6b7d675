(** monitor_get_new_thread_info. *)
From Verif Require Export LifeCreate LifeBlock LifeInfoSpec.

Local Open Scope nat_scope.

Lemma tidy_orderly dyn s : reach dyn tidy s -> reach dyn orderly s.
Proof. apply reach_weaken. intros s0 t c H. apply H. Qed.

(** Frames between the lines that set and clear tn_thread_info (1083, 1167), with the
    call and the caller's node. *)
Definition informed (f : frame) : option (creq * option Z) :=
  match f with
  | FPCIgn q my | FPCSup q my | FPCSupSet q my | FPCPre q my | FPCGot q my _
  | FPCLock q my _ | FPCPick q my _ | FPCTake q my _ _ | FPCArray q my _
  | FPCInc q my _ _ | FPCZero q my _ _ | FPCUnlock q my _ _ | FPCFill q my _ _ | FPCReal q my _
  | FPCPost q my _ | FPCEnd q my => Some (q, my)
  | FCb _ (KPreCreate q my) => Some (q, my)
  | _ => None
  end.
Lemma informed_in f x : informed f = Some x -> creating f = true.
Proof. destruct f; try discriminate; auto. destruct k; try discriminate; auto. Qed.
Lemma creating_in f : creating f = true -> in_create f = true.
Proof. destruct f; auto. Qed.

(** The call a frame belongs to. *)
Definition of_call (f : frame) : option creq :=
  match f with
  | FPCInit q | FPCInfo q | FPCReal0 q | FPCRet q => Some q
  | _ => match informed f with Some (q, _) => Some q | None => None end
  end.

Lemma info_local dyn t u g tsd nc f c e n : frame_step dyn t u g tsd nc f c = Some e ->
  n_info (nd (e_g e) n) = n_info (nd g n) \/
  (exists q, f = FPCInfo q /\ get_tn g tsd = Some n /\ n_info (nd (e_g e) n) = Some (q_id q)) \/
  (n_info (nd (e_g e) n) = None /\
   ((exists q, f = FPCEnd q (Some n)) \/ f = FClean CLZero n \/ (exists q my d, f = FPCZero q my d n) \/
    (resetting f = true /\ ~ (tsd = None \/ tsd = Some MAIN_TN)))).
Proof.
  intros H.
  assert (T' : forall n, nd (reset_list tsd g) n = nd g n \/
     (~ (tsd = None \/ tsd = Some MAIN_TN) /\ n = MAIN_TN /\ n_info (nd (reset_list tsd g) n) = None)).
  { intros m. destruct tsd as [k|]; [destruct (Z.eq_dec k MAIN_TN) as [->|NK]|];
      try (left; apply reset_main; auto; fail).
    unfold reset_list, get_tn. destruct (g_used g); [|now left]. destruct (n_magic (nd g k)); [|now left].
    destruct (Z.eqb_spec k MAIN_TN); [congruence|]. unfold nd, set_node. cbn. rewrite upd_if.
    destruct (Z.eqb_spec m MAIN_TN); [right|now left]. repeat split; auto. intros [X|X]; congruence. }
  specialize (T' n).
  fs_cases H; brk H; inversion H; subst; clear H; cbn [e_g]; auto;
    try (destruct T' as [T'|(A & -> & B)];
         [left|right; right; split; [|right; right; right; split; [reflexivity|exact A]]];
         unfold nd in *; cbn in *; rewrite ?upd_if; try destruct (Z.eqb_spec n MAIN_TN); subst; cbn; rewrite ?T', ?B; reflexivity);
    clear T';
    unfold nd; cbn; try g_brk; cbn; rewrite ?upd_if; auto;
    repeat match goal with |- context [Z.eqb ?a ?b] => destruct (Z.eqb_spec a b); subst end;
    cbn; auto; eauto 10.
Qed.

Lemma informed_local dyn t u g tsd nc f c e : frame_step dyn t u g tsd nc f c = Some e ->
  (forall f' q my, In f' (e_fr e) -> informed f' = Some (q, my) ->
     informed f = Some (q, my) \/
     (f = FPCInfo q /\ my = get_tn g tsd /\ e_tsd e = tsd /\ forall n, my = Some n -> n_info (nd (e_g e) n) = Some (q_id q))) /\
  (forall st f', e_new e = Some st -> In f' st -> informed f' = None).
Proof.
  intros H. split.
  - intros f' q0 my0 I E. fs_cases H; brk H; inversion H; subst; clear H; cbn in I;
      repeat match type of I with context [if ?b then _ else _] => destruct b; cbn in I end;
      repeat (destruct I as [<-|I]; [try discriminate E; try (cbn in E; inversion E; subst); cbn; auto|]); try (destruct I; fail).
    + right. repeat split; auto. intros n X. inversion X; subst. now rewrite upd_same.
    + right. repeat split; auto. discriminate.
  - intros st f' EN I. fs_cases H; brk H; inversion H; subst; clear H; cbn in EN; try discriminate EN; inversion EN; subst;
      cbn in I; repeat (destruct I as [<-|I]; [reflexivity|]); destruct I.
Qed.

Lemma informed_next dyn t u g tsd nc f c e q my : frame_step dyn t u g tsd nc f c = Some e -> informed f = Some (q, my) ->
  (exists f', In f' (e_fr e) /\ informed f' = Some (q, my)) \/ f = FPCEnd q my \/
  (f = FPCIgn q None /\ my = None) \/ (exists n, f = FPCIgn q (Some n) /\ n_ignore (nd g n) = true) \/ f = FPCGot q my IGNORE_NEW_THREAD.
Proof.
  intros H E. destruct f; try discriminate E; try (destruct k; try discriminate E); cbn in E; inversion E; subst; clear E;
    destruct c; try discriminate H; cbn in H; brk H; inversion H; subst; clear H; cbn [e_fr]; auto;
    try (left; eexists; split; [first [now left|right; now left]|reflexivity]; fail);
    try (left; eexists (FCb _ (KPreCreate _ _)); split; [cbn; auto 8|reflexivity]; fail).
  - left. eexists. split; [apply in_or_app; right; now left|reflexivity].
  - right. right. right. left. eauto.
  - left. exists (FPCPre q my). cbn. auto.
  - apply Z.eqb_eq in E. subst. auto.
  - left. exists (FPCReal q my n). cbn. auto.
  - left. exists (FPCEnd q my). cbn. auto.
Qed.

(** ** At most one call of pthread_create on a stack *)

Definition w_cre (f : frame) : nat := b2n (in_create f).
Lemma cre_local dyn t u g tsd nc f c e : frame_step dyn t u g tsd nc f c = Some e ->
  (wsum w_cre (e_fr e) <= w_cre f \/ (exists st ar ra, c = CCall (ACreate st ar ra)) /\ wsum w_cre (e_fr e) <= 1 + w_cre f) /\
  (forall st, e_new e = Some st -> wsum w_cre st = 0).
Proof.
  intros H. split.
  - unfold w_cre. fs_cases H; brk H; inversion H; subst; clear H; cbn; auto;
      repeat match goal with |- context [if ?b then _ else _] => destruct b; cbn end; auto; try (left; lia); right; split; eauto; lia.
  - intros st EN. fs_cases H; brk H; inversion H; subst; clear H; cbn in EN; try discriminate EN; inversion EN; subst; reflexivity.
Qed.
Lemma wcre_none st : existsb in_create st = false -> wsum w_cre st = 0.
Proof.
  induction st as [|f r IH]; [reflexivity|]. cbn. intros E. apply orb_false_elim in E. destruct E as [E1 E2].
  unfold w_cre at 1. rewrite E1, IH by exact E2. reflexivity.
Qed.
Lemma wcre_in st f : In f st -> in_create f = true -> 1 <= wsum w_cre st.
Proof. intros I E. pose proof (wsum_in w_cre st f I) as X. unfold w_cre at 1 in X. rewrite E in X. exact X. Qed.

Lemma one_create_reach dyn s : reach dyn tidy s -> forall t, wsum w_cre (th_stack (s_th s t)) <= 1.
Proof.
  apply (reach_invariant dyn tidy (fun s => forall t, wsum w_cre (th_stack (s_th s t)) <= 1)).
  - intros t. cbn. rewrite upd_if. destruct (Z.eqb t MAIN); cbn; lia.
  - clear s. intros s t c s' R HI (_ & FL & _ & _) HS v. apply step_view in HS. destruct HS as (_ & LV & V).
    pose proof (HI t) as HT. pose proof (HI v) as HV.
    assert (UW : forall l, wsum w_cre (unwind l) = 0).
    { intros l. destruct (unwind_shape l) as [U|(n & f & U & _)]; rewrite U; reflexivity. }
    destruct V as [| | | |f1 r1 Ec Est Enc Elk|r1 Ec Est Elk| |f r e Hst Hun Hbar Hfs Es']; subst; unfold add_ev; cbn [set_th s_th];
      try (rewrite upd_if; destruct (Z.eqb v t); [cbn [with_stack th_stack wsum]; rewrite ?UW; cbn [wsum w_cre b2n in_create creating] in *; lia|exact HV]).
    destruct (cre_local _ _ _ _ _ _ _ _ _ Hfs) as (A & B).
    assert (OWN : wsum w_cre (e_fr e ++ r) <= 1).
    { rewrite wsum_app. rewrite Hst in HT. cbn [wsum] in HT. destruct A as [A|(C & A)]; [lia|].
      specialize (FL C). pose proof (wcre_none _ FL) as Z. rewrite Hst in Z. cbn [wsum] in Z. lia. }
    destruct (e_child e) eqn:HC.
    + destruct (child_shape _ _ _ _ _ _ _ _ _ Hfs HC) as (_ & _ & _ & _ & _ & N & K & _).
      rewrite apply_stack_child by auto. destruct (Z.eqb v t); [exact OWN|cbn; lia].
    + rewrite apply_stack by auto. destruct (e_new e) as [st|] eqn:EN.
      * destruct (Z.eqb v (s_next s)); [rewrite (B st eq_refl); lia|]. destruct (Z.eqb v t); [exact OWN|exact HV].
      * destruct (Z.eqb v t); [exact OWN|exact HV].
Qed.

(** A second frame of a call below the top one. *)
Lemma not_two dyn s t f r f' : reach dyn tidy s -> th_stack (s_th s t) = f :: r -> in_create f = true -> In f' r -> in_create f' = true -> False.
Proof.
  intros R E A I B. pose proof (one_create_reach _ _ R t) as X. rewrite E in X. cbn [wsum] in X.
  unfold w_cre at 1 in X. rewrite A in X. pose proof (wcre_in _ _ I B). cbn in X. lia.
Qed.
