(** The thread lock and the thread numbers, in every schedule. *)
From Verif Require Export LifeOnce.

Local Open Scope nat_scope.

(** ** The lock *)

Definition w_lock (f : frame) : nat := b2n (locked f).
Definition held (g : glob) (t : Z) : nat :=
  match g_lock g with Some h => if Z.eqb h t then 1 else 0 | None => 0 end.
Definition lock_inv (s : state) : Prop :=
  forall t, wsum w_lock (th_stack (s_th s t)) <= held (s_g s) t.

Lemma lock_local dyn t u g tsd nc f c e :
  frame_step dyn t u g tsd nc f c = Some e ->
  (forall st, e_new e = Some st -> wsum w_lock st = 0) /\
  (if locked f
   then (g_lock (e_g e) = g_lock g /\ wsum w_lock (e_fr e) = 1) \/
        (g_lock (e_g e) = None /\ wsum w_lock (e_fr e) = 0)
   else (g_lock (e_g e) = g_lock g /\ wsum w_lock (e_fr e) = 0) \/
        (g_lock g = None /\ g_lock (e_g e) = Some t /\ wsum w_lock (e_fr e) = 1)).
Proof.
  intros H.
  split; [intros st EN; fs_cases H; brk H; inversion H; subst; clear H; cbn in EN;
          try discriminate; inversion EN; reflexivity|].
  fs_cases H; brk H; inversion H; subst; clear H; cbn; auto; g_brk; auto.
Qed.

Lemma unwind_lock st : wsum w_lock (unwind st) = 0.
Proof. destruct (unwind_shape st) as [U|(n & f & U & _)]; rewrite U; reflexivity. Qed.

Lemma lock_reach dyn s : reach dyn any s -> lock_inv s.
Proof.
  apply reach_invariant.
  - intros t. cbn. rewrite upd_if. destruct (Z.eqb t MAIN); cbn; lia.
  - clear s. intros s t c s' R HI HO HS. apply step_view in HS. destruct HS as (_ & LV & V).
    unfold lock_inv in *.
    destruct V as [| | | | | | |f r e Hst Hun Hbar Hfs Es']; subst; intros t'; pose proof (HI t') as HI'.
    1-7: unfold add_ev; cbn [set_th s_th s_g s_tr]; rewrite upd_if;
         destruct (Z.eqb_spec t' t); [subst t'|exact HI'];
         cbn [with_stack th_stack wsum w_lock locked b2n]; rewrite ?unwind_lock; cbn; lia.
    rewrite apply_g.
    destruct (lock_local _ _ _ _ _ _ _ _ _ Hfs) as (NW & L).
    assert (X : wsum w_lock (if Z.eqb t' t then e_fr e ++ r else th_stack (s_th s t')) <= held (e_g e) t').
    { destruct (Z.eqb_spec t' t) as [->|N].
      - rewrite wsum_app. rewrite Hst in HI'. cbn [wsum] in HI'. unfold w_lock at 1 in HI'. unfold held in *.
        destruct (locked f); cbn [b2n] in HI'.
        + destruct L as [[L1 L2]|[L1 L2]]; rewrite L1, L2; [exact HI'|].
          destruct (g_lock (s_g s)) as [h|]; [|lia]. destruct (Z.eqb h t); lia.
        + destruct L as [[L1 L2]|(L1 & L2 & L3)].
          * rewrite L1, L2. exact HI'.
          * rewrite L1 in HI'. rewrite L2, L3, Z.eqb_refl. lia.
      - pose proof (HI t) as HT. rewrite Hst in HT. cbn [wsum] in HT. unfold w_lock at 1 in HT. unfold held in *.
        destruct (locked f); cbn [b2n] in HT.
        + assert (Y : wsum w_lock (th_stack (s_th s t')) = 0).
          { destruct (g_lock (s_g s)) as [h|]; [|lia].
            destruct (Z.eqb_spec h t); [|lia]. destruct (Z.eqb_spec h t'); [congruence|lia]. }
          rewrite Y. lia.
        + destruct L as [[L1 L2]|(L1 & L2 & L3)].
          * rewrite L1. exact HI'.
          * rewrite L1 in HI'. lia. }
    destruct (e_child e) eqn:HC.
    + destruct (child_shape _ _ _ _ _ _ _ _ _ Hfs HC) as (_ & _ & _ & _ & _ & HN & HK & _).
      rewrite apply_stack_child by auto. destruct (Z.eqb t' t); [exact X|]. cbn. lia.
    + rewrite apply_stack by auto. destruct (e_new e) as [st|] eqn:EN; [|exact X].
      destruct (Z.eqb_spec t' (s_next s)); [|exact X]. rewrite (NW st eq_refl). lia.
Qed.

(** At most one frame of all stacks is inside a locked region. *)
Lemma w_lock_in st f : In f st -> locked f = true -> 1 <= wsum w_lock st.
Proof.
  induction st as [|x r IH]; [intros []|]. cbn. unfold w_lock at 1.
  intros [->|I] L; [rewrite L; cbn; lia|]. specialize (IH I L). lia.
Qed.

Lemma lock_one s t f r t' f' :
  lock_inv s -> th_stack (s_th s t) = f :: r -> locked f = true ->
  (t' = t /\ In f' r) \/ (t' <> t /\ In f' (th_stack (s_th s t'))) ->
  locked f' = false.
Proof.
  intros HI Hst L D. destruct (locked f') eqn:L'; [exfalso|reflexivity].
  pose proof (HI t) as A. rewrite Hst in A. cbn [wsum] in A. unfold w_lock at 1 in A.
  rewrite L in A. cbn [b2n] in A. unfold held in A.
  destruct D as [[-> I]|[N I]].
  - pose proof (w_lock_in _ _ I L'). destruct (g_lock (s_g s)); [destruct (Z.eqb _ _)|]; lia.
  - pose proof (w_lock_in _ _ I L'). pose proof (HI t') as B. unfold held in B.
    destruct (g_lock (s_g s)) as [h|]; [|lia].
    destruct (Z.eqb_spec h t); destruct (Z.eqb_spec h t'); try lia; congruence.
Qed.

(** ** Numbers *)

Definition is_btnum (f : frame) : bool := match f with FBT (BTNum _) _ => true | _ => false end.

Definition Qnum (g : glob) (tr : list event) (t : Z) (f : frame) : Prop :=
  match f with FBT (BTNum x) _ => x = g_num g | _ => True end.

Lemma num_local dyn t u g tsd nc f c e :
  frame_step dyn t u g tsd nc f c = Some e -> is_btnum f = false ->
  g_num (e_g e) = g_num g /\ count is_reg (e_ev e) = 0.
Proof.
  intros H N. fs_cases H; brk H; inversion H; subst; clear H; cbn in N |- *; try discriminate N; auto;
    g_brk; auto.
Qed.

Lemma num_frames dyn s : reach dyn any s -> fr_inv Qnum s.
Proof.
  apply fr_reach.
  - intros t f I. cbn in I. rewrite upd_if in I. destruct (Z.eqb t MAIN); [|destruct I].
    cbn in I. repeat destruct I as [<-|I]; try exact I. all: destruct I.
  - intros g tr t f e t' _ H. exact H.
  - intros g tr t f I. cbn in I. repeat destruct I as [<-|I]; try exact I. all: destruct I.
  - intros. exact I.
  - intros s0 t c f r e R FI _ Hst LV Hfs. split; [|split].
    + clear FI. q_step; intros f' I'; cbn in I';
        repeat (destruct I' as [<-|I']; [cbn in *; try exact I; auto; try tauto|]);
        try (destruct I'; fail).
    + intros t' f' D Q. destruct (is_btnum f) eqn:B.
      * assert (L : locked f' = false).
        { eapply lock_one; [apply (lock_reach _ _ R)|exact Hst| |].
          - destruct f; try discriminate. destruct p; try discriminate. reflexivity.
          - destruct D as [D|(N & _ & D)]; [left; exact D|right; exact (conj N D)]. }
        destruct f'; try exact I. destruct p; try exact I. discriminate L.
      * destruct (num_local _ _ _ _ _ _ _ _ _ Hfs B) as (G & _).
        destruct f'; try exact I. destruct p; try exact I. cbn in *. now rewrite G.
    + clear FI. q_step; intros st f' EQN I'; cbn in EQN; try discriminate; inversion EQN; subst; cbn in I';
        repeat (destruct I' as [<-|I']; [exact I|]); destruct I'.
Qed.

Lemma count_app p a b : count p (a ++ b) = count p a + count p b.
Proof. induction a as [|x a IH]; cbn; [reflexivity|]. rewrite IH. destruct (p x); lia. Qed.

Lemma num_count dyn s : reach dyn any s -> g_num (s_g s) = Z.of_nat (count is_reg (s_tr s)).
Proof.
  apply (reach_invariant dyn any (fun s => g_num (s_g s) = Z.of_nat (count is_reg (s_tr s)))).
  - reflexivity.
  - clear s. intros s t c s' R HI HO HS. apply step_view in HS. destruct HS as (_ & LV & V).
    destruct V as [| | | | | | |f r e Hst Hun Hbar Hfs Es']; subst; try exact HI.
    rewrite apply_g, apply_tr, count_app.
    destruct (is_btnum f) eqn:B.
    + destruct f; try discriminate. destruct p; try discriminate.
      assert (Q : Qnum (s_g s) (s_tr s) t (FBT (BTNum x) n)).
      { apply (num_frames _ _ R). rewrite Hst. now left. }
      cbn in Q. destruct c; cbn in Hfs; try discriminate. inversion Hfs; subst; clear Hfs. cbn. lia.
    + destruct (num_local _ _ _ _ _ _ _ _ _ Hfs B) as (G & E). rewrite G, E. exact HI.
Qed.

Lemma num_hist dyn s : reach dyn any s ->
  hist (fun tr e => match e with EReg _ k => k = Z.of_nat (S (count is_reg tr)) | _ => True end) (s_tr s).
Proof.
  apply hist_reach; try (intros; exact I).
  intros s0 t c f r e R _ _ Hst LV Hfs.
  destruct (is_btnum f) eqn:B.
  - destruct f; try discriminate. destruct p; try discriminate.
    assert (Q : Qnum (s_g s0) (s_tr s0) t (FBT (BTNum x) n)).
    { apply (num_frames _ _ R). rewrite Hst. now left. }
    pose proof (num_count _ _ R) as NC.
    cbn in Q. destruct c; cbn in Hfs; try discriminate. inversion Hfs; subst; clear Hfs. cbn.
    split; [lia|exact I].
  - destruct (num_local _ _ _ _ _ _ _ _ _ Hfs B) as (_ & E).
    revert E. generalize (e_ev e). clear. induction l as [|x l IH]; [easy|].
    cbn. destruct x; cbn; intros E; try discriminate; auto.
Qed.

Lemma numbers_seq tr :
  hist (fun tr e => match e with EReg _ k => k = Z.of_nat (S (count is_reg tr)) | _ => True end) tr ->
  numbers tr = map Z.of_nat (seq 1 (count is_reg tr)).
Proof.
  induction tr as [|e r IH]; intros H; [reflexivity|].
  assert (H' : hist (fun tr e => match e with EReg _ k => k = Z.of_nat (S (count is_reg tr)) | _ => True end) r).
  { intros a x b E. apply (H (e :: a) x b). cbn. now rewrite E. }
  specialize (IH H'). pose proof (H [] e r eq_refl) as J.
  destruct e; cbn [numbers count is_reg]; try exact IH.
  rewrite IH, J. rewrite seq_S, map_app. reflexivity.
Qed.

Lemma numbers_in_order dyn l s : run dyn init l = Some s ->
  numbers (s_tr s) = map Z.of_nat (seq 1 (length (numbers (s_tr s)))).
Proof.
  intros H. apply reach_run in H. apply num_hist in H. apply numbers_seq in H.
  rewrite H at 2. rewrite map_length, seq_length. exact H.
Qed.
