(** Theorems on monitor_get_new_thread_info: C45.

    An event EInfo t r is a call of the function by thread t.  r is None when it
    returns 1; otherwise it names the call of pthread_create whose data is copied, the
    start routine and the return address.  in_call and in_hooks are in LifeInfoSpec. *)
From Verif Require Import LifeInfo3 LifeRunB.

Local Open Scope Z_scope.

(** In every schedule: what is reported is the data of a call of pthread_create made
    before, not of another one or made up. *)
Theorem C45_real : forall dyn s t k st ra l1 l2,
  reach dyn any s -> s_tr s = l1 ++ EInfo t (Some (k, (st, ra))) :: l2 ->
  exists t' q, In (ECreateCall t' q) l2 /\ q_id q = k /\ q_start q = st /\ q_ra q = ra.
Proof. intros dyn s t k st ra l1 l2 R E. exact (real_hist _ _ R _ _ _ E). Qed.

(** It succeeds only inside a call of the calling thread, and then reports that call. *)
Theorem C45_only_inside_partial : forall dyn s t k st ra l1 l2,
  reach dyn tidy s -> s_tr s = l1 ++ EInfo t (Some (k, (st, ra))) :: l2 ->
  exists q, q_id q = k /\ q_start q = st /\ q_ra q = ra /\ in_call t q l2.
Proof. intros dyn s t k st ra l1 l2 R E. exact (proj1 (info_hist _ _ R _ _ _ E) _ _ _ eq_refl). Qed.

(** From the start of thread_pre_create to the end of thread_post_create it succeeds and
    reports the call.
    Partial (both): no pthread_create inside the callbacks of another one, no thread
    leaves one by pthread_exit or cancellation, no new thread is ignored, and the
    conditions of [orderly]. *)
Theorem C45_inside_partial : forall dyn s t r q l1 l2,
  reach dyn tidy s -> s_tr s = l1 ++ EInfo t r :: l2 -> in_hooks t q l2 ->
  r = Some (q_id q, (q_start q, q_ra q)).
Proof. intros dyn s t r q l1 l2 R E H. exact (proj2 (info_hist _ _ R _ _ _ E) q H). Qed.

(** Outside: a thread whose calls have all returned gets 1. *)
Theorem C45_outside_partial : forall dyn s t r l1 l2,
  reach dyn tidy s -> s_tr s = l1 ++ EInfo t r :: l2 ->
  (forall q, In (ECreateCall t q) l2 -> In (ECreateRet t q) l2) -> r = None.
Proof.
  intros dyn s t r l1 l2 R E H. destruct r as [[k [st ra]]|]; [|reflexivity].
  destruct (proj1 (info_hist _ _ R _ _ _ E) _ _ _ eq_refl) as (q & _ & _ & _ & A & B). elim B. auto.
Qed.

Definition tidy_b (s : state) (t : Z) (c : choice) : bool :=
  orderly_b s t c &&
  match c with
  | CCall (ACreate _ _ _) | CCancel => negb (existsb in_create (th_stack (s_th s t)))
  | _ => match th_stack (s_th s t) with FUnwind :: r => negb (existsb in_create r) | _ => true end
  end &&
  match th_stack (s_th s t) with
  | FPCGot _ _ d :: _ => negb (d =? IGNORE_NEW_THREAD)
  | FPCIgn _ (Some n) :: _ => negb (n_ignore (nd (s_g s) n))
  | _ => true
  end.
Lemma tidy_b_ok s t c : tidy_b s t c = true -> tidy s t c.
Proof.
  unfold tidy_b. intros H. apply andb_prop in H. destruct H as [H C]. apply andb_prop in H. destruct H as [A B].
  split; [now apply orderly_b_ok|]. split; [|split].
  - intros (st & ar & ra & ->). now apply Bool.negb_true_iff.
  - intros [->|(r & E)]; [now apply Bool.negb_true_iff|]. destruct c; try (now apply Bool.negb_true_iff);
      try (rewrite E in B |- *; cbn; now apply Bool.negb_true_iff).
    destruct a; try (now apply Bool.negb_true_iff); rewrite E in B |- *; cbn; now apply Bool.negb_true_iff.
  - unfold heeded. destruct (th_stack (s_th s t)) as [|f r]; [exact I|]. destruct f; try exact I.
    + destruct my; [|exact I]. now apply Bool.negb_true_iff.
    + intros ->. discriminate C.
Qed.
Lemma tidy_run dyn l s : run_ok tidy_b dyn init l = Some s -> reach dyn tidy s.
Proof. intros H. eapply run_ok_reach; [exact tidy_b_ok|apply reach_init|exact H]. Qed.

(** Thread t asks. *)
Definition info (t : Z) : list (Z * choice) := [(t, CCall AInfo); (t, CStep)].

(** Main asks in pre_create, in post_create, and after the call; thread 2, made by the
    call, makes a call itself at the same time. *)
Definition asks : list (Z * choice) :=
  to_main ++ [(1, CCall (ACreate 10 11 99))] ++ ticks 1 7 ++ [(1, CRet 0)] ++ ticks 1 1 ++ info 1 ++ [(1, CRet 5)] ++
  ticks 1 9 ++ [(1, CRet 0); (1, COk)] ++ ticks 1 1 ++ info 1.
Example C45_case : exists s l2, reach false tidy s /\
  s_tr s = EInfo 1 (Some (0, (10, 99))) :: l2 /\ in_hooks 1 (mkcreq 0 10 11 99) l2 /\ in_call 1 (mkcreq 0 10 11 99) l2 /\
  In (EInfo 1 (Some (0, (10, 99)))) l2.
Proof.
  assert (X : exists s, run_ok tidy_b false init asks = Some s /\
    exists l2, s_tr s = EInfo 1 (Some (0, (10, 99))) :: l2 /\ in_hooks 1 (mkcreq 0 10 11 99) l2 /\ in_call 1 (mkcreq 0 10 11 99) l2 /\
      In (EInfo 1 (Some (0, (10, 99)))) l2).
  { eexists. split; [vm_compute; reflexivity|]. eexists. split; [vm_compute; reflexivity|].
    unfold in_hooks, in_call. cbn. repeat split; auto 20.
    - intros (x & v & Y). repeat (destruct Y as [Y|Y]; [discriminate Y|]). destruct Y.
    - intros Y. repeat (destruct Y as [Y|Y]; [discriminate Y|]). destruct Y. }
  destruct X as (s & E & l2 & A). exists s, l2. split; [|exact A]. eapply tidy_run; eauto.
Qed.
Example C45_outside_case : exists s l2, reach false tidy s /\
  s_tr s = EInfo 1 None :: l2 /\ (forall q, In (ECreateCall 1 q) l2 -> In (ECreateRet 1 q) l2) /\
  In (ECreateCall 1 (mkcreq 0 10 11 99)) l2.
Proof.
  assert (X : exists s, run_ok tidy_b false init (to_main ++ create1 1 10 11 5 ++ info 1) = Some s /\
    exists l2, s_tr s = EInfo 1 None :: l2 /\ (forall q, In (ECreateCall 1 q) l2 -> In (ECreateRet 1 q) l2) /\
      In (ECreateCall 1 (mkcreq 0 10 11 99)) l2).
  { eexists. split; [vm_compute; reflexivity|]. eexists. split; [vm_compute; reflexivity|]. split; [|cbn; auto 20].
    intros q Y. cbn in Y. repeat (destruct Y as [Y|Y]; [try discriminate Y; inversion Y; cbn; auto 20|]). destruct Y. }
  destruct X as (s & E & l2 & A). exists s, l2. split; [|exact A]. eapply tidy_run; eauto.
Qed.

(** Refuted: pre_create returned the ignore value.  pthread_create returns without
    clearing the pointer, and a later call copies from the stack frame of the call that
    has returned. *)
Theorem C45_dangling_refuted : exists dyn l s q,
  run dyn init l = Some s /\ hd_error (s_tr s) = Some (EInfo 1 (Some (q_id q, (q_start q, q_ra q)))) /\
  In (ECreateRet 1 q) (s_tr s).
Proof.
  exists false, (to_main ++ create1 1 10 11 5 ++ create_ign 1 20 21 ++ info 1). eexists. exists (mkcreq 1 20 21 99).
  split; [vm_compute; reflexivity|]. split; [reflexivity|]. cbn. auto 20.
Qed.

(** Refuted: pre_create makes a thread itself.  The inner call clears the pointer, and
    the outer callback, asking afterwards, gets 1 although its call is open. *)
Definition nested : list (Z * choice) :=
  to_main ++ create1 1 10 11 5 ++ [(1, CCall (ACreate 20 21 99))] ++ ticks 1 6 ++ create2 1 30 31 6 ++ info 1.
Theorem C45_nested_refuted : exists dyn l s q l2,
  run dyn init l = Some s /\ s_tr s = EInfo 1 None :: l2 /\ in_hooks 1 q l2.
Proof.
  exists false, nested. eexists. exists (mkcreq 1 20 21 99). eexists.
  split; [vm_compute; reflexivity|]. split; [vm_compute; reflexivity|].
  unfold in_hooks. cbn. repeat split; auto 40.
  intros (x & v & Y). repeat (destruct Y as [Y|Y]; [discriminate Y|]). destruct Y.
Qed.

Print Assumptions C45_real.
Print Assumptions C45_only_inside_partial.
Print Assumptions C45_inside_partial.
Print Assumptions C45_outside_partial.
Print Assumptions C45_case.
Print Assumptions C45_outside_case.
Print Assumptions C45_dangling_refuted.
Print Assumptions C45_nested_refuted.
