(** Theorems on monitor_block_shootdown: C49. *)
From Verif Require Import LifeBlock LifeFiniProps LifeWaitProps.

Local Open Scope Z_scope.

(** Thread t, main or a thread with a number, has returned from
    monitor_block_shootdown and has not returned from monitor_unblock_shootdown since.
    fini_thread is issued in it only if it runs the exit code itself.
    Partial: the assumptions of [orderly]; no signal handler runs in a thread between
    its test of the flag and the call of fini_thread, or inside
    monitor_block_shootdown. *)
Theorem C49_deferred_partial : forall dyn s a t d m r b,
  reach dyn steady s ->
  s_tr s = a ++ ECall t (CbFiniThread d) :: m ++ EBlock t r :: b ->
  ~ In (EUnblock t) m -> t = MAIN \/ (exists k, In (EReg t k) b) ->
  In (EWin t) (m ++ EBlock t r :: b).
Proof.
  intros dyn s a t d m r b R E N K. apply (fini_hist_block _ _ R a _ _ E). exists m, r, b. auto.
Qed.

(** The value returned: whether a thread of this process has begun the shootdown. *)
Theorem C49_value_partial : forall dyn s a t r b,
  reach dyn orderly s ->
  s_tr s = a ++ EBlock t r :: b -> t = MAIN \/ (exists k, In (EReg t k) b) ->
  (r = true <-> exists w, In (EFreeze w) (image b)).
Proof. intros dyn s a t r b R E K. exact (block_hist _ _ R a _ _ E K). Qed.

Definition steady_b (s : state) (t : Z) (c : choice) : bool :=
  orderly_b s t c &&
  match th_stack (s_th s t) with
  | f :: _ => negb (testing f) || match c with CStep => true | _ => false end
  | [] => true
  end.
Lemma steady_b_ok s t c : steady_b s t c = true -> steady s t c.
Proof.
  unfold steady_b. intros H. apply andb_prop in H. destruct H as [A B]. split; [now apply orderly_b_ok|].
  intros f r E T. rewrite E, T in B. now destruct c.
Qed.
Lemma steady_run dyn l s : run_ok steady_b dyn init l = Some s -> reach dyn steady s.
Proof. intros H. eapply run_ok_reach; [exact steady_b_ok|apply reach_init|exact H]. Qed.

(** Main exits; thread 2 has blocked.  The shootdown signal reaches it, fini_thread is
    not issued; it unblocks, and is shot down by the second pass. *)
Definition blocked_then_shot : list (Z * choice) :=
  two_threads ++ [(2, CCall ABlock)] ++ ticks 2 2 ++ shoot_first 1 ++ ticks 1 3 ++
  [(2, CShoot)] ++ ticks 2 2.
Example C49_deferred_case : exists s,
  reach false steady s /\ hd_error (s_tr s) = Some (EDeliver 2) /\
  th_stack (s_th s 2) = [FApp AppStart; FBT BTPop 1; FApp AppTsd] /\ In (EBlock 2 false) (s_tr s) /\ In (EReg 2 1) (s_tr s).
Proof.
  assert (X : exists s, run_ok steady_b false init blocked_then_shot = Some s /\ hd_error (s_tr s) = Some (EDeliver 2) /\
    th_stack (s_th s 2) = [FApp AppStart; FBT BTPop 1; FApp AppTsd] /\ In (EBlock 2 false) (s_tr s) /\ In (EReg 2 1) (s_tr s)).
  { eexists. split; [vm_compute; reflexivity|]. vm_compute. intuition reflexivity. }
  destruct X as (s & E & A). exists s. split; [eapply steady_run; exact E|exact A].
Qed.
Example C49_unblocked_case : exists s,
  reach false steady s /\ hd_error (s_tr s) = Some (ECall 2 (CbFiniThread 6)) /\
  In (EUnblock 2) (s_tr s) /\ In (EBlock 2 true) (s_tr s) /\ In (EFreeze 1) (image (s_tr s)).
Proof.
  assert (X : exists s, run_ok steady_b false init (blocked_then_shot ++ [(2, CCall ABlock)] ++ ticks 2 2 ++ 
      [(2, CCall AUnblock)] ++ ticks 2 1 ++ ticks 1 8 ++ [(2, CShoot)] ++ ticks 2 5) = Some s /\ hd_error (s_tr s) = Some (ECall 2 (CbFiniThread 6)) /\
    In (EUnblock 2) (s_tr s) /\ In (EBlock 2 true) (s_tr s) /\ In (EFreeze 1) (image (s_tr s))).
  { eexists. split; [vm_compute; reflexivity|]. vm_compute. intuition reflexivity. }
  destruct X as (s & E & A). exists s. split; [eapply steady_run; exact E|exact A].
Qed.
(** A thread that has blocked exits itself. *)
Example C49_own_case : exists s a m b,
  reach false steady s /\ s_tr s = a ++ ECall 2 (CbFiniThread 6) :: m ++ EBlock 2 false :: b /\
  ~ In (EUnblock 2) m /\ In (EReg 2 1) b /\ In (EWin 2) m.
Proof.
  assert (X : exists s, run_ok steady_b false init (two_threads ++ [(2, CCall ABlock)] ++ ticks 2 2 ++ 
      win 2 ++ [(2, CRet 0)] ++ ticks 2 15 ++ shot 1 ++ shot 3 ++ ticks 2 12) = Some s /\
    exists a m b, s_tr s = a ++ ECall 2 (CbFiniThread 6) :: m ++ EBlock 2 false :: b /\ ~ In (EUnblock 2) m /\ In (EReg 2 1) b /\ In (EWin 2) m).
  { eexists. split; [vm_compute; reflexivity|]. cbn [s_tr]. exists [].
    match goal with |- exists m b, ?x :: ?l = _ /\ _ => exists (firstn 15 l), (skipn 16 l) end.
    split; [vm_compute; reflexivity|]. vm_compute. intuition discriminate. }
  destruct X as (s & E & a & m & b & A). exists s, a, m, b. split; [eapply steady_run; exact E|exact A].
Qed.

(** Refuted: the shootdown handler has tested the flag; a signal handler that
    interrupts it calls monitor_block_shootdown; fini_thread follows. *)
Theorem C49_interrupted_refuted : exists dyn l s m b,
  run dyn init l = Some s /\ s_tr s = ECall 2 (CbFiniThread 6) :: m ++ EBlock 2 true :: b /\
  ~ In (EUnblock 2) m /\ In (EReg 2 1) b /\ ~ In (EWin 2) (s_tr s).
Proof.
  exists false, (two_threads ++ shoot_first 1 ++ ticks 1 3 ++ [(2, CShoot)] ++ ticks 2 2 ++ [(2, CSignal); (2, CCall ABlock)] ++
    ticks 2 2 ++ [(2, CRet 0)] ++ ticks 2 3).
  eexists. exists []. eexists. split; [vm_compute; reflexivity|]. split; [reflexivity|]. vm_compute. intuition discriminate.
Qed.

(** Refuted: a handler that interrupts monitor_block_shootdown unblocks. *)
Theorem C49_nested_refuted : exists dyn l s m b,
  run dyn init l = Some s /\ s_tr s = ECall 2 (CbFiniThread 6) :: m ++ EBlock 2 false :: b /\
  ~ In (EUnblock 2) m /\ In (EReg 2 1) b /\ ~ In (EWin 2) (s_tr s).
Proof.
  exists false, (two_threads ++ [(2, CCall ABlock); (2, CStep); (2, CSignal); (2, CCall AUnblock); (2, CStep); (2, CRet 0); (2, CStep)] ++
    shoot_first 1 ++ ticks 1 3 ++ [(2, CShoot)] ++ ticks 2 5).
  eexists. do 2 eexists. split; [vm_compute; reflexivity|]. split; [cbn [s_tr]; f_equal;
    match goal with |- ?l = _ => instantiate (2 := firstn 9 l); instantiate (1 := skipn 10 l) end; vm_compute; reflexivity|].
  vm_compute. intuition discriminate.
Qed.

Print Assumptions C49_deferred_partial.
Print Assumptions C49_value_partial.
Print Assumptions C49_deferred_case.
Print Assumptions C49_unblocked_case.
Print Assumptions C49_own_case.
Print Assumptions C49_interrupted_refuted.
Print Assumptions C49_nested_refuted.
