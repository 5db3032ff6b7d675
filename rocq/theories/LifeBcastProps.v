(** Theorems on monitor_broadcast_signal: C46. *)
From Verif Require Import LifeBcast LifeFiniProps LifeAliveProps.

Local Open Scope Z_scope.

(** A thread inside monitor_broadcast_signal can always take its next step, whatever
    the other threads do and whoever holds the lock. *)
Theorem C46_never_waits : forall dyn s t f r,
  reach dyn any s -> g_dead (s_g s) = false -> th_live (s_th s t) = true ->
  th_stack (s_th s t) = f :: r -> bc_frame f = true ->
  exists s', step dyn s t CStep = Some s'.
Proof.
  intros dyn s t f r _ D L ST B. pose proof (bc_moves dyn s t f r D L ST B) as X.
  destruct (step dyn s t CStep) as [s'|]; [eauto|now destruct X].
Qed.

(** From every reachable state a call of monitor_broadcast_signal, run without
    interruption, returns.  If it returns -1 somebody holds the lock and nothing was
    sent.  If it returns 0, every event of the call is a signal to another thread, main
    or one whose init_thread has returned; no created thread is sent it twice; and as
    long as the thread list is not frozen, every thread in its start routine but the
    caller is sent it exactly once, and so is main unless it is the caller.
    Partial: the assumptions of [orderly]; the threads that run during the call are
    left out. *)
Theorem C46_partial : forall dyn s t sig s1,
  reach dyn orderly s -> step dyn s t (CCall (ABroadcast sig)) = Some s1 ->
  exists k s' v m, run dyn s1 (ticks t k) = Some s' /\ th_stack (s_th s' t) = th_stack (s_th s t) /\
    s_tr s' = EBcastRet t v :: m ++ EBcast t sig :: s_tr s /\
    ((v = -1 /\ m = [] /\ exists h, g_lock (s_g s) = Some h) \/
     (v = 0 /\
      (forall e, In e m -> exists u, e = EKill t u sig /\ u <> t /\ (u = MAIN \/ initiated u (s_tr s))) /\
      (forall u, u <> MAIN -> (count (kill_of t u sig) m <= 1)%nat) /\
      ((forall w, ~ In (EFreeze w) (image (s_tr s))) ->
        (forall u, u <> t -> in_start s u -> count (kill_of t u sig) m = 1%nat) /\
        (t <> MAIN -> count (kill_of t MAIN sig) m = 1%nat)))).
Proof. exact bc_spec. Qed.

(** In every schedule: a signal of monitor_broadcast_signal goes to a thread other
    than the caller; to main, or to a thread whose init_thread has returned and whose
    fini_thread has not been issued.
    Partial: the assumptions of [fini_safe]; no fork while the lock is held. *)
Theorem C46_target_partial : forall dyn s t c s' w u sig,
  reach dyn safe_free s -> step dyn s t c = Some s' -> s_tr s' = EKill w u sig :: s_tr s ->
  w = t /\ u <> w /\ (u = MAIN \/ initiated u (s_tr s) /\ count (fini_thread_of u) (s_tr s) = 0%nat).
Proof. exact kill_fresh. Qed.

(** Thread 2 broadcasts; thread 3 and main get the signal.  Then with the lock held by
    thread 3, which is registering: nobody gets it. *)
Example C46_case : exists s s1 s',
  reach false orderly s /\ step false s 2 (CCall (ABroadcast 10)) = Some s1 /\
  run false s1 (ticks 2 8) = Some s' /\ in_start s 3 /\ (forall w, ~ In (EFreeze w) (image (s_tr s))) /\
  s_tr s' = [EBcastRet 2 0; EKill 2 1 10; EKill 2 3 10; EBcast 2 10] ++ s_tr s.
Proof.
  assert (X : exists s, run_ok orderly_b false init two_threads = Some s /\ exists s1 s', step false s 2 (CCall (ABroadcast 10)) = Some s1 /\
    run false s1 (ticks 2 8) = Some s' /\ in_start s 3 /\
    forallb (fun e => match e with EFreeze _ => false | _ => true end) (image (s_tr s)) = true /\
    s_tr s' = [EBcastRet 2 0; EKill 2 1 10; EKill 2 3 10; EBcast 2 10] ++ s_tr s).
  { eexists. split; [vm_compute; reflexivity|]. do 2 eexists. split; [vm_compute; reflexivity|]. split; [vm_compute; reflexivity|].
    split; [exists 2; vm_compute; auto|]. vm_compute. auto. }
  destruct X as (s & E & s1 & s' & A & B & C & D & F). exists s, s1, s'. split; [eapply orderly_run; exact E|]. repeat split; auto.
  intros w I. rewrite forallb_forall in D. specialize (D _ I). discriminate D.
Qed.
Example C46_busy_case : exists s s1 s',
  reach false orderly s /\ step false s 1 (CCall (ABroadcast 10)) = Some s1 /\
  run false s1 (ticks 1 2) = Some s' /\ g_lock (s_g s) = Some 2 /\ s_tr s' = [EBcastRet 1 (-1); EBcast 1 10] ++ s_tr s.
Proof.
  assert (X : exists s, run_ok orderly_b false init (to_main ++ create1 1 10 11 5 ++ ticks 2 3) = Some s /\
    exists s1 s', step false s 1 (CCall (ABroadcast 10)) = Some s1 /\
    run false s1 (ticks 1 2) = Some s' /\ g_lock (s_g s) = Some 2 /\ s_tr s' = [EBcastRet 1 (-1); EBcast 1 10] ++ s_tr s).
  { eexists. split; [vm_compute; reflexivity|]. do 2 eexists. split; [vm_compute; reflexivity|]. split; [vm_compute; reflexivity|].
    vm_compute. auto. }
  destruct X as (s & E & s1 & s' & A). exists s, s1, s'. split; [eapply orderly_run; exact E|exact A].
Qed.

Definition safe_free_b (s : state) (t : Z) (c : choice) : bool :=
  safe_b s t c && match c with CChild => match g_lock (s_g s) with None => true | _ => false end | _ => true end.
Lemma safe_free_b_ok s t c : safe_free_b s t c = true -> safe_free s t c.
Proof.
  unfold safe_free_b. intros H. apply andb_prop in H. destruct H as [A B]. split; [now apply safe_b_ok|].
  intros ->. now destruct (g_lock (s_g s)).
Qed.
Example C46_target_case : exists s s',
  reach false safe_free s /\ step false s 2 CStep = Some s' /\ s_tr s' = EKill 2 3 10 :: s_tr s /\
  In (ERet 3 (CbInitThread 2 7) 8) (s_tr s).
Proof.
  assert (X : exists s, run_ok safe_free_b false init (two_threads ++ [(2, CCall (ABroadcast 10))] ++ ticks 2 3) = Some s /\
    exists s', step false s 2 CStep = Some s' /\ s_tr s' = EKill 2 3 10 :: s_tr s /\ In (ERet 3 (CbInitThread 2 7) 8) (s_tr s)).
  { eexists. split; [vm_compute; reflexivity|]. eexists. split; [vm_compute; reflexivity|]. vm_compute. intuition reflexivity. }
  destruct X as (s & E & s' & A). exists s, s'. split; [|exact A].
  eapply run_ok_reach; [exact safe_free_b_ok|apply reach_init|exact E].
Qed.

(** Refuted: thread 2 has put main on the list to shoot it down; thread 3 broadcasts:
    main gets the signal twice. *)
Theorem C46_twice_refuted : exists dyn l s,
  run dyn init l = Some s /\
  firstn 5 (s_tr s) = [EBcastRet 3 0; EKill 3 1 10; EKill 3 2 10; EKill 3 1 10; EBcast 3 10].
Proof.
  exists false, (two_threads ++ win 2 ++ [(2, CRet 0)] ++ ticks 2 8 ++ [(3, CCall (ABroadcast 10))] ++ ticks 3 9).
  eexists. split; [vm_compute; reflexivity|]. reflexivity.
Qed.

Print Assumptions C46_never_waits.
Print Assumptions C46_partial.
Print Assumptions C46_target_partial.
Print Assumptions C46_case.
Print Assumptions C46_busy_case.
Print Assumptions C46_target_case.
Print Assumptions C46_twice_refuted.
