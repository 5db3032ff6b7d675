(** Theorems on the threads that exit and broadcast_signal send signals to: C48. *)
From Verif Require Import LifeAlive LifeFiniProps LifeWaitProps.

Local Open Scope Z_scope.

(** Thread w, in the exit code, sends the shootdown signal to thread u, a created
    thread: u is running, it has not ended.
    Partial: main is left out; the assumptions of [orderly]; u never calls
    monitor_block_shootdown; no thread leaves its cleanup handler by pthread_exit or
    cancellation before it has set tn_fini_started; no fork while the lock is held. *)
Theorem C48_shoot_partial : forall dyn s t c s' w u,
  reach dyn (calm u) s -> step dyn s t c = Some s' -> s_tr s' = EShoot w u :: s_tr s -> u <> MAIN ->
  th_live (s_th s u) = true /\ ~ In (EEnd u) (s_tr s).
Proof.
  intros dyn s t c s' w u R HS E NM. pose proof (shoot_live _ _ _ _ _ _ _ R HS E NM) as L. split; [exact L|].
  intros I. destruct (ended_dead _ _ (orderly_any _ _ (calm_orderly _ _ _ R)) u I) as [X _]. congruence.
Qed.

(** The same of monitor_broadcast_signal, as long as no thread of this process has
    frozen the thread list. *)
Theorem C48_kill_partial : forall dyn s t c s' w u sig,
  reach dyn (calm u) s -> step dyn s t c = Some s' -> s_tr s' = EKill w u sig :: s_tr s -> u <> MAIN ->
  (forall x, ~ In (EFreeze x) (image (s_tr s))) ->
  th_live (s_th s u) = true /\ ~ In (EEnd u) (s_tr s).
Proof.
  intros dyn s t c s' w u sig R HS E NM NF. pose proof (kill_live _ _ _ _ _ _ _ _ R HS E NM NF) as L. split; [exact L|].
  intros I. destruct (ended_dead _ _ (orderly_any _ _ (calm_orderly _ _ _ R)) u I) as [X _]. congruence.
Qed.

Definition calm_b (u : Z) (s : state) (t : Z) (c : choice) : bool :=
  orderly_b s t c &&
  (negb (match c with CCancel => true | _ => match th_stack (s_th s t) with FUnwind :: _ => true | _ => false end end)
   || negb (existsb cleaning (th_stack (s_th s t)))) &&
  match c with
  | CChild => match g_lock (s_g s) with None => true | _ => false end
  | CCall ABlock => negb (t =? u)
  | _ => true
  end.
Lemma calm_b_ok u s t c : calm_b u s t c = true -> calm u s t c.
Proof.
  unfold calm_b. intros H. apply andb_prop in H. destruct H as [H D]. apply andb_prop in H. destruct H as [A B].
  split; [now apply orderly_b_ok|]. split; [|split].
  - intros X. destruct (existsb cleaning (th_stack (s_th s t))); [|reflexivity]. exfalso.
    destruct X as [->|(r & E)]; [discriminate B|]. rewrite E in B. destruct c; discriminate B.
  - intros ->. now destruct (g_lock (s_g s)).
  - intros -> ->. rewrite Z.eqb_refl in D. discriminate.
Qed.
Lemma calm_run u dyn l s : run_ok (calm_b u) dyn init l = Some s -> reach dyn (calm u) s.
Proof. intros H. eapply run_ok_reach; [exact (calm_b_ok u)|apply reach_init|exact H]. Qed.

(** Thread 2 has ended, main exits and shoots thread 3; the thread list was used by a
    thread that has blocked and unblocked. *)
Definition end_of_2 : list (Z * choice) := leave 2 ++ [(2, CRet 0); (2, CStep)].
Example C48_shoot_case : exists s s',
  reach false (calm 3) s /\ step false s 1 CStep = Some s' /\ s_tr s' = EShoot 1 3 :: s_tr s /\
  In (EEnd 2) (s_tr s) /\ In (EBlock 2 false) (s_tr s).
Proof.
  assert (X : exists s, run_ok (calm_b 3) false init (two_threads ++ [(2, CCall ABlock)] ++ ticks 2 2 ++
      [(2, CCall AUnblock); (2, CStep)] ++ end_of_2 ++ win 1 ++ [(1, CRet 0)] ++ ticks 1 8) = Some s /\
    exists s', step false s 1 CStep = Some s' /\ s_tr s' = EShoot 1 3 :: s_tr s /\ In (EEnd 2) (s_tr s) /\ In (EBlock 2 false) (s_tr s)).
  { eexists. split; [vm_compute; reflexivity|]. eexists. split; [vm_compute; reflexivity|]. vm_compute. intuition reflexivity. }
  destruct X as (s & E & s' & A). exists s, s'. split; [eapply calm_run; exact E|exact A].
Qed.
Example C48_kill_case : exists s s',
  reach false (calm 3) s /\ step false s 1 CStep = Some s' /\ s_tr s' = EKill 1 3 10 :: s_tr s /\
  In (EEnd 2) (s_tr s) /\ forallb (fun e => match e with EFreeze _ => false | _ => true end) (s_tr s) = true.
Proof.
  assert (X : exists s, run_ok (calm_b 3) false init (two_threads ++ end_of_2 ++ [(1, CCall (ABroadcast 10))] ++ ticks 1 3) = Some s /\
    exists s', step false s 1 CStep = Some s' /\ s_tr s' = EKill 1 3 10 :: s_tr s /\ In (EEnd 2) (s_tr s) /\
      forallb (fun e => match e with EFreeze _ => false | _ => true end) (s_tr s) = true).
  { eexists. split; [vm_compute; reflexivity|]. eexists. split; [vm_compute; reflexivity|]. vm_compute. intuition reflexivity. }
  destruct X as (s & E & s' & A). exists s, s'. split; [eapply calm_run; exact E|exact A].
Qed.

(** Refuted: a thread calls monitor_block_shootdown and returns from its start routine.
    Its cleanup handler leaves its node on the list.  After it has ended main exits
    and sends it the shootdown signal. *)
Theorem C48_blocked_refuted : exists dyn l s,
  run dyn init l = Some s /\ hd_error (s_tr s) = Some (EShoot 1 2) /\ In (EEnd 2) (s_tr s).
Proof.
  exists false, (to_main ++ create1 1 10 11 5 ++ enter 2 6 ++ [(2, CCall ABlock)] ++ ticks 2 2 ++
    [(2, CRet 0)] ++ ticks 2 2 ++ [(2, CRet 0); (2, CStep)] ++ shoot_first 1).
  eexists. split; [vm_compute; reflexivity|]. vm_compute. intuition reflexivity.
Qed.

(** Refuted: main is cancelled; then a thread calls monitor_broadcast_signal; or it
    exits. *)
Theorem C48_main_refuted : exists dyn l s,
  run dyn init l = Some s /\ hd_error (s_tr s) = Some (EKill 2 1 10) /\ In (EEnd 1) (s_tr s).
Proof.
  exists false, (to_main ++ create1 1 10 11 5 ++ enter 2 6 ++ [(1, CCancel); (1, CRet 0); (1, CStep)] ++
    [(2, CCall (ABroadcast 10))] ++ ticks 2 6).
  eexists. split; [vm_compute; reflexivity|]. vm_compute. intuition reflexivity.
Qed.
Theorem C48_main_shoot_refuted : exists dyn l s,
  run dyn init l = Some s /\ hd_error (s_tr s) = Some (EShoot 2 1) /\ In (EEnd 1) (s_tr s).
Proof.
  exists false, (to_main ++ create1 1 10 11 5 ++ enter 2 6 ++ [(1, CCancel); (1, CRet 0); (1, CStep)] ++ shoot_first 2).
  eexists. split; [vm_compute; reflexivity|]. vm_compute. intuition reflexivity.
Qed.

(** Refuted: a thread in init_thread when main exits starts and ends after the exit
    code has closed the wait; its node stays on the list, and fini_process calls
    monitor_broadcast_signal. *)
Theorem C48_late_refuted : exists dyn l s,
  run dyn init l = Some s /\ hd_error (s_tr s) = Some (EKill 1 2 10) /\ In (EEnd 2) (s_tr s).
Proof.
  exists false, (to_main ++ create1 1 10 11 5 ++ register 2 ++ win 1 ++ [(1, CRet 0)] ++ ticks 1 13 ++
    [(2, CRet 6)] ++ ticks 2 4 ++ [(2, CRet 0)] ++ ticks 2 3 ++ [(2, CRet 0); (2, CStep)] ++
    [(1, CCall (ABroadcast 10))] ++ ticks 1 4).
  eexists. split; [vm_compute; reflexivity|]. vm_compute. intuition reflexivity.
Qed.

(** Refuted: a signal handler that interrupts a thread's cleanup handler calls
    pthread_exit. *)
Theorem C48_abandoned_refuted : exists dyn l s,
  run dyn init l = Some s /\ hd_error (s_tr s) = Some (EKill 1 2 10) /\ In (EEnd 2) (s_tr s).
Proof.
  exists false, (to_main ++ create1 1 10 11 5 ++ enter 2 6 ++ [(2, CRet 0)] ++ ticks 2 1 ++
    [(2, CSignal); (2, CCall APthreadExit)] ++ ticks 2 2 ++ [(2, CRet 0); (2, CStep)] ++
    [(1, CCall (ABroadcast 10))] ++ ticks 1 4).
  eexists. split; [vm_compute; reflexivity|]. vm_compute. intuition reflexivity.
Qed.

Print Assumptions C48_shoot_partial.
Print Assumptions C48_kill_partial.
Print Assumptions C48_shoot_case.
Print Assumptions C48_kill_case.
Print Assumptions C48_blocked_refuted.
Print Assumptions C48_main_refuted.
Print Assumptions C48_main_shoot_refuted.
Print Assumptions C48_late_refuted.
Print Assumptions C48_abandoned_refuted.
