(** Theorems on process exit: C29, C30. *)
From Verif Require Import LifeRunB.

Local Open Scope Z_scope.

(** *** C29 *)

(** When a thread goes on to the real exit, exec or raise, the exit callbacks are
    over: fini_process has returned, or the thread that runs them had entered exit
    again.  Partial: the assumptions on forks and on late calls of [orderly]. *)
Theorem C29_exit_waits_partial : forall dyn s a t b,
  reach dyn orderly s ->
  s_tr s = a ++ EPast t :: b ->
  (exists w how d v, In (ERet w (CbFiniProcess how d) v) b) \/
  (exists w, In (EWin w) b /\ (2 <= count (exit_of w) b)%nat).
Proof. intros dyn s a t b R E. exact (past_hist _ _ R a _ b E). Qed.

(** In particular: if the thread that runs the exit callbacks enters exit only once,
    fini_process has returned. *)
Theorem C29_no_reentry_partial : forall dyn s a t b,
  reach dyn orderly s ->
  s_tr s = a ++ EPast t :: b ->
  (forall w, In (EWin w) b -> (count (exit_of w) b <= 1)%nat) ->
  exists w how d v, In (ERet w (CbFiniProcess how d) v) b.
Proof.
  intros dyn s a t b R E N. destruct (past_hist _ _ R a _ b E) as [X|(w & I & C)]; [exact X|].
  specialize (N w I). lia.
Qed.

(** Two threads race: thread 2 calls exit while main runs the exit callbacks and
    goes on only after fini_process returned. *)
Definition race : list (Z * choice) :=
  to_main ++ create1 1 10 11 5 ++ enter 2 6 ++ win 1 ++ [(2, CCall AExit)] ++ ticks 2 3 ++
  [(1, CRet 0)] ++ ticks 1 9 ++ [(2, CShoot)] ++ ticks 2 5 ++ [(2, CRet 0)] ++ ticks 2 1 ++ ticks 1 6 ++
  [(1, CRet 0)] ++ ticks 1 1 ++ ticks 2 3.
Example C29_case : exists s b a,
  reach false orderly s /\ s_tr s = a ++ EPast 2 :: b /\ In (EWin 1) b /\ In (ERet 1 (CbFiniProcess 1 7) 0) b.
Proof.
  assert (X : exists s, run_ok orderly_b false init race = Some s /\ exists b a, s_tr s = a ++ EPast 2 :: b /\
             In (EWin 1) b /\ In (ERet 1 (CbFiniProcess 1 7) 0) b).
  { eexists. split; [vm_compute; reflexivity|]. cbn [s_tr]. eexists. exists []. split; [reflexivity|]. cbn. tauto. }
  destruct X as (s & E & b & a & A & B & C). exists s, b, a. split; [eapply orderly_run; exact E|]. auto.
Qed.

(** Refuted as first stated: main, inside begin_process_exit, calls exit again; this
    releases thread 2, which waits in exit, before fini_process. *)
Theorem C29_reentry_releases_refuted : exists dyn l s,
  run dyn init l = Some s /\
  In (EPast 2) (s_tr s) /\ ~ In (EWin 2) (s_tr s) /\ count is_fini_process (s_tr s) = 0%nat.
Proof.
  exists false, (to_main ++ create1 1 10 11 5 ++ enter 2 6 ++ win 1 ++ [(1, CCall AExit)] ++ ticks 1 4 ++
    [(2, CCall AExit)] ++ ticks 2 6).
  eexists. split; [vm_compute; reflexivity|]. vm_compute. split; [tauto|]. split; [|reflexivity].
  intros H. repeat (destruct H as [H|H]; [discriminate H|]). destruct H.
Qed.

(** Refuted without the assumption on late calls: a thread-specific-data destructor
    of thread 2, whose node was released and given to thread 3, calls exit while
    thread 3 runs the exit callbacks: thread 2 is taken for the winner. *)
Theorem C29_late_call_refuted : exists dyn l s,
  run dyn init l = Some s /\
  In (EPast 2) (s_tr s) /\ In (EWin 3) (s_tr s) /\ count (exit_of 3) (s_tr s) = 1%nat /\
  count is_fini_process (s_tr s) = 0%nat.
Proof.
  exists false, (to_main ++ create1 1 10 11 5 ++ enter 2 6 ++ leave 2 ++ create3 1 30 31 9 ++ enter 3 8 ++ win 3 ++
    [(2, CCall AExit)] ++ ticks 2 5).
  eexists. split; [vm_compute; reflexivity|]. vm_compute. tauto.
Qed.

(** *** C30 *)

(** A thread that runs the exit callbacks, main or a registered thread, never waits
    in exit; if it enters exit again it leaves end_process after four steps of its
    own.  Partial: [orderly], and no signal between taking the exit token and
    marking the node. *)
Theorem C30_reenter_partial : forall dyn s a t b,
  reach dyn orderly_marks s ->
  s_tr s = a ++ EWin t :: b ->
  (t = MAIN \/ exists k, In (EReg t k) b) ->
  ~ In FEPWait (th_stack (s_th s t)) /\
  (forall how r, g_dead (s_g s) = false -> th_stack (s_th s t) = FEPGet how :: r ->
     exists s', run dyn s (ticks t 4) = Some s' /\ th_stack (s_th s' t) = r).
Proof.
  intros dyn s a t b R E M.
  assert (EW : In (EWin t) (s_tr s)) by (rewrite E; apply in_or_app; right; now left).
  assert (NU : ~ unreg t (s_tr s)).
  { intros (NM & a' & b' & E' & N). destruct M as [M|(k & I)]; [contradiction|].
    pose proof (win_split _ _ _ _ _ _ _ (orderly_any _ _ (marks_orderly _ _ R)) E E') as X. subst b'. exact (N k I). }
  split.
  - intros I. apply NU. exact (wait_reach _ _ R t I EW).
  - intros how r D S. destruct (reenter_run _ _ _ _ _ R EW NU D S) as (s' & A & B & _). eauto.
Qed.

(** Thread 2 wins and enters exit again from begin_process_exit. *)
Example C30_case : exists s b a r,
  reach false orderly_marks s /\ s_tr s = a ++ EWin 2 :: b /\ In (EReg 2 1) b /\
  th_stack (s_th s 2) = FEPGet 1 :: r /\ In (FCb (CbBeginExit 1) (KBeginExit 1)) r.
Proof.
  assert (X : exists s, run_ok marks_b false init (to_main ++ create1 1 10 11 5 ++ enter 2 6 ++ win 2 ++ [(2, CCall AExit)]) = Some s /\
     exists b a r, s_tr s = a ++ EWin 2 :: b /\ In (EReg 2 1) b /\
     th_stack (s_th s 2) = FEPGet 1 :: r /\ In (FCb (CbBeginExit 1) (KBeginExit 1)) r).
  { eexists. split; [vm_compute; reflexivity|]. cbn [s_tr]. eexists. exists [ECall 2 (CbBeginExit 1)]. eexists.
    split; [reflexivity|]. split; [cbn; tauto|]. split; [vm_compute; reflexivity|]. cbn; tauto. }
  destruct X as (s & E & b & a & r & A & B & C & D). exists s, b, a, r. split; [eapply marks_run; exact E|]. auto.
Qed.

(** Refuted for an ignored thread: it runs the exit callbacks; inside
    begin_process_exit it calls exit and waits for itself. *)
Theorem C30_ignored_thread_refuted : exists dyn l s,
  run dyn init l = Some s /\
  In (EWin 3) (s_tr s) /\ hd_error (th_stack (s_th s 3)) = Some FEPWait /\
  In (FCb (CbBeginExit 1) (KBeginExit 1)) (th_stack (s_th s 3)) /\ step dyn s 3 CStep = None.
Proof.
  exists false, (to_main ++ create1 1 10 11 5 ++ create_ign 1 20 21 ++ ticks 3 1 ++ win 3 ++ [(3, CCall AExit)] ++ ticks 3 3).
  eexists. split; [vm_compute; reflexivity|]. vm_compute. tauto.
Qed.

(** Refuted with a signal at the wrong point: main has taken the exit token, its
    node is not marked yet; a signal handler calls exit and waits for itself. *)
Theorem C30_signal_refuted : exists dyn l s,
  run dyn init l = Some s /\
  In (EWin 1) (s_tr s) /\ hd_error (th_stack (s_th s 1)) = Some FEPWait /\
  In (FEPWin 1 (Some MAIN_TN)) (th_stack (s_th s 1)) /\ step dyn s 1 CStep = None.
Proof.
  exists false, (to_main ++ [(1, CCall AExit)] ++ ticks 1 2 ++ [(1, CSignal); (1, CCall AExit)] ++ ticks 1 3).
  eexists. split; [vm_compute; reflexivity|]. vm_compute. tauto.
Qed.

Print Assumptions C29_exit_waits_partial.
Print Assumptions C29_no_reentry_partial.
Print Assumptions C29_reentry_releases_refuted.
Print Assumptions C29_late_call_refuted.
Print Assumptions C30_reenter_partial.
Print Assumptions C30_ignored_thread_refuted.
Print Assumptions C30_signal_refuted.
