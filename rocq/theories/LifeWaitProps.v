(** Theorems on the wait of the exit code for the threads: C37. *)
From Verif Require Import LifeOwnFini LifeFiniProps.

Local Open Scope Z_scope.

(** Thread w goes on to fini_process; it had frozen the thread list of this process.
    Then it gave up after the timeout, or in its last pass over the threads it
    established that every other thread with a number in this process that had entered
    its start routine when the pass began, and main, has returned from fini_thread.
    Partial: the assumptions of [orderly]. *)
Theorem C37_waits_partial : forall dyn s a w how d b,
  reach dyn orderly s ->
  s_tr s = a ++ ECall w (CbFiniProcess how d) :: b -> In (EFreeze w) (image b) ->
  In (EGiveUp w) b \/
  exists b1 b2, b = b1 ++ EPass w :: b2 /\ ~ In (EPass w) b1 /\
    forall u, u <> w ->
      u = MAIN \/ ((exists k, In (EReg u k) (image b2)) /\ exists st ar, In (EStart u st ar) b2) ->
      exists d' v, In (ERet u (CbFiniThread d') v) b.
Proof.
  intros dyn s a w how d b R E F. destruct (wait_hist _ _ R a _ b E F) as [X|(b2 & (b1 & E1 & N & _) & A)]; [now left|].
  right. exists b1, b2. split; [exact E1|]. split; [exact N|]. exact A.
Qed.

(** Its own fini_thread has been issued by then, if it has a number (main has none).
    Partial: the same, and a thread is not interrupted between setting its flag and
    issuing fini_thread. *)
Theorem C37_own_partial : forall dyn s a w how d b k,
  reach dyn prompt s ->
  s_tr s = a ++ ECall w (CbFiniProcess how d) :: b -> In (EFreeze w) (image b) ->
  w <> MAIN -> In (EReg w k) (image b) ->
  exists d', In (ECall w (CbFiniThread d')) b.
Proof. intros dyn s a w how d b k R E F NM G. apply (own_hist _ _ R a _ b E F NM). now exists k. Qed.

Definition prompt_b (s : state) (t : Z) (c : choice) : bool :=
  orderly_b s t c &&
  match th_stack (s_th s t) with
  | f :: _ => negb (pend_call f) || match c with CStep => true | _ => false end
  | [] => true
  end.
Lemma prompt_b_ok s t c : prompt_b s t c = true -> prompt s t c.
Proof.
  unfold prompt_b. intros H. apply andb_prop in H. destruct H as [A B]. split; [now apply orderly_b_ok|].
  unfold call_at_once. destruct (th_stack (s_th s t)) as [|f r]; [exact I|]. intros W. rewrite W in B. now destruct c.
Qed.
Lemma prompt_run dyn l s : run_ok prompt_b dyn init l = Some s -> reach dyn prompt s.
Proof. intros H. eapply run_ok_reach; [exact prompt_b_ok|apply reach_init|exact H]. Qed.

(** Thread 2 exits; main and thread 3 are shot down; second pass; fini_process. *)
Definition exit_of_two : list (Z * choice) :=
  two_threads ++ win 2 ++ [(2, CRet 0)] ++ ticks 2 15 ++ shot 1 ++ shot 3 ++ ticks 2 12 ++ [(2, CRet 0)] ++ ticks 2 3.
Example C37_case : exists s how d b,
  reach false prompt s /\ s_tr s = [] ++ ECall 2 (CbFiniProcess how d) :: b /\
  In (EFreeze 2) (image b) /\ In (EReg 2 1) (image b) /\ ~ In (EGiveUp 2) b /\
  exists b1 b2, b = b1 ++ EPass 2 :: b2 /\ In (EPass 2) b2 /\ In (EReg 3 2) (image b2) /\ In (EStart 3 20 21) b2.
Proof.
  assert (X : exists s, run_ok prompt_b false init exit_of_two = Some s /\ exists how d b,
    s_tr s = [] ++ ECall 2 (CbFiniProcess how d) :: b /\
    In (EFreeze 2) (image b) /\ In (EReg 2 1) (image b) /\ ~ In (EGiveUp 2) b /\
    exists b1 b2, b = b1 ++ EPass 2 :: b2 /\ In (EPass 2) b2 /\ In (EReg 3 2) (image b2) /\ In (EStart 3 20 21) b2).
  { eexists. split; [vm_compute; reflexivity|]. cbn [s_tr]. do 3 eexists. split; [reflexivity|].
    split; [vm_compute; tauto|]. split; [vm_compute; tauto|]. split; [vm_compute; intuition discriminate|].
    exists [ERet 2 (CbFiniThread 6) 0; ECall 2 (CbFiniThread 6)]. eexists. split; [reflexivity|]. vm_compute. tauto. }
  destruct X as (s & E & how & d & b & A). exists s, how, d, b. split; [eapply prompt_run; exact E|exact A].
Qed.

(** Refuted: a thread that calls exit inside its own fini_thread goes on to
    fini_process although its own fini_thread has not completed. *)
Theorem C37_own_completed_refuted : exists dyn l s,
  run dyn init l = Some s /\
  (exists how d, hd_error (s_tr s) = Some (ECall 2 (CbFiniProcess how d))) /\
  In (EFreeze 2) (s_tr s) /\ In (EReg 2 1) (s_tr s) /\ In (ECall 2 (CbFiniThread 6)) (s_tr s) /\
  (forall d v, ~ In (ERet 2 (CbFiniThread d) v) (s_tr s)) /\ ~ In (EGiveUp 2) (s_tr s).
Proof.
  exists false, (to_main ++ create1 1 10 11 5 ++ enter 2 6 ++ [(2, CRet 0)] ++ ticks 2 5 ++
    win 2 ++ [(2, CRet 0)] ++ ticks 2 12 ++ shot 1 ++ ticks 2 10).
  eexists. split; [vm_compute; reflexivity|]. split; [vm_compute; eauto|]. vm_compute. intuition discriminate.
Qed.

Print Assumptions C37_waits_partial.
Print Assumptions C37_own_partial.
Print Assumptions C37_case.
Print Assumptions C37_own_completed_refuted.
