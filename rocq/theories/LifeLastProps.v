(** C80: main leaves by pthread_exit, and the last thread of the process ends. *)
From Verif Require Import LifeLastSpec LifeLast LifeRunB.

Local Open Scope Z_scope.

(** *** C80 *)

(** When the main thread has ended the exit callbacks are over: fini_process has
    returned, or the thread that runs them had entered exit again.  So they are when no
    thread is left.  Partial: nobody cancels main, and the assumptions of [orderly]. *)
Theorem C80_last_thread_partial : forall dyn s,
  reach dyn main_not_cancelled s ->
  (forall a b, s_tr s = a ++ EEnd MAIN :: b -> finished b) /\
  (all_ended s -> finished (s_tr s)).
Proof.
  intros dyn s R. destruct (last_reach _ _ R) as (_ & B & C). split; [exact C|].
  intros A. destruct B as [B|B]; [|exact B]. rewrite (A MAIN) in B. discriminate B.
Qed.

(** Main calls pthread_exit while thread 2 runs: the exit callbacks, with thread 2's
    fini_thread, and main ends. *)
Definition main_leaves : list (Z * choice) :=
  to_main ++ create1 1 10 11 5 ++ enter 2 6 ++ [(1, CCall APthreadExit)] ++ ticks 1 5 ++
  [(1, CRet 0)] ++ ticks 1 9 ++ [(2, CShoot)] ++ ticks 2 5 ++ [(2, CRet 0)] ++ ticks 2 1 ++ ticks 1 6 ++
  [(1, CRet 0)] ++ ticks 1 2 ++ [(1, CRet 0)] ++ ticks 1 1.
(** The start routine of a thread whose fini_thread is over returns, and the thread
    ends. *)
Definition just_leave (u : Z) : list (Z * choice) := [(u, CRet 0)] ++ ticks u 2 ++ [(u, CRet 0)] ++ ticks u 1.

Definition cancel_b (s : state) (t : Z) (c : choice) : bool :=
  orderly_b s t c && negb ((t =? MAIN) && match c with CCancel => true | _ => false end).
Lemma cancel_b_ok s t c : cancel_b s t c = true -> main_not_cancelled s t c.
Proof.
  intros H. apply andb_prop in H. destruct H as [A B]. split; [now apply orderly_b_ok|].
  intros [-> ->]. rewrite Z.eqb_refl in B. discriminate B.
Qed.

Example C80_example : exists s,
  reach false main_not_cancelled s /\ all_ended s /\ In (EEnd 1) (s_tr s) /\ In (EEnd 2) (s_tr s) /\
  In (ECall 2 (CbFiniThread 6)) (s_tr s) /\ In (ERet 1 (CbFiniProcess EXIT_NORMAL 7) 0) (s_tr s).
Proof.
  assert (X : exists s, run_ok cancel_b false init (main_leaves ++ just_leave 2) = Some s /\ all_ended s /\
    In (EEnd 1) (s_tr s) /\ In (EEnd 2) (s_tr s) /\
    In (ECall 2 (CbFiniThread 6)) (s_tr s) /\ In (ERet 1 (CbFiniProcess EXIT_NORMAL 7) 0) (s_tr s)).
  { eexists. split; [vm_compute; reflexivity|]. split.
    - intros t. cbn [s_th]. repeat match goal with |- context [if ?b then _ else _] => destruct b; try reflexivity end.
    - cbn [s_tr]. vm_compute. tauto. }
  destruct X as (s & E & A). exists s. split; [|exact A].
  eapply (run_ok_reach false _ cancel_b); [exact cancel_b_ok|apply reach_init|exact E].
Qed.

(** Refuted when main is cancelled: main and thread 2 end, no thread is left, and
    neither begin_process_exit nor fini_process was issued. *)
Theorem C80_cancelled_refuted : exists dyn l s,
  run dyn init l = Some s /\ all_ended s /\ In (ERet MAIN (CbInitProcess 0) 7) (s_tr s) /\
  (forall t how, ~ In (ECall t (CbBeginExit how)) (s_tr s)) /\ count is_fini_process (s_tr s) = 0%nat.
Proof.
  exists false, (to_main ++ create1 1 10 11 5 ++ enter 2 6 ++ [(1, CCancel); (1, CRet 0)] ++ ticks 1 1 ++
    leave 2 ++ [(2, CRet 0)] ++ ticks 2 1).
  eexists. split; [vm_compute; reflexivity|]. split; [|split; [|split]].
  - intros t. cbn [s_th]. repeat match goal with |- context [if ?b then _ else _] => destruct b; try reflexivity end.
  - vm_compute. tauto.
  - intros t how I. cbn [s_tr] in I. repeat (destruct I as [I|I]; [discriminate I|]). exact I.
  - reflexivity.
Qed.

(** Refuted for a child that a thread other than main forked, with that thread: its
    start routine returns, the child has no thread left, and its exit callbacks were
    not issued. *)
Theorem C80_child_refuted : exists dyn l s,
  run dyn init l = Some s /\ all_ended s /\ In (ERet 2 (CbInitProcess 3) 4) (image (s_tr s)) /\
  (forall t how, ~ In (ECall t (CbBeginExit how)) (image (s_tr s))) /\ count is_fini_process (image (s_tr s)) = 0%nat.
Proof.
  exists false, (to_main ++ create1 1 10 11 5 ++ enter 2 6 ++ fork_child 2 3 4 ++ leave 2 ++ [(2, CRet 0)] ++ ticks 2 1).
  eexists. split; [vm_compute; reflexivity|]. split; [|split; [|split]].
  - intros t. cbn [s_th]. repeat match goal with |- context [if ?b then _ else _] => destruct b; try reflexivity end.
  - vm_compute. tauto.
  - intros t how I. vm_compute in I. repeat (destruct I as [I|I]; [discriminate I|]). exact I.
  - reflexivity.
Qed.

(** The rest of the process does not go on as before.  Main has left by pthread_exit and
    fini_process is over; thread 2 still runs the application.  It calls
    pthread_create, which succeeds and returns, but the new thread 3 ends without
    having run its start routine. *)
Theorem C80_not_started_refuted : exists dyn l s a m b q,
  run dyn init l = Some s /\
  s_tr s = a ++ ECreateRet 2 q :: m ++ EEnd MAIN :: b /\
  In (ERet 1 (CbFiniProcess EXIT_NORMAL 7) 0) b /\
  In (ECreateCall 2 q) m /\ In (ECreate 2 q 3 true) m /\ In (EEnd 3) a /\
  (forall st ar, ~ In (EStart 3 st ar) (s_tr s)) /\ g_dead (s_g s) = false /\ th_live (s_th s 2) = true.
Proof.
  assert (X : exists s, run false init (main_leaves ++ create2 2 20 21 8 ++ ticks 3 5 ++ [(3, CRet 0)] ++ ticks 3 1) = Some s /\
    exists a m b q, s_tr s = a ++ ECreateRet 2 q :: m ++ EEnd MAIN :: b /\
    In (ERet 1 (CbFiniProcess EXIT_NORMAL 7) 0) b /\
    In (ECreateCall 2 q) m /\ In (ECreate 2 q 3 true) m /\ In (EEnd 3) a /\
    (forall st ar, ~ In (EStart 3 st ar) (s_tr s)) /\ g_dead (s_g s) = false /\ th_live (s_th s 2) = true).
  { eexists. split; [vm_compute; reflexivity|]. cbn [s_tr].
    match goal with |- exists a m b q, ?l = _ /\ _ => exists (firstn 1 l), (firstn 8 (skipn 2 l)), (skipn 11 l), (mkcreq 1 20 21 99) end.
    split; [vm_compute; reflexivity|]. split; [vm_compute; tauto|]. split; [vm_compute; tauto|]. split; [vm_compute; tauto|].
    split; [vm_compute; tauto|]. split; [|split; reflexivity].
    intros st ar I. cbn in I. repeat (destruct I as [I|I]; [discriminate I|]). exact I. }
  destruct X as (s & E & a & m & b & q & A). exists false. eexists. exists s, a, m, b, q. split; [exact E|exact A].
Qed.

Print Assumptions C80_last_thread_partial.
Print Assumptions C80_cancelled_refuted.
Print Assumptions C80_child_refuted.
Print Assumptions C80_not_started_refuted.
