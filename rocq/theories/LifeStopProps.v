(** C82: process exit ends, whatever the other threads do. *)
From Verif Require Import LifeStopSpec LifeStop LifeFork LifeRunB.

Local Open Scope Z_scope.

(** *** C82 *)

(** In every state in which no exit was begun before and no thread holds the library's
    lock: a thread that exits gets through the exit callbacks and the process ends,
    though no other thread makes a step any more.  Partial: [not_stuck]. *)
Theorem C82_exit_ends_partial : forall dyn v t how s,
  reach dyn any s -> leaving s t how ->
  (forall w, ~ In (EWin w) (s_tr s)) -> g_lock (s_g s) = None -> not_stuck s t ->
  exists n, let s' := alone dyn v t n s in
    g_dead (s_g s') = true /\ In (EDead t) (s_tr s') /\ In (EPast t) (s_tr s') /\
    In (ERet t (CbBeginExit how) v) (s_tr s') /\ exists d, In (ERet t (CbFiniProcess how d) v) (s_tr s').
Proof.
  intros dyn v t how s R LV NW LK NS. apply leaves; try assumption.
  destruct (g_cookie (s_g s)) eqn:E; [|reflexivity]. destruct (LifeFork.cookie_win _ _ R E) as [u X]. destruct (NW u X).
Qed.

(** Main calls exit, thread 2 runs application code, thread 3 has completed its
    fini_thread and is still on the list. *)
Ltac find_ev := vm_compute; repeat first [left; reflexivity | right].
Definition main_exits : list (Z * choice) :=
  to_main ++ create1 1 10 11 5 ++ enter 2 6 ++ create2 1 20 21 8 ++ enter 3 9 ++
  [(3, CRet 0)] ++ ticks 3 5 ++ [(3, CRet 0)] ++ ticks 3 1 ++ [(1, CCall AExit)].

Example C82_example : exists s,
  reach false any s /\ leaving s 1 EXIT_NORMAL /\ (forall w, ~ In (EWin w) (s_tr s)) /\ g_lock (s_g s) = None /\
  not_stuck s 1 /\ In (EStart 2 10 11) (s_tr s) /\ In (ERet 3 (CbFiniThread 9) 0) (s_tr s) /\
  In (EGiveUp 1) (s_tr (alone false 0 1 60 s)) /\ g_dead (s_g (alone false 0 1 60 s)) = true.
Proof.
  eexists. split; [apply (reach_run false main_exits); vm_compute; reflexivity|].
  split; [split; [reflexivity|]; split; [reflexivity|]; eexists; left; vm_compute; reflexivity|].
  split; [intros w I; vm_compute in I; repeat (destruct I as [I|I]; [discriminate I|]); exact I|].
  split; [reflexivity|].
  split; [right; left; exists 1; repeat split; [right; left; reflexivity|discriminate]|].
  split; [find_ev|]. split; [find_ev|]. split; [find_ev|vm_compute; reflexivity].
Qed.

(** Refuted for a thread that stays in its fini_thread: thread 2's start routine has
    returned and its fini_thread does not return; main's exit waits for it for ever. *)
Definition fini_stays : list (Z * choice) :=
  to_main ++ create1 1 10 11 5 ++ enter 2 6 ++ [(2, CRet 0)] ++ ticks 2 5 ++ [(1, CCall AExit)].

Theorem C82_stuck_fini_refuted : exists dyn l s,
  run dyn init l = Some s /\ leaving s 1 EXIT_NORMAL /\ In (ECall 2 (CbFiniThread 6)) (s_tr s) /\
  forall v n, g_dead (s_g (alone dyn v 1 n s)) = false.
Proof.
  assert (X : exists s, run false init fini_stays = Some s /\ leaving s 1 EXIT_NORMAL /\ In (ECall 2 (CbFiniThread 6)) (s_tr s) /\
    (forall v n, (n < 12)%nat -> g_dead (s_g (alone false v 1 n s)) = false) /\ forall v, waits (alone false v 1 12 s)).
  { eexists. split; [vm_compute; reflexivity|].
    split; [split; [reflexivity|]; split; [reflexivity|]; eexists; left; vm_compute; reflexivity|].
    split; [find_ev|]. split.
    - intros v n N. do 12 (destruct n as [|n]; [vm_compute; reflexivity|]). lia.
    - intros v. match goal with |- waits ?a => assert (Q : exists z, a = z /\ waits z) end.
      { eexists. split; [vm_compute; reflexivity|]. eexists _, _, _, _, _. cbn [s_g s_th s_tr].
        split; [unfold at_cfg; cbn; repeat split; reflexivity|].
        split; [reflexivity|]. eexists _, _. split; [reflexivity|]. cbn. repeat split. }
      destruct Q as (z & -> & Q). exact Q. }
  destruct X as (s & E & L & I & S & W). exists false, fini_stays, s. split; [exact E|]. split; [exact L|]. split; [exact I|].
  intros v n. destruct (Nat.lt_ge_cases n 12) as [N|N]; [now apply S|].
  replace n with (12 + (n - 12))%nat by lia. rewrite alone_add. generalize (W v). generalize (alone false v 1 12 s).
  generalize (n - 12)%nat. intros m. induction m as [|m IH]; intros z Z0.
  - destruct Z0 as (st & g & tsd & nc & tr & (_ & _ & G & _) & D & _). cbn in G. cbn [alone]. now rewrite G.
  - cbn [alone]. apply IH, waits_move, Z0.
Qed.

(** Refuted when another thread stops inside the region of pthread_create that holds the
    lock (or inside another such region): exit waits for the lock for ever. *)
Theorem C82_lock_refuted : exists dyn l s,
  run dyn init l = Some s /\ leaving s 1 EXIT_NORMAL /\ (forall w, ~ In (EWin w) (s_tr s)) /\ not_stuck s 1 /\
  forall v n, g_dead (s_g (alone dyn v 1 n s)) = false.
Proof.
  assert (X : exists s, run false init (to_main ++ create1 1 10 11 5 ++ enter 2 6 ++
      [(2, CCall (ACreate 20 21 99))] ++ ticks 2 6 ++ [(2, CRet 8)] ++ ticks 2 2 ++ [(1, CCall AExit)]) = Some s /\
    leaving s 1 EXIT_NORMAL /\ (forall w, ~ In (EWin w) (s_tr s)) /\ not_stuck s 1 /\
    (forall v n, (n < 6)%nat -> g_dead (s_g (alone false v 1 n s)) = false) /\
    forall v, move false v 1 (alone false v 1 6 s) = alone false v 1 6 s /\ g_dead (s_g (alone false v 1 6 s)) = false).
  { eexists. split; [vm_compute; reflexivity|].
    split; [split; [reflexivity|]; split; [reflexivity|]; eexists; left; vm_compute; reflexivity|].
    split; [intros w I; vm_compute in I; repeat (destruct I as [I|I]; [discriminate I|]); exact I|].
    split; [right; left; exists 1; repeat split; [left; reflexivity|discriminate]|]. split.
    - intros v n N. do 6 (destruct n as [|n]; [vm_compute; reflexivity|]). lia.
    - intros v. split; vm_compute; reflexivity. }
  destruct X as (s & E & L & I & NS & S & W). exists false. eexists. exists s. split; [exact E|]. split; [exact L|]. split; [exact I|].
  split; [exact NS|].
  intros v n. destruct (Nat.lt_ge_cases n 6) as [N|N]; [now apply S|].
  replace n with (6 + (n - 6))%nat by lia. rewrite alone_add. destruct (W v) as [A B]. revert A B. generalize (alone false v 1 6 s).
  generalize (n - 6)%nat. intros m z A B. induction m as [|m IH]; cbn [alone]; [exact B|now rewrite A].
Qed.

(** *** C81, an exec that was expected to succeed *)

(** In every state in which the exit callbacks are over (monitor_has_exited is set and
    main.c 343 was passed): an exit by any thread ends the process at once, without
    waiting for anybody, and issues neither begin_process_exit nor fini_process. *)
Theorem C81_later_exit : forall dyn v t how s,
  reach dyn any s -> leaving s t how -> g_cookie (s_g s) = true -> g_pdone (s_g s) = true ->
  exists n ev, let s' := alone dyn v t n s in
    g_dead (s_g s') = true /\ s_tr s' = ev ++ s_tr s /\ In (EDead t) ev /\ existsb exit_call ev = false.
Proof. intros dyn v t how s _ L CK PD. now apply (over_leaves dyn v t how). Qed.

Example C81_later_exit_example : exists s,
  reach false any s /\ leaving s 1 EXIT_NORMAL /\ g_cookie (s_g s) = true /\ g_pdone (s_g s) = true /\ In (EStart 2 10 11) (s_tr s).
Proof.
  eexists. split; [apply (reach_run false (to_main ++ create1 1 10 11 5 ++ enter 2 6 ++ leave 2 ++ [(2, CRet 0)] ++ ticks 2 1 ++
      [(1, CCall (AExec true))] ++ ticks 1 4 ++ [(1, CRet 0)] ++ ticks 1 12 ++ [(1, CRet 0)] ++ ticks 1 2 ++ [(1, CFail); (1, CCall AExit)]));
    vm_compute; reflexivity|].
  split; [split; [reflexivity|]; split; [reflexivity|]; eexists; left; vm_compute; reflexivity|].
  split; [reflexivity|]. split; [reflexivity|]. find_ev.
Qed.

(** In every state: exec of a file that looks executable and that the system refuses
    issues fini_process and returns to the caller; an exit by that thread then ends the
    process without exit callbacks.  Partial: no exit begun before, nobody holds the
    lock, [not_stuck]. *)
Theorem C81_expected_partial : forall dyn v s t f r,
  reach dyn any s -> g_dead (s_g s) = false -> th_live (s_th s t) = true ->
  th_stack (s_th s t) = f :: r -> open f = true ->
  (forall w, ~ In (EWin w) (s_tr s)) -> g_lock (s_g s) = None -> not_stuck s t ->
  exists s1 n, step dyn s t (CCall (AExec true)) = Some s1 /\
    let s2 := alone dyn v t n s1 in
    th_stack (s_th s2 t) = FExec true :: f :: r /\ (exists d, In (ERet t (CbFiniProcess EXIT_EXEC d) v) (s_tr s2)) /\
    exists s3, step dyn s2 t CFail = Some s3 /\ th_stack (s_th s3 t) = f :: r /\
    exists s4 m ev, step dyn s3 t (CCall AExit) = Some s4 /\
      let s5 := alone dyn v t m s4 in
      g_dead (s_g s5) = true /\ s_tr s5 = ev ++ s_tr s3 /\ In (EDead t) ev /\ existsb exit_call ev = false.
Proof.
  intros dyn v s t f r R D L ST O NW LK NS. apply refused; try assumption.
  destruct (g_cookie (s_g s)) eqn:E; [|reflexivity]. destruct (LifeFork.cookie_win _ _ R E) as [u X]. destruct (NW u X).
Qed.

(** Thread 2 calls exec while main and thread 3 run. *)
Example C81_expected_example : exists s,
  reach false any s /\ g_dead (s_g s) = false /\ th_live (s_th s 2) = true /\
  (exists f r, th_stack (s_th s 2) = f :: r /\ open f = true) /\
  (forall w, ~ In (EWin w) (s_tr s)) /\ g_lock (s_g s) = None /\ not_stuck s 2.
Proof.
  eexists. split; [apply (reach_run false (to_main ++ create1 1 10 11 5 ++ enter 2 6 ++ create2 1 20 21 8 ++ enter 3 9)); vm_compute; reflexivity|].
  split; [reflexivity|]. split; [reflexivity|]. split; [eexists _, _; split; reflexivity|].
  split; [intros w I; vm_compute in I; repeat (destruct I as [I|I]; [discriminate I|]); exact I|].
  split; [reflexivity|]. right. right. cbn. discriminate.
Qed.

Print Assumptions C81_later_exit.
Print Assumptions C81_expected_partial.
Print Assumptions C82_exit_ends_partial.
Print Assumptions C82_stuck_fini_refuted.
Print Assumptions C82_lock_refuted.
