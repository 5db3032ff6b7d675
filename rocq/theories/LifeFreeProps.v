(** C82: process exit when another thread holds the library's lock. *)
From Verif Require Import LifeStopSpec LifeFork LifeStuck LifeFree LifeLockProps LifeCloseProps.

Local Open Scope Z_scope.

(** In every state in which no exit was begun before and a thread h holds the lock: h is
    another thread; after finitely many steps of h alone the lock is free and the
    exiting thread is where it was; and from there it gets through the exit callbacks
    and the process ends, though no other thread makes a step any more.
    Partial: no signal or cancellation arrives inside a region that holds the lock, no
    fork is made while it is held ([shielded]), and [not_stuck], which holds when the
    exiting thread is not the main one. *)
Theorem C82_holder_partial : forall dyn v t how s h,
  reach dyn shielded s -> leaving s t how ->
  (forall w, ~ In (EWin w) (s_tr s)) -> g_lock (s_g s) = Some h ->
  h <> t /\ exists k s', run dyn s (ticks h k) = Some s' /\ leaving s' t how /\ g_lock (s_g s') = None /\
    (n_self (nd (s_g s) MAIN_TN) <> t -> not_stuck s' t) /\
    (not_stuck s' t -> exists n, let s2 := alone dyn v t n s' in
      g_dead (s_g s2) = true /\ In (EDead t) (s_tr s2) /\ In (EPast t) (s_tr s2) /\
      In (ERet t (CbBeginExit how) v) (s_tr s2) /\ exists d, In (ERet t (CbFiniProcess how d) v) (s_tr s2)).
Proof.
  intros dyn v t how s h R LV NW LK. pose proof (shielded_any _ _ R) as R0.
  assert (CK : g_cookie (s_g s) = false).
  { destruct (g_cookie (s_g s)) eqn:E; [|reflexivity]. destruct (LifeFork.cookie_win _ _ R0 E) as [u X]. destruct (NW u X). }
  assert (NE : h <> t).
  { intros ->. destruct (holder_reach dyn s R t LK) as (_ & f & r & ST & LF). destruct LV as (_ & _ & r0 & [X|[X|X]]);
      rewrite X in ST; injection ST as <- _; discriminate LF. }
  split; [exact NE|]. apply holder_first; auto.
  destruct (Z_lt_le_dec t 1) as [L|]; [|lia]. destruct LV as (_ & LV & _). rewrite (low_dead _ _ R0 t L) in LV. discriminate.
Qed.

(** Main calls exit while thread 2 registers and holds the lock; and thread 3 calls exit
    while main is in the region of pthread_create that holds the lock. *)
Definition exit_while_held : list (Z * choice) :=
  to_main ++ create1 1 10 11 5 ++ ticks 2 3 ++ [(1, CCall AExit)].
Definition exit_in_create : list (Z * choice) :=
  to_main ++ create1 1 10 11 5 ++ enter 2 6 ++ [(1, CCall (ACreate 20 21 22))] ++ ticks 1 6 ++ [(1, CRet 5)] ++ ticks 1 2 ++ [(2, CCall AExit)].

Example C82_holder_example : exists s, reach false shielded s /\ leaving s 1 EXIT_NORMAL /\ (forall w, ~ In (EWin w) (s_tr s)) /\
  g_lock (s_g s) = Some 2 /\ exists k s', run false s (ticks 2 k) = Some s' /\ not_stuck s' 1 /\
  g_dead (s_g (alone false 0 1 60 s')) = true.
Proof.
  assert (X : exists s, run_ok shielded_b false init exit_while_held = Some s /\ leaving s 1 EXIT_NORMAL /\ (forall w, ~ In (EWin w) (s_tr s)) /\
    g_lock (s_g s) = Some 2 /\ exists k s', run false s (ticks 2 k) = Some s' /\ not_stuck s' 1 /\ g_dead (s_g (alone false 0 1 60 s')) = true).
  { eexists. split; [vm_compute; reflexivity|].
    split; [split; [reflexivity|]; split; [reflexivity|]; eexists; left; vm_compute; reflexivity|].
    split; [intros w I; vm_compute in I; repeat (destruct I as [I|I]; [discriminate I|]); exact I|].
    split; [reflexivity|]. exists 5%nat. eexists. split; [vm_compute; reflexivity|].
    split; [left; intros n (I & A & B); vm_compute in I; repeat (destruct I as [<-|I]; [vm_compute in A, B |- *; congruence|]); destruct I|].
    vm_compute. reflexivity. }
  destruct X as (s & E & X). exists s. split; [|exact X]. eapply run_ok_reach; [exact shielded_b_ok|apply reach_init|exact E].
Qed.

Example C82_holder_case : exists s, reach false shielded s /\ leaving s 2 EXIT_NORMAL /\ (forall w, ~ In (EWin w) (s_tr s)) /\
  g_lock (s_g s) = Some 1 /\ n_self (nd (s_g s) MAIN_TN) <> 2.
Proof.
  assert (X : exists s, run_ok shielded_b false init exit_in_create = Some s /\ leaving s 2 EXIT_NORMAL /\ (forall w, ~ In (EWin w) (s_tr s)) /\
    g_lock (s_g s) = Some 1 /\ n_self (nd (s_g s) MAIN_TN) <> 2).
  { eexists. split; [vm_compute; reflexivity|].
    split; [split; [reflexivity|]; split; [reflexivity|]; eexists; left; vm_compute; reflexivity|].
    split; [intros w I; vm_compute in I; repeat (destruct I as [I|I]; [discriminate I|]); exact I|].
    split; [reflexivity|]. vm_compute. discriminate. }
  destruct X as (s & E & X). exists s. split; [|exact X]. eapply run_ok_reach; [exact shielded_b_ok|apply reach_init|exact E].
Qed.

Print Assumptions C82_holder_partial.
