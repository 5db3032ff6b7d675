(** C82: exactly when process exit ends. *)
From Verif Require Import LifeStopSpec LifeFork LifeStop LifeJam LifeStopProps.

Local Open Scope Z_scope.

(** In every state in which no exit was begun before, for every way to exit: the exiting
    thread, when no other thread makes a step any more, gets to the end of the process
    if and only if the process has not used threads, or nobody holds the library's lock
    and no thread that must be waited for is stuck in its fini_thread. *)
Theorem C82_ends_iff : forall dyn v t how s,
  reach dyn any s -> leaving s t how -> (forall w, ~ In (EWin w) (s_tr s)) ->
  ((exists n, g_dead (s_g (alone dyn v t n s)) = true) <->
   g_used (s_g s) = false \/ (g_lock (s_g s) = None /\ not_stuck s t)).
Proof.
  intros dyn v t how s R LV NW.
  assert (CK : g_cookie (s_g s) = false).
  { destruct (g_cookie (s_g s)) eqn:E; [|reflexivity]. destruct (LifeFork.cookie_win _ _ R E) as [u X]. destruct (NW u X). }
  split.
  - intros [n D]. destruct (g_used (s_g s)) eqn:U; [right|now left].
    destruct (g_lock (s_g s)) as [h|] eqn:LK.
    + rewrite (jams dyn v t how s n LV CK U) in D; [discriminate D|]. left. rewrite LK. discriminate.
    + split; [reflexivity|]. destruct (stuck_dec s t) as [N|N]; [exact N|].
      rewrite (jams dyn v t how s n LV CK U) in D; [discriminate D|]. now right.
  - intros [U|[LK NS]].
    + destruct (single_leaves dyn v t how s LV CK U) as (n & D & _). exists n. exact D.
    + destruct (leaves dyn v t how s LV LK CK NS) as (n & D & _). exists n. exact D.
Qed.

(** The three cases: a process without threads; threads and no obstacle (the state of
    C82_exit_example); a thread in its fini_thread (the state of the refutation). *)
Example C82_ends_cases :
  (exists s, reach false any s /\ leaving s 1 EXIT_NORMAL /\ (forall w, ~ In (EWin w) (s_tr s)) /\ g_used (s_g s) = false) /\
  (exists s, reach false any s /\ leaving s 1 EXIT_NORMAL /\ (forall w, ~ In (EWin w) (s_tr s)) /\ g_used (s_g s) = true /\ g_lock (s_g s) = None /\ not_stuck s 1) /\
  (exists s, reach false any s /\ leaving s 1 EXIT_NORMAL /\ (forall w, ~ In (EWin w) (s_tr s)) /\ g_used (s_g s) = true /\ g_lock (s_g s) = None /\ ~ not_stuck s 1).
Proof.
  split; [|split].
  - eexists. split; [apply (reach_run false (to_main ++ [(1, CCall AExit)])); vm_compute; reflexivity|].
    split; [split; [reflexivity|]; split; [reflexivity|]; eexists; left; vm_compute; reflexivity|].
    split; [intros w I; vm_compute in I; repeat (destruct I as [I|I]; [discriminate I|]); exact I|reflexivity].
  - eexists. split; [apply (reach_run false main_exits); vm_compute; reflexivity|].
    split; [split; [reflexivity|]; split; [reflexivity|]; eexists; left; vm_compute; reflexivity|].
    split; [intros w I; vm_compute in I; repeat (destruct I as [I|I]; [discriminate I|]); exact I|].
    split; [reflexivity|]. split; [reflexivity|]. right; left; exists 1; repeat split; [right; left; reflexivity|discriminate].
  - eexists. split; [apply (reach_run false fini_stays); vm_compute; reflexivity|].
    split; [split; [reflexivity|]; split; [reflexivity|]; eexists; left; vm_compute; reflexivity|].
    split; [intros w I; vm_compute in I; repeat (destruct I as [I|I]; [discriminate I|]); exact I|].
    split; [reflexivity|]. split; [reflexivity|]. intros [H|[(n & (I & A & B) & F)|H]].
    + assert (X : true = false -> False) by discriminate. specialize (H 1). cbn in H. apply X. symmetry. apply H; [|reflexivity].
      repeat split; [left; reflexivity|discriminate].
    + vm_compute in I. destruct I as [<-|[]]. vm_compute in F. discriminate F.
    + apply H. reflexivity.
Qed.

Print Assumptions C82_ends_iff.
