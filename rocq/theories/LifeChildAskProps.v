(** Theorems on the queries in the child of fork(): C41. *)
From Verif Require Import LifeThreadProps LifeChildAsk.

Local Open Scope Z_scope.

(** Any thread the library knows forks, from every reachable state of an initialised
    process, main or not, other threads doing whatever they do: the child returns to the
    same place, and there monitor_stack_bottom answers what it answered before the fork,
    monitor_get_user_data what init_process returned in the child, monitor_is_threaded
    no, and monitor_get_thread_num zero (if earlier forks were made by main
    outside pthread_create).  Partial: no signal handler in the child before fork
    returns. *)
Theorem C41_child_partial : forall dyn s t d v f r k z w, reach dyn any s ->
  g_dead (s_g s) = false -> th_live (s_th s t) = true -> th_stack (s_th s t) = f :: r -> open f = true ->
  In (ECall w CbInitLibrary) (s_tr s) ->
  asks dyn s t QNum k -> k <> -1 -> asks dyn s t QBottom z ->
  exists s1, run dyn s (fork_child t d v) = Some s1 /\ th_stack (s_th s1 t) = f :: r /\
    asks dyn s1 t QBottom z /\ asks dyn s1 t QData v /\ asks dyn s1 t QThreaded 0 /\
    (reach dyn clean_forks s -> asks dyn s1 t QNum 0).
Proof. exact child_asks. Qed.

(** Thread 2, created and in its start routine, has number 1 and its own stack bottom. *)
Definition before : list (Z * choice) := to_main ++ create1 MAIN 50 60 0 ++ enter 2 8.

Example C41_child_example : exists s f r,
  run true init before = Some s /\ reach true clean_forks s /\
  g_dead (s_g s) = false /\ th_live (s_th s 2) = true /\
  th_stack (s_th s 2) = f :: r /\ open f = true /\ In (ECall MAIN CbInitLibrary) (s_tr s) /\
  asks true s 2 QNum 1 /\ asks true s 2 QBottom 2 /\ asks true s 2 QThreaded 1 /\ asks true s 2 QData 8.
Proof.
  eexists _, _, _. split; [vm_compute; reflexivity|].
  split; [apply (clean_run true before); vm_compute; reflexivity|].
  do 4 (split; [vm_compute; reflexivity|]). split; [vm_compute; auto 60|].
  repeat split; eexists; split; vm_compute; reflexivity.
Qed.

Print Assumptions C41_child_partial.
