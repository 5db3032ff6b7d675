(** Theorems on the life cycle of the process: C27 and C28. *)
From Verif Require Import LifeOnce.

Local Open Scope nat_scope.

(** *** C27 *)

(** However many threads enter main, pthread_create or monitor_initialize, and
    whatever callbacks and signal handlers do: in one process image init_process is
    issued at most once.  Partial: a fork() made before init_process was entered, or
    between entering and issuing it, is excluded (see the refutation). *)
Theorem C27_init_process_once_partial : forall dyn s,
  reach dyn settled_forks s -> count is_init_process (image (s_tr s)) <= 1.
Proof. exact once_init_process. Qed.

(** init_library is issued at most once, over forks too, and before init_process. *)
Theorem C27_init_library_once_and_first : forall dyn l s,
  run dyn init l = Some s ->
  count is_init_library (s_tr s) <= 1 /\
  (forall a w d b, s_tr s = a ++ ECall w (CbInitProcess d) :: b ->
     exists w', In (ECall w' CbInitLibrary) b).
Proof. exact once_init_library. Qed.

(** When fork() or vfork() returns in the child, the child has been given exactly
    one init_process, by the forking thread. *)
Theorem C27_forked_child_gets_init_process : forall dyn s t,
  reach dyn (fun s t c => settled_forks s t c /\ app_forks s t c) s ->
  In (EForkRet t) (image (s_tr s)) ->
  (exists d, In (ECall t (CbInitProcess d)) (image (s_tr s))) /\
  count is_init_process (image (s_tr s)) = 1.
Proof. exact once_fork_child. Qed.

(** init_process is reached, with the forked child given its own. *)
Example C27_example :
  result true ([(MAIN, CCall AConstructor); (MAIN, CStep); (MAIN, CRet 0)] ++
     [(MAIN, CRet 0); (MAIN, CStep); (MAIN, CRet 0); (MAIN, CRet 0)] ++ ticks MAIN 6 ++
     [(MAIN, CRet 7)] ++ ticks MAIN 2 ++ [(MAIN, CRet 0)] ++
     [(MAIN, CCall AFork); (MAIN, CStep); (MAIN, CRet 9); (MAIN, CChild)] ++ ticks MAIN 6 ++
     [(MAIN, CRet 7)] ++ ticks MAIN 2)
    (fun s => (rev (s_tr s), count is_init_process (image (s_tr s)), count is_init_library (s_tr s)))
  = Some ([ECall MAIN CbInitLibrary; ERet MAIN CbInitLibrary 0;
           ECall MAIN CbStartMain; ERet MAIN CbStartMain 0;
           ECall MAIN (CbInitProcess 0); ERet MAIN (CbInitProcess 0) 7;
           ECall MAIN CbAtMain; ERet MAIN CbAtMain 0;
           ECall MAIN CbPreFork; ERet MAIN CbPreFork 9; EFork MAIN;
           ECall MAIN (CbInitProcess 9); ERet MAIN (CbInitProcess 9) 7; EForkRet MAIN], 1, 1).
Proof. vm_compute. reflexivity. Qed.

(** The schedule of the example forks in a settled state. *)
Example C27_example_settled :
  exists s, reach true (fun s t c => settled_forks s t c /\ app_forks s t c) s /\
            In (EForkRet MAIN) (image (s_tr s)).
Proof. exact settled_example. Qed.

(** Refuted without the restriction: a client that forks inside init_library, and
    whose child returns from it, gets init_process twice in the child. *)
Theorem C27_init_process_once_refuted : exists dyn l s,
  run dyn init l = Some s /\ count is_init_process (image (s_tr s)) = 2.
Proof.
  exists false,
    ([(MAIN, CRet 0); (MAIN, CStep); (MAIN, CRet 0); (MAIN, CRet 0)] ++ ticks MAIN 5 ++
     [(MAIN, CCall AFork); (MAIN, CStep); (MAIN, CRet 9); (MAIN, CChild)] ++ ticks MAIN 6 ++
     [(MAIN, CRet 7)] ++ ticks MAIN 2 ++ [(MAIN, CRet 0)] ++ ticks MAIN 1).
  eexists. split; vm_compute; reflexivity.
Qed.

(** *** C28 *)

(** In every execution, with any number of threads and any nesting of callbacks and
    signal handlers: in one process image begin_process_exit and fini_process are
    each issued at most once; before fini_process, begin_process_exit was issued and
    returned in the same thread with the same reason. *)
Theorem C28_exit_callbacks_once_in_order : forall dyn l s,
  run dyn init l = Some s ->
  count is_begin_exit (image (s_tr s)) <= 1 /\
  count is_fini_process (image (s_tr s)) <= 1 /\
  (forall a w how d b, s_tr s = a ++ ECall w (CbFiniProcess how d) :: b ->
     exists v, In (ERet w (CbBeginExit how) v) b).
Proof. exact once_exit. Qed.

(** Every return of begin_process_exit has its call before it in the same thread. *)
Theorem C28_begin_returns_after_call : forall dyn l s,
  run dyn init l = Some s ->
  forall a w how v b, s_tr s = a ++ ERet w (CbBeginExit how) v :: b ->
    In (ECall w (CbBeginExit how)) b.
Proof. exact begin_ret_after_call. Qed.

(** exit() called inside begin_process_exit, then again by an atexit handler: the
    callbacks are issued once. *)
Example C28_example :
  result false (to_main ++ [(MAIN, CCall AExit)] ++ ticks MAIN 4 ++
     [(MAIN, CCall AExit)] ++ ticks MAIN 5 ++ [(MAIN, CCall AExit)] ++ ticks MAIN 5)
    (fun s => (count is_begin_exit (s_tr s), count is_fini_process (s_tr s),
               count (fun e => match e with EPast _ => true | _ => false end) (s_tr s)))
  = Some (1, 0, 2).
Proof. vm_compute. reflexivity. Qed.

Example C28_example_normal :
  result false (to_main ++ exit1 MAIN)
    (fun s => firstn 8 (s_tr s))
  = Some [EPast MAIN; ERet MAIN (CbFiniProcess EXIT_NORMAL 7) 0;
          ECall MAIN (CbFiniProcess EXIT_NORMAL 7); ERet MAIN (CbBeginExit EXIT_NORMAL) 0;
          ECall MAIN (CbBeginExit EXIT_NORMAL); EWin MAIN; EExit MAIN EXIT_NORMAL;
          ERet MAIN CbAtMain 0].
Proof. vm_compute. reflexivity. Qed.

Print Assumptions C27_init_process_once_partial.
Print Assumptions C27_init_library_once_and_first.
Print Assumptions C27_forked_child_gets_init_process.
Print Assumptions C27_init_process_once_refuted.
Print Assumptions C28_exit_callbacks_once_in_order.
Print Assumptions C28_begin_returns_after_call.
