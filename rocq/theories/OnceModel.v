(** * Finding and calling the real functions, in every interleaving

    Models: src/common.h 113-164 (the macros that look up a real function
    and run an initialisation once), src/common.c 60-110 (monitor_dlsym,
    as a look-up that always answers; it ends the process otherwise), and
    the control flow of the functions of src/main.c, src/pthread.c,
    src/signal.c, src/fork.c, src/dlopen.c, src/mpi_*.c and src/pmpi.c
    that look up or call a real function.

    Every function becomes a list of instructions.  Only what matters for
    the pointers to real functions is kept: look-ups, calls through the
    pointers, tests and settings of the "has run" flags, calls of other
    functions, the flag monitor_has_used_threads, the places where
    application or client code runs, and where threads and processes are
    made.  A test on other data is a free choice.  Simplifications: one
    look-up is one step; memory is sequentially consistent (StoreModel
    and WeakModel look at delayed stores); error exits (MONITOR_ERROR)
    are left out; functions that do not return (exit, exec) may return
    here, which only adds behaviour.  The configuration is the default
    one: signals, fork, threads, dlopen and MPI are all overridden, and
    pthread_equal and pthread_cleanup_push are functions. *)

From Coq Require Import List String Bool Arith.
Import ListNotations.
Local Open Scope string_scope.

(** The source file that owns a static pointer: the same real function
    may have one pointer in each file. *)
Inductive file := Fmain | Ffork | Fpthread | Fsignal | Fdlopen | Fmpi.

(** A pointer to a real function: the file, and the function it is meant
    for.  main.c 118-140, fork.c 85-105, pthread.c 148-185, signal.c
    96-104, dlopen.c 70-71, and the static variables of the MPI files. *)
Definition ptr : Type := file * string.

(** The flags that make an initialisation run once.
    common.h 161-164 with main.c 171, 192, 230, pthread.c 243, signal.c
    291; fork.c 124; dlopen.c 82. *)
Inductive flag := FlEarly | FlNormal | FlLibrary | FlNames | FlSignal
                | FlFork | FlDlopen.

(** The MPI functions and their spellings.  mpi_*.c, pmpi.c. *)
Inductive mpif := MInit | MInitThread | MFinalize | MCommRank.
Inductive spelling := SpC | Sp0 | Sp1 | Sp2 | SpP | SpP0 | SpP1 | SpP2.

(** The functions of libmonitor.  The F_x names that are not functions
    of the source are pieces of one: a branch or a loop body. *)
Inductive fn :=
  (* application or client code *)
| F_app
  (* common.h *)
| F_debug
  (* main.c *)
| F_early_init | F_normal_init | F_begin_library | F_end_library
| F_begin_process | F_begin_process_child | F_end_process | F_exit_winner
| F_initialize | F_real_exit | F_real_sigprocmask | F_real_fork
| F_real_fork_child | F_monitor_main | F_start_main | F_exit | F_u_exit
| F_ctor | F_dtor
  (* pthread.c *)
| F_get_tn | F_getspecific | F_name_init | F_list_init | F_reset_list
| F_reset_used | F_make_node | F_new_array | F_shootdown_handler
| F_shootdown | F_shootdown_used | F_shootdown_loop | F_shootdown_kill
| F_query | F_real_pthread_sigmask | F_broadcast | F_broadcast_used
| F_broadcast_loop | F_broadcast_kill | F_cleanup | F_begin_thread
| F_adjust_stack | F_attr_init | F_pthread_create | F_first_create
| F_create_ignored | F_thread_support | F_restore | F_destroy
| F_pthread_exit | F_exit_main | F_pthread_sigmask | F_sigwait
| F_sigwait_loop | F_sigwait_helper | F_sigwait_fini | F_sigtimedwait
| F_sigtimedwait_loop
  (* signal.c *)
| F_sigwait_handler | F_signal_handler | F_signal_init | F_install_loop
| F_remove_client | F_current_set | F_shootdown_signal | F_client_sigaction
| F_sigaction | F_sigaction_avoid | F_install_appl | F_sigprocmask
| F_real_abort
  (* fork.c *)
| F_fork_init | F_va_malloc | F_fork | F_fork_child | F_execv | F_execvp
| F_execve | F_exec_end | F_execl | F_execlp | F_execle | F_do_system
| F_system_child | F_system | F_libc_system | F_real_system | F_real_execve
  (* dlopen.c *)
| F_dlopen_init | F_real_dlopen | F_real_dlclose | F_dlopen | F_dlclose
  (* mpi_*.c and pmpi.c *)
| F_mpi (m : mpif) (s : spelling).

Inductive instr :=
| ILook (p : ptr) (name : string)  (* MONITOR_GET_REAL_NAME(_WRAP), MONITOR_REQUIRE_DLSYM *)
| IUse (p : ptr)                   (* a call through the pointer *)
| ITest (f : flag)                 (* if (flag) return *)
| ISet (f : flag)                  (* flag = 1 *)
| ICall (g : fn)                   (* g() *)
| IMaybe (g : fn)                  (* if (other data) g() *)
| IMaybeRet                        (* if (other data) return *)
| ITail (g : fn)                   (* if (other data) return g() *)
| ILoop                            (* if (other data) go back to the start of the function *)
| IUsed (g : fn)                   (* if (monitor_has_used_threads) g() *)
| IUnused (g : fn)                 (* if (! monitor_has_used_threads) g() *)
| ISetUsed (b : bool)              (* monitor_has_used_threads = b *)
| IClient                          (* application or client code runs here *)
| ISpawn (g : fn)                  (* the real pthread_create starts a thread in g, or fails *)
| IFork (g : fn)                   (* the real fork; the child goes on in g and returns *)
| IInstall                         (* the kernel now delivers to monitor_signal_handler *)
| IShoot.                          (* the kernel now delivers to monitor_shootdown_handler *)

(** ** The functions, file by file *)

(** The names given to the two look-ups of an MPI function: the function
    itself, and the companion MPI_Comm_size of MPI_Comm_rank.
    mpi_init_*.c 27-28, mpi_init_thread_*.c 28, mpi_final_*.c 27,
    mpi_comm_*.c 32-34, pmpi.c 98-145, 163-210, 227-270, 295-330. *)
Definition mpi_name (m : mpif) (s : spelling) : string :=
  match m, s with
  | MInit, SpC => "MPI_Init" | MInit, Sp0 => "mpi_init"
  | MInit, Sp1 => "mpi_init_" | MInit, Sp2 => "mpi_init__"
  | MInit, SpP => "PMPI_Init" | MInit, SpP0 => "pmpi_init"
  | MInit, SpP1 => "pmpi_init_" | MInit, SpP2 => "pmpi_init__"
  | MInitThread, SpC => "MPI_Init_thread" | MInitThread, Sp0 => "mpi_init_thread"
  | MInitThread, Sp1 => "mpi_init_thread_" | MInitThread, Sp2 => "mpi_init_thread__"
  | MInitThread, SpP => "PMPI_Init_thread" | MInitThread, SpP0 => "pmpi_init_thread"
  | MInitThread, SpP1 => "pmpi_init_thread_" | MInitThread, SpP2 => "pmpi_init_thread__"
  | MFinalize, SpC => "MPI_Finalize" | MFinalize, Sp0 => "mpi_finalize"
  | MFinalize, Sp1 => "mpi_finalize_" | MFinalize, Sp2 => "mpi_finalize__"
  | MFinalize, SpP => "PMPI_Finalize" | MFinalize, SpP0 => "pmpi_finalize"
  | MFinalize, SpP1 => "pmpi_finalize_" | MFinalize, SpP2 => "pmpi_finalize__"
  | MCommRank, SpC => "MPI_Comm_rank" | MCommRank, Sp0 => "mpi_comm_rank"
  | MCommRank, Sp1 => "mpi_comm_rank_" | MCommRank, Sp2 => "mpi_comm_rank__"
  | MCommRank, SpP => "PMPI_Comm_rank" | MCommRank, SpP0 => "pmpi_comm_rank"
  | MCommRank, SpP1 => "pmpi_comm_rank_" | MCommRank, SpP2 => "pmpi_comm_rank__"
  end.

(** The companion look-up of MPI_Comm_size.  mpi_comm_*.c 32-33, pmpi.c
    295, 307. *)
Definition comm_size_name (s : spelling) : string :=
  match s with
  | SpC => "MPI_Comm_size" | Sp0 => "mpi_comm_size"
  | Sp1 => "mpi_comm_size_" | Sp2 => "mpi_comm_size__"
  | SpP => "PMPI_Comm_size" | SpP0 => "pmpi_comm_size"
  | SpP1 => "pmpi_comm_size_" | SpP2 => "pmpi_comm_size__"
  end.

(** The functions of main.c and the debug macro of common.h. *)
Definition body_main (f : fn) : list instr :=
  match f with
  | F_app => [IClient]
  (* MONITOR_DEBUG: asks for the thread number when debugging.  common.h 89-95 *)
  | F_debug => [IMaybe F_get_tn]
  (* monitor_early_init.  main.c 168-183 *)
  | F_early_init => [ITest FlEarly; ISet FlEarly; ICall F_debug]
  (* monitor_normal_init.  main.c 189-220 *)
  | F_normal_init =>
      [ITest FlNormal; ISet FlNormal; ICall F_early_init; ICall F_debug;
       ILook (Fmain, "_exit") "_exit"; ILook (Fmain, "exit") "exit";
       ILook (Fmain, "__libc_start_main") "__libc_start_main";
       ICall F_fork_init; ILook (Fmain, "sigprocmask") "sigprocmask";
       ICall F_signal_init]
  (* monitor_begin_library_fcn.  main.c 227-238 *)
  | F_begin_library =>
      [ITest FlLibrary; ISet FlLibrary; ICall F_debug; ICall F_normal_init;
       ICall F_debug; IClient]
  (* monitor_end_library_fcn.  main.c 240-249 *)
  | F_end_library => [IMaybeRet; ICall F_debug; IClient]
  (* monitor_begin_process_fcn, not in a child.  main.c 255-287 *)
  | F_begin_process =>
      [ICall F_normal_init; IMaybeRet; ICall F_begin_library; ICall F_debug; IClient]
  (* monitor_begin_process_fcn in the child of fork.  main.c 255-287 *)
  | F_begin_process_child =>
      [ICall F_normal_init; ICall F_reset_list; ICall F_begin_library;
       ICall F_debug; IClient]
  (* monitor_end_process_fcn.  main.c 302-343 *)
  | F_end_process =>
      [ICall F_get_tn; IMaybe F_exit_winner; ICall F_debug; ICall F_debug]
  (* its first branch.  main.c 308-322 *)
  | F_exit_winner =>
      [ICall F_debug; IClient; ICall F_shootdown; ICall F_debug; IClient]
  (* monitor_initialize.  main.c 422-426 *)
  | F_initialize => [ICall F_begin_process]
  (* monitor_real_exit.  main.c 433-438 *)
  | F_real_exit => [ICall F_normal_init; IUse (Fmain, "_exit")]
  (* monitor_real_sigprocmask.  main.c 446-452 *)
  | F_real_sigprocmask => [ICall F_normal_init; IUse (Fmain, "sigprocmask")]
  (* monitor_real_fork.  main.c 462-479 *)
  | F_real_fork =>
      [ILook (Fmain, "fork") "fork"; ICall F_debug; IUse (Fmain, "fork");
       IFork F_real_fork_child]
  | F_real_fork_child => [ICall F_reset_list]
  (* monitor_main; the pointer real_main was set by its caller.  main.c 503-537 *)
  | F_monitor_main =>
      [ICall F_normal_init; ICall F_debug; ICall F_begin_process; IClient;
       IUse (Fmain, "main"); IClient; ICall F_end_process]
  (* __libc_start_main.  main.c 554-581 *)
  | F_start_main =>
      [ICall F_debug; ILook (Fmain, "__libc_start_main") "__libc_start_main";
       ILook (Fmain, "main") "main"; IClient;
       IUse (Fmain, "__libc_start_main"); ICall F_monitor_main]
  (* exit.  main.c 590-601 *)
  | F_exit =>
      [ICall F_normal_init; ICall F_debug; ICall F_end_process; IUse (Fmain, "exit")]
  (* _exit and _Exit.  main.c 607-637 *)
  | F_u_exit =>
      [ICall F_normal_init; ICall F_debug; ICall F_end_process;
       ICall F_end_library; IUse (Fmain, "_exit")]
  (* the library's constructor and destructor.  main.c 644-656 *)
  | F_ctor => [ICall F_debug; ICall F_begin_library]
  | F_dtor => [ICall F_debug; ICall F_end_library]
  | _ => []
  end.

(** The functions of pthread.c. *)
Definition body_pthread (f : fn) : list instr :=
  match f with
  (* monitor_get_tn.  pthread.c 222-238 *)
  | F_get_tn => [IUsed F_getspecific]
  | F_getspecific => [IUse (Fpthread, "pthread_getspecific")]
  (* monitor_thread_name_init.  pthread.c 240-273 *)
  | F_name_init =>
      [ITest FlNames; ISet FlNames;
       ILook (Fpthread, "pthread_create") "pthread_create"; ICall F_debug;
       ILook (Fpthread, "pthread_attr_init") "pthread_attr_init";
       ILook (Fpthread, "pthread_attr_destroy") "pthread_attr_destroy";
       ILook (Fpthread, "pthread_attr_getstacksize") "pthread_attr_getstacksize";
       ILook (Fpthread, "pthread_attr_setstacksize") "pthread_attr_setstacksize";
       ILook (Fpthread, "pthread_equal") "pthread_equal";
       ILook (Fpthread, "pthread_key_create") "pthread_key_create";
       ILook (Fpthread, "pthread_key_delete") "pthread_key_delete";
       ILook (Fpthread, "pthread_kill") "pthread_kill";
       ILook (Fpthread, "pthread_self") "pthread_self";
       ILook (Fpthread, "pthread_getspecific") "pthread_getspecific";
       ILook (Fpthread, "pthread_setspecific") "pthread_setspecific";
       ILook (Fpthread, "pthread_cleanup_push") "pthread_cleanup_push";
       ILook (Fpthread, "pthread_cleanup_pop") "pthread_cleanup_pop";
       ILook (Fpthread, "pthread_setcancelstate") "pthread_setcancelstate";
       ILook (Fpthread, "sigaction") "sigaction";
       ILook (Fpthread, "pthread_sigmask") "pthread_sigmask";
       ILook (Fpthread, "sigwaitinfo") "sigwaitinfo";
       ILook (Fpthread, "sigtimedwait") "sigtimedwait"]
  (* monitor_thread_list_init.  pthread.c 280-314 *)
  | F_list_init =>
      [ICall F_early_init; ICall F_name_init; ICall F_debug;
       IUse (Fpthread, "pthread_key_create"); IUse (Fpthread, "pthread_self");
       IUse (Fpthread, "pthread_setspecific")]
  (* monitor_reset_thread_list.  pthread.c 323-359 *)
  | F_reset_list => [IUsed F_reset_used]
  | F_reset_used =>
      [ICall F_debug; ICall F_get_tn; IUse (Fpthread, "pthread_key_delete");
       ISetUsed false]
  (* monitor_make_thread_node.  pthread.c 365-401 *)
  | F_make_node => [IMaybe F_new_array]
  | F_new_array => [ILook (Fpthread, "malloc") "malloc"; IUse (Fpthread, "malloc")]
  (* monitor_shootdown_handler.  pthread.c 441-475 *)
  | F_shootdown_handler =>
      [IUse (Fpthread, "pthread_getspecific"); IMaybeRet;
       IUse (Fpthread, "pthread_setcancelstate"); ICall F_debug; IClient;
       IUse (Fpthread, "pthread_setcancelstate")]
  (* monitor_thread_shootdown.  pthread.c 512-633 *)
  | F_shootdown => [IUsed F_shootdown_used]
  | F_shootdown_used =>
      [IUse (Fpthread, "pthread_setcancelstate"); ICall F_debug;
       ICall F_shootdown_signal; ICall F_debug; IUse (Fpthread, "sigaction");
       IShoot; IUse (Fpthread, "pthread_self"); IUse (Fpthread, "pthread_equal");
       ICall F_shootdown_loop; IMaybe F_app;
       IUse (Fpthread, "pthread_setcancelstate")]
  (* one turn of its loop.  pthread.c 577-618 *)
  | F_shootdown_loop =>
      [IMaybeRet; IUse (Fpthread, "pthread_equal"); IMaybe F_shootdown_kill;
       ICall F_debug; ILoop]
  | F_shootdown_kill => [IUse (Fpthread, "pthread_kill")]
  (* monitor_get_user_data, _get_thread_num, _get_addr_thread_start,
     _stack_bottom, _block_shootdown, _unblock_shootdown,
     _disable_new_threads, _enable_new_threads, _get_new_thread_info.
     pthread.c 653-715, 802-883 *)
  | F_query => [ICall F_get_tn; ICall F_debug]
  (* monitor_real_pthread_sigmask.  pthread.c 748-754 *)
  | F_real_pthread_sigmask =>
      [ICall F_name_init; IUse (Fpthread, "pthread_sigmask")]
  (* monitor_broadcast_signal.  pthread.c 764-793 *)
  | F_broadcast => [IUsed F_broadcast_used]
  | F_broadcast_used =>
      [IMaybeRet; IUse (Fpthread, "pthread_self"); ICall F_broadcast_loop;
       IUse (Fpthread, "pthread_equal"); IMaybe F_broadcast_kill]
  | F_broadcast_loop =>
      [IMaybeRet; IUse (Fpthread, "pthread_equal"); IMaybe F_broadcast_kill; ILoop]
  | F_broadcast_kill => [IUse (Fpthread, "pthread_kill")]
  (* monitor_pthread_cleanup_routine.  pthread.c 895-929 *)
  | F_cleanup => [IMaybeRet; ICall F_debug; IClient]
  (* monitor_begin_thread: init_thread, then the start routine.
     pthread.c 935-1000 *)
  | F_begin_thread =>
      [ICall F_debug; IUse (Fpthread, "pthread_self");
       IUse (Fpthread, "pthread_setspecific"); IMaybeRet;
       IUse (Fpthread, "pthread_cleanup_push"); ICall F_debug; IClient; IClient;
       IUse (Fpthread, "pthread_cleanup_pop"); ICall F_cleanup]
  (* monitor_adjust_stack_size.  pthread.c 1014-1053 *)
  | F_adjust_stack =>
      [IMaybe F_attr_init; IUse (Fpthread, "pthread_attr_getstacksize");
       IMaybeRet; IClient; IMaybeRet;
       IUse (Fpthread, "pthread_attr_setstacksize"); ICall F_debug]
  | F_attr_init => [IUse (Fpthread, "pthread_attr_init")]
  (* pthread_create.  pthread.c 1058-1178 *)
  | F_pthread_create =>
      [ICall F_debug; IUnused F_first_create; ICall F_get_tn;
       ICall F_begin_process; ITail F_create_ignored; IMaybe F_thread_support;
       ICall F_debug; IClient; ITail F_create_ignored; ICall F_make_node;
       ICall F_adjust_stack; ICall F_debug;
       IUse (Fpthread, "pthread_create"); ISpawn F_begin_thread;
       IMaybe F_restore; IMaybe F_destroy; ICall F_debug; IClient]
  (* pthread.c 1077-1080 *)
  | F_first_create => [ICall F_list_init; ISetUsed true]
  (* pthread.c 1105-1108 and 1132-1135 *)
  | F_create_ignored =>
      [ICall F_debug; IUse (Fpthread, "pthread_create"); ISpawn F_app]
  (* pthread.c 1114-1118 *)
  | F_thread_support => [ICall F_debug; IClient]
  (* pthread.c 1156-1161 *)
  | F_restore => [IUse (Fpthread, "pthread_attr_setstacksize")]
  | F_destroy => [IUse (Fpthread, "pthread_attr_destroy")]
  (* pthread_exit.  pthread.c 1184-1200 *)
  | F_pthread_exit =>
      [ICall F_get_tn; IMaybe F_exit_main;
       ILook (Fpthread, "pthread_exit") "pthread_exit";
       IUse (Fpthread, "pthread_exit")]
  | F_exit_main => [ICall F_debug; ICall F_end_process]
  (* pthread_sigmask.  pthread.c 1207-1224 *)
  | F_pthread_sigmask =>
      [ICall F_signal_init; ICall F_name_init; IMaybe F_remove_client;
       IUse (Fpthread, "pthread_sigmask")]
  (* sigwait and sigwaitinfo.  pthread.c 1295-1350 *)
  | F_sigwait => [ICall F_name_init; ICall F_debug; ICall F_sigwait_loop]
  | F_sigwait_loop =>
      [IUse (Fpthread, "sigwaitinfo"); ICall F_sigwait_helper; ILoop]
  (* monitor_sigwait_helper.  pthread.c 1236-1291 *)
  | F_sigwait_helper =>
      [IMaybeRet; ICall F_get_tn; ITail F_sigwait_fini; ICall F_sigwait_handler]
  | F_sigwait_fini =>
      [IUse (Fpthread, "pthread_setcancelstate"); ICall F_debug; IClient;
       IUse (Fpthread, "pthread_setcancelstate")]
  (* sigtimedwait.  pthread.c 1352-1380 *)
  | F_sigtimedwait =>
      [ICall F_name_init; ICall F_debug; ICall F_sigtimedwait_loop]
  | F_sigtimedwait_loop =>
      [IUse (Fpthread, "sigtimedwait"); ICall F_sigwait_helper; ILoop]
  | _ => []
  end.

(** The functions of signal.c. *)
Definition body_signal (f : fn) : list instr :=
  match f with
  (* monitor_sigwait_handler.  signal.c 170-190 *)
  | F_sigwait_handler => [ICall F_signal_init; IMaybe F_app]
  (* monitor_signal_handler: the client's handler, then the application's,
     or the default action.  signal.c 197-276 *)
  | F_signal_handler =>
      [IMaybe F_app; IMaybeRet; ITail F_app; IMaybeRet; ICall F_end_process;
       ICall F_end_library; IUse (Fsignal, "sigaction");
       IUse (Fsignal, "sigprocmask")]
  (* monitor_signal_init.  signal.c 282-357 *)
  | F_signal_init =>
      [ITest FlSignal; ISet FlSignal; ILook (Fsignal, "sigaction") "sigaction";
       ILook (Fsignal, "sigprocmask") "sigprocmask"; ICall F_debug;
       ICall F_install_loop; ICall F_debug]
  (* one turn of its loop.  signal.c 324-342 *)
  | F_install_loop => [IUse (Fsignal, "sigaction"); IInstall; ILoop]
  (* monitor_remove_client_signals.  signal.c 369-432 *)
  | F_remove_client => [ICall F_debug; IMaybe F_current_set]
  | F_current_set => [IUse (Fsignal, "sigprocmask")]
  (* monitor_shootdown_signal.  signal.c 532-542 *)
  | F_shootdown_signal => [IMaybeRet; ICall F_signal_init; ICall F_debug]
  (* monitor_sigaction.  signal.c 746-773 *)
  | F_client_sigaction =>
      [ICall F_signal_init; IMaybeRet; ICall F_debug; IMaybe F_install_appl]
  (* signal and sigaction.  signal.c 810-886 *)
  | F_sigaction =>
      [ICall F_signal_init; IMaybeRet; ICall F_debug; ITail F_sigaction_avoid;
       IMaybe F_install_appl]
  | F_sigaction_avoid => [IUse (Fsignal, "sigaction")]
  | F_install_appl => [ICall F_debug; IUse (Fsignal, "sigaction")]
  (* sigprocmask.  signal.c 892-908 *)
  | F_sigprocmask =>
      [ICall F_signal_init; IMaybe F_remove_client; IUse (Fsignal, "sigprocmask")]
  (* monitor_real_abort.  signal.c 779-797 *)
  | F_real_abort =>
      [ICall F_debug; ILook (Fsignal, "sigaction") "sigaction";
       ILook (Fsignal, "sigprocmask") "sigprocmask";
       IUse (Fsignal, "sigaction"); IUse (Fsignal, "sigprocmask")]
  | _ => []
  end.

(** The functions of fork.c. *)
Definition body_fork (f : fn) : list instr :=
  match f with
  (* monitor_fork_init.  fork.c 121-141 *)
  | F_fork_init =>
      [ITest FlFork; ICall F_early_init;
       ILook (Ffork, "fork") "fork"; ILook (Ffork, "execv") "execv";
       ILook (Ffork, "execvp") "execvp"; ILook (Ffork, "execve") "execve";
       ILook (Ffork, "sigaction") "sigaction";
       ILook (Ffork, "sigprocmask") "sigprocmask";
       ILook (Ffork, "system") "system"; ISet FlFork]
  (* the re-allocation of monitor_copy_va_args.  fork.c 225-233 *)
  | F_va_malloc => [ILook (Ffork, "malloc") "malloc"; IUse (Ffork, "malloc"); ILoop]
  (* fork and vfork.  fork.c 306-347 *)
  | F_fork =>
      [ICall F_fork_init; ICall F_debug; IClient; IUse (Ffork, "fork");
       IFork F_fork_child; ICall F_debug; IClient]
  | F_fork_child => [ICall F_debug; ICall F_begin_process_child]
  (* monitor_execv, monitor_execvp, monitor_execve.  fork.c 355-437 *)
  | F_execv =>
      [ICall F_fork_init; ICall F_debug; IMaybe F_exec_end; IUse (Ffork, "execv")]
  | F_execvp =>
      [ICall F_fork_init; ICall F_debug; IMaybe F_exec_end; IUse (Ffork, "execvp")]
  | F_execve =>
      [ICall F_fork_init; ICall F_debug; IMaybe F_exec_end; IUse (Ffork, "execve")]
  | F_exec_end => [ICall F_end_process; ICall F_end_library]
  (* execl, execlp, execle.  fork.c 450-490 *)
  | F_execl => [IMaybe F_va_malloc; ICall F_execv]
  | F_execlp => [IMaybe F_va_malloc; ICall F_execvp]
  | F_execle => [IMaybe F_va_malloc; ICall F_execve]
  (* monitor_system.  fork.c 522-602 *)
  | F_do_system =>
      [ICall F_fork_init; ICall F_debug; IMaybeRet; IMaybe F_app;
       IUse (Ffork, "sigaction"); IUse (Ffork, "sigprocmask");
       IUse (Ffork, "fork"); IFork F_system_child;
       IUse (Ffork, "sigaction"); IUse (Ffork, "sigprocmask"); IMaybe F_app;
       ICall F_debug]
  (* its child.  fork.c 568-582 *)
  | F_system_child =>
      [ICall F_debug; IUse (Ffork, "sigaction"); IUse (Ffork, "sigprocmask");
       IUse (Ffork, "execve"); ICall F_real_exit]
  (* system.  fork.c 604-621 *)
  | F_system => [ICall F_fork_init; ITail F_libc_system; ICall F_do_system]
  | F_libc_system => [ICall F_debug; IUse (Ffork, "system")]
  (* monitor_real_system, monitor_real_execve.  fork.c 633-656 *)
  | F_real_system => [ICall F_do_system]
  | F_real_execve =>
      [ICall F_fork_init; ICall F_debug; IMaybeRet; IUse (Ffork, "execve")]
  | _ => []
  end.

(** The functions of dlopen.c and the MPI files. *)
Definition body_other (f : fn) : list instr :=
  match f with
  (* monitor_dlopen_init.  dlopen.c 79-90 *)
  | F_dlopen_init =>
      [ITest FlDlopen; ILook (Fdlopen, "dlopen") "dlopen";
       ILook (Fdlopen, "dlclose") "dlclose"; ISet FlDlopen]
  (* monitor_real_dlopen, monitor_real_dlclose, dlopen, dlclose.
     dlopen.c 101-146 *)
  | F_real_dlopen => [ICall F_dlopen_init; IUse (Fdlopen, "dlopen")]
  | F_real_dlclose => [ICall F_dlopen_init; IUse (Fdlopen, "dlclose")]
  | F_dlopen =>
      [ICall F_dlopen_init; ICall F_debug; IClient; IUse (Fdlopen, "dlopen");
       IClient; ICall F_debug]
  | F_dlclose =>
      [ICall F_dlopen_init; ICall F_debug; IClient; IUse (Fdlopen, "dlclose");
       IClient; ICall F_debug]
  (* the MPI overrides.  mpi_comm_*.c 28-38, pmpi.c 286-330; mpi_init_*.c,
     mpi_init_thread_*.c, mpi_final_*.c, pmpi.c 90-280 *)
  | F_mpi MCommRank s =>
      [ICall F_debug;
       ILook (Fmpi, comm_size_name s) (comm_size_name s);
       ILook (Fmpi, mpi_name MCommRank s) (mpi_name MCommRank s);
       IUse (Fmpi, comm_size_name s); IUse (Fmpi, mpi_name MCommRank s)]
  | F_mpi m s =>
      [ICall F_debug; ILook (Fmpi, mpi_name m s) (mpi_name m s); IMaybe F_app;
       IUse (Fmpi, mpi_name m s); IMaybe F_app]
  | _ => []
  end.

(** The code of a function: in which file it is. *)
Definition body (f : fn) : list instr :=
  (body_main f ++ body_pthread f ++ body_signal f ++ body_fork f ++ body_other f)%list.

(** What application and client code can call: the overrides and the
    client support functions of monitor.h. *)
Definition entry (f : fn) : bool :=
  match f with
  | F_initialize | F_real_exit | F_real_sigprocmask | F_real_fork
  | F_start_main | F_exit | F_u_exit | F_ctor | F_dtor
  | F_query | F_real_pthread_sigmask | F_broadcast
  | F_pthread_create | F_pthread_exit | F_pthread_sigmask
  | F_sigwait | F_sigtimedwait
  | F_shootdown_signal | F_client_sigaction | F_sigaction | F_sigprocmask
  | F_real_abort
  | F_fork | F_execv | F_execvp | F_execve | F_execl | F_execlp | F_execle
  | F_system | F_real_system | F_real_execve
  | F_real_dlopen | F_real_dlclose | F_dlopen | F_dlclose
  | F_mpi _ _ => true
  | _ => false
  end.

(** ** The machine *)

(** A frame of a thread's stack: the function and what is left to do. *)
Definition frame : Type := fn * list instr.

Record state := mkState {
  ptrs : ptr -> option string;      (* None: NULL *)
  flags : flag -> bool;
  used : bool;                      (* monitor_has_used_threads *)
  installed : bool;                 (* some signal goes to monitor_signal_handler *)
  shooting : bool;                  (* the shootdown signal goes to its handler *)
  threads : list (list frame);      (* one stack for each thread, top first *)
  calls : list (fn * ptr * option string)
    (* calls made through pointers, and in which function, newest first *)
}.

Definition file_eqb (a b : file) : bool :=
  match a, b with
  | Fmain, Fmain | Ffork, Ffork | Fpthread, Fpthread
  | Fsignal, Fsignal | Fdlopen, Fdlopen | Fmpi, Fmpi => true
  | _, _ => false
  end.

Definition ptr_eqb (a b : ptr) : bool :=
  file_eqb (fst a) (fst b) && String.eqb (snd a) (snd b).

Definition flag_eqb (a b : flag) : bool :=
  match a, b with
  | FlEarly, FlEarly | FlNormal, FlNormal | FlLibrary, FlLibrary
  | FlNames, FlNames | FlSignal, FlSignal | FlFork, FlFork
  | FlDlopen, FlDlopen => true
  | _, _ => false
  end.

(** The process at the start: all pointers NULL, all flags clear (static
    initialisers), one thread running application code (which here includes
    the start-up code that calls __libc_start_main and the constructors). *)
Definition start : state :=
  mkState (fun _ => None) (fun _ => false) false false false
          [[(F_app, body F_app)]] [].

(** What happens next. *)
Inductive event :=
| Run (t : nat) (choice : bool)  (* thread t executes its next instruction *)
| Enter (t : nat) (f : fn)       (* application or client code in thread t calls f *)
| Leave (t : nat)                (* application or client code in thread t returns *)
| Signal (t : nat)               (* a signal is delivered to thread t *)
| Shot (t : nat)                 (* the shootdown signal is delivered to thread t *)
| Foreign.                       (* a thread starts without pthread_create *)

Definition set_thread (s : state) (t : nat) (st : list frame) : state :=
  mkState (ptrs s) (flags s) (used s) (installed s) (shooting s)
          (firstn t (threads s) ++ st :: skipn (S t) (threads s))%list (calls s).

Definition add_thread (s : state) (st : list frame) : state :=
  mkState (ptrs s) (flags s) (used s) (installed s) (shooting s)
          (threads s ++ [st])%list (calls s).

Definition only_thread (s : state) (st : list frame) : state :=
  mkState (ptrs s) (flags s) (used s) (installed s) (shooting s) [st] (calls s).

Definition set_used (s : state) (b : bool) : state :=
  mkState (ptrs s) (flags s) b (installed s) (shooting s) (threads s) (calls s).

Definition set_flag (s : state) (f : flag) : state :=
  mkState (ptrs s) (fun g => if flag_eqb f g then true else flags s g)
          (used s) (installed s) (shooting s) (threads s) (calls s).

(** A look-up stores only when the pointer is NULL.  common.h 119-123; in a
    static build the store is always made (132-139), with the same value. *)
Definition set_ptr (s : state) (p : ptr) (name : string) : state :=
  mkState (fun q => if ptr_eqb p q
                    then match ptrs s q with None => Some name | o => o end
                    else ptrs s q)
          (flags s) (used s) (installed s) (shooting s) (threads s) (calls s).

Definition log_call (s : state) (f : fn) (p : ptr) : state :=
  mkState (ptrs s) (flags s) (used s) (installed s) (shooting s) (threads s)
          ((f, p, ptrs s p) :: calls s).

Definition set_installed (s : state) : state :=
  mkState (ptrs s) (flags s) (used s) true (shooting s) (threads s) (calls s).

Definition set_shooting (s : state) : state :=
  mkState (ptrs s) (flags s) (used s) (installed s) true (threads s) (calls s).

(** A new frame for a call of g. *)
Definition call (g : fn) : frame := (g, body g).

(** Thread t, whose stack is (f, i :: c) :: r, executes i.  The comments
    of the type instr say which construct of the source each stands for. *)
Definition exec (s : state) (t : nat) (f : fn) (i : instr) (c : list instr)
    (r : list frame) (choice : bool) : option state :=
  let next := (f, c) :: r in
  match i with
  | ILook p n => Some (set_thread (set_ptr s p n) t next)
  | IUse p => Some (set_thread (log_call s f p) t next)
  | ITest fl => Some (set_thread s t (if flags s fl then r else next))
  | ISet fl => Some (set_thread (set_flag s fl) t next)
  | ICall g => Some (set_thread s t (call g :: next))
  | IMaybe g => Some (set_thread s t (if choice then call g :: next else next))
  | IMaybeRet => Some (set_thread s t (if choice then r else next))
  | ITail g => Some (set_thread s t (if choice then call g :: r else next))
  | ILoop => Some (set_thread s t (if choice then call f :: r else next))
  | IUsed g => Some (set_thread s t (if used s then call g :: next else next))
  | IUnused g => Some (set_thread s t (if used s then next else call g :: next))
  | ISetUsed b => Some (set_thread (set_used s b) t next)
  | IClient => None
  | ISpawn g =>
      let s' := set_thread s t next in
      Some (if choice then add_thread s' [call g] else s')
  | IFork g =>
      Some (if choice then only_thread s (call g :: r) else set_thread s t next)
  | IInstall => Some (set_thread (set_installed s) t next)
  | IShoot => Some (set_thread (set_shooting s) t next)
  end.

(** One event; None when it cannot happen. *)
Definition step (s : state) (e : event) : option state :=
  match e with
  | Run t choice =>
      match nth_error (threads s) t with
      | Some ((f, i :: c) :: r) => exec s t f i c r choice
      | Some ((f, []) :: r) => Some (set_thread s t r)
      | _ => None
      end
  | Enter t g =>
      match nth_error (threads s) t with
      | Some ((f, IClient :: c) :: r) =>
          if entry g then Some (set_thread s t (call g :: (f, IClient :: c) :: r))
          else None
      | _ => None
      end
  | Leave t =>
      match nth_error (threads s) t with
      | Some ((f, IClient :: c) :: r) => Some (set_thread s t ((f, c) :: r))
      | _ => None
      end
  | Signal t =>
      match nth_error (threads s) t with
      | Some (fr :: r) =>
          if installed s then Some (set_thread s t (call F_signal_handler :: fr :: r))
          else None
      | _ => None
      end
  | Shot t =>
      match nth_error (threads s) t with
      | Some (fr :: r) =>
          if shooting s then Some (set_thread s t (call F_shootdown_handler :: fr :: r))
          else None
      | _ => None
      end
  | Foreign => Some (add_thread s [call F_app])
  end.

(** A history of events, oldest first. *)
Fixpoint run (s : state) (es : list event) : option state :=
  match es with
  | [] => Some s
  | e :: es' => match step s e with Some s' => run s' es' | None => None end
  end.
