(** The life cycle of a process and its threads: src/main.c (library, process and
    exit functions), src/pthread.c (thread nodes, pthread_create, shootdown,
    broadcast, queries), the fork and exec overrides of src/fork.c and the fatal
    branch of the signal handler of src/signal.c, as one small-step machine.

    A state holds the library's global variables, the heap of thread nodes, and
    for every thread a stack of frames.  [step s t c] is one access of thread t
    to shared memory, one callback issued or returned, one call made by the
    application or the client, or one signal.  The choice [c] resolves what the
    code does not determine.  Application and client code is open: in an [FApp]
    or [FCb] frame a thread may call any entry point or return any value.
    A schedule is a list of (thread, choice); nothing bounds its length, the
    number of threads, the depth of the stacks or the number of nodes.

    Simplifications, here and in the comments below:
    - memory is sequentially consistent; one step per shared access (or per group
      of accesses that no other thread can separate, said where it is done);
    - the linked lists are Coq lists: one list macro is one step (the pointer
      level is QueueModel.v); a macro used outside its precondition sets [g_bad];
    - the spin lock is one step to take (it can be taken only when free) and one
      to release (its atomic instruction is LockModel.v); the holder is recorded;
    - normal_init, name lookups, debug output and MONITOR_ERROR paths (malloc or
      key creation failing) have no step; sleeping has no step; the ten-second
      clock of the shootdown is the choice [CGiveUp] (ShootModel.v has the clock);
    - attribute handling in pthread_create is AttrModel.v; here only its callback;
    - cancellation is deferred: it acts in application or client code or in the
      wait loop of end_process, never when the thread is inside a locked region;
    - pthread_create is not called from a signal handler (it is not
      async-signal-safe);
    - the shootdown signal is delivered only to threads it was sent to;
    - the process end that the C library performs when its last thread ends
      is not modelled. *)
From Verif Require Export Base.

(** ** Thread nodes, pthread_h.h 51-71 *)

Record node := mknode {
  n_self : Z;  (* tn_self: the pthread id *)
  n_start : Z;  (* tn_start_routine *)
  n_magic : bool;  (* tn_magic == MONITOR_TN_MAGIC *)
  n_num : Z;  (* tn_tid *)
  n_arg : Z;  (* tn_arg *)
  n_data : Z;  (* tn_user_data *)
  n_bottom : Z;  (* tn_stack_bottom: the thread whose stack it points into *)
  n_info : option Z;  (* tn_thread_info: the pthread_create call whose local it points to *)
  n_main : bool;  (* tn_is_main *)
  n_ignore : bool;  (* tn_ignore_threads *)
  n_appl : bool;  (* tn_appl_started *)
  n_fstart : bool;  (* tn_fini_started *)
  n_fdone : bool;  (* tn_fini_done *)
  n_win : bool;  (* tn_exit_win *)
  n_block : bool  (* tn_block_shootdown *)
}.

Definition set_n_self (v : Z) (x : node) : node :=
  mknode v (n_start x) (n_magic x) (n_num x) (n_arg x) (n_data x) (n_bottom x) (n_info x) (n_main x) (n_ignore x) (n_appl x) (n_fstart x) (n_fdone x) (n_win x) (n_block x).
Definition set_n_start (v : Z) (x : node) : node :=
  mknode (n_self x) v (n_magic x) (n_num x) (n_arg x) (n_data x) (n_bottom x) (n_info x) (n_main x) (n_ignore x) (n_appl x) (n_fstart x) (n_fdone x) (n_win x) (n_block x).
Definition set_n_magic (v : bool) (x : node) : node :=
  mknode (n_self x) (n_start x) v (n_num x) (n_arg x) (n_data x) (n_bottom x) (n_info x) (n_main x) (n_ignore x) (n_appl x) (n_fstart x) (n_fdone x) (n_win x) (n_block x).
Definition set_n_num (v : Z) (x : node) : node :=
  mknode (n_self x) (n_start x) (n_magic x) v (n_arg x) (n_data x) (n_bottom x) (n_info x) (n_main x) (n_ignore x) (n_appl x) (n_fstart x) (n_fdone x) (n_win x) (n_block x).
Definition set_n_arg (v : Z) (x : node) : node :=
  mknode (n_self x) (n_start x) (n_magic x) (n_num x) v (n_data x) (n_bottom x) (n_info x) (n_main x) (n_ignore x) (n_appl x) (n_fstart x) (n_fdone x) (n_win x) (n_block x).
Definition set_n_data (v : Z) (x : node) : node :=
  mknode (n_self x) (n_start x) (n_magic x) (n_num x) (n_arg x) v (n_bottom x) (n_info x) (n_main x) (n_ignore x) (n_appl x) (n_fstart x) (n_fdone x) (n_win x) (n_block x).
Definition set_n_bottom (v : Z) (x : node) : node :=
  mknode (n_self x) (n_start x) (n_magic x) (n_num x) (n_arg x) (n_data x) v (n_info x) (n_main x) (n_ignore x) (n_appl x) (n_fstart x) (n_fdone x) (n_win x) (n_block x).
Definition set_n_info (v : option Z) (x : node) : node :=
  mknode (n_self x) (n_start x) (n_magic x) (n_num x) (n_arg x) (n_data x) (n_bottom x) v (n_main x) (n_ignore x) (n_appl x) (n_fstart x) (n_fdone x) (n_win x) (n_block x).
Definition set_n_main (v : bool) (x : node) : node :=
  mknode (n_self x) (n_start x) (n_magic x) (n_num x) (n_arg x) (n_data x) (n_bottom x) (n_info x) v (n_ignore x) (n_appl x) (n_fstart x) (n_fdone x) (n_win x) (n_block x).
Definition set_n_ignore (v : bool) (x : node) : node :=
  mknode (n_self x) (n_start x) (n_magic x) (n_num x) (n_arg x) (n_data x) (n_bottom x) (n_info x) (n_main x) v (n_appl x) (n_fstart x) (n_fdone x) (n_win x) (n_block x).
Definition set_n_appl (v : bool) (x : node) : node :=
  mknode (n_self x) (n_start x) (n_magic x) (n_num x) (n_arg x) (n_data x) (n_bottom x) (n_info x) (n_main x) (n_ignore x) v (n_fstart x) (n_fdone x) (n_win x) (n_block x).
Definition set_n_fstart (v : bool) (x : node) : node :=
  mknode (n_self x) (n_start x) (n_magic x) (n_num x) (n_arg x) (n_data x) (n_bottom x) (n_info x) (n_main x) (n_ignore x) (n_appl x) v (n_fdone x) (n_win x) (n_block x).
Definition set_n_fdone (v : bool) (x : node) : node :=
  mknode (n_self x) (n_start x) (n_magic x) (n_num x) (n_arg x) (n_data x) (n_bottom x) (n_info x) (n_main x) (n_ignore x) (n_appl x) (n_fstart x) v (n_win x) (n_block x).
Definition set_n_win (v : bool) (x : node) : node :=
  mknode (n_self x) (n_start x) (n_magic x) (n_num x) (n_arg x) (n_data x) (n_bottom x) (n_info x) (n_main x) (n_ignore x) (n_appl x) (n_fstart x) (n_fdone x) v (n_block x).
Definition set_n_block (v : bool) (x : node) : node :=
  mknode (n_self x) (n_start x) (n_magic x) (n_num x) (n_arg x) (n_data x) (n_bottom x) (n_info x) (n_main x) (n_ignore x) (n_appl x) (n_fstart x) (n_fdone x) (n_win x) v.

(** memset(tn, 0, sizeof(struct monitor_thread_node)). *)
Definition node0 : node :=
  mknode 0 0 false 0 0 0 0 None false false false false false false false.
(** 396-397: a zeroed node with its magic number and tid -1. *)
Definition node_made : node := set_n_num (-1) (set_n_magic true node0).
(** main.c 176-179 (early_init). *)
Definition node_main : node := set_n_main true (set_n_num 0 (set_n_magic true node0)).
Definition MAIN_TN : Z := 0.

(** ** Global variables, main.c 142-148 and pthread.c 185-206 *)

Record glob := mkglob {
  g_heap : Z -> node;  (* the thread nodes; 0 is monitor_main_tn *)
  g_list : list Z;  (* monitor_thread_list *)
  g_free : list Z;  (* monitor_free_list *)
  g_chunk : Z;  (* monitor_tn_array: which array (0: monitor_init_tn_array) *)
  g_pos : Z;  (* monitor_tn_array_pos *)
  g_chunks : Z;  (* number of arrays that exist (malloc) *)
  g_num : Z;  (* monitor_thread_num *)
  g_inexit : bool;  (* monitor_in_exit_cleanup *)
  g_used : bool;  (* monitor_has_used_threads *)
  g_support : bool;  (* monitor_thread_support_done *)
  g_ftdone : bool;  (* monitor_fini_thread_done *)
  g_shoot : bool;  (* shootdown handler installed *)
  g_lock : option Z;  (* monitor_thread_lock: the thread that took it *)
  g_initp : bool;  (* monitor_init_process_called *)
  g_libonce : bool;  (* monitor_has_run_begin_library *)
  g_cookie : bool;  (* monitor_end_process_cookie *)
  g_pdone : bool;  (* monitor_fini_process_done *)
  g_libdone : bool;  (* monitor_fini_library_called *)
  g_dtor : bool;  (* the C library has run the destructor *)
  g_mti : Z -> Z * Z;  (* thread info of each pthread_create call: start routine, return address *)
  g_calls : Z;  (* number of pthread_create calls *)
  g_bad : bool;  (* a list macro was applied to a node outside its precondition (memory unsafe) *)
  g_dead : bool  (* the process has ended *)
}.

Definition set_g_heap (v : Z -> node) (x : glob) : glob :=
  mkglob v (g_list x) (g_free x) (g_chunk x) (g_pos x) (g_chunks x) (g_num x) (g_inexit x) (g_used x) (g_support x) (g_ftdone x) (g_shoot x) (g_lock x) (g_initp x) (g_libonce x) (g_cookie x) (g_pdone x) (g_libdone x) (g_dtor x) (g_mti x) (g_calls x) (g_bad x) (g_dead x).
Definition set_g_list (v : list Z) (x : glob) : glob :=
  mkglob (g_heap x) v (g_free x) (g_chunk x) (g_pos x) (g_chunks x) (g_num x) (g_inexit x) (g_used x) (g_support x) (g_ftdone x) (g_shoot x) (g_lock x) (g_initp x) (g_libonce x) (g_cookie x) (g_pdone x) (g_libdone x) (g_dtor x) (g_mti x) (g_calls x) (g_bad x) (g_dead x).
Definition set_g_free (v : list Z) (x : glob) : glob :=
  mkglob (g_heap x) (g_list x) v (g_chunk x) (g_pos x) (g_chunks x) (g_num x) (g_inexit x) (g_used x) (g_support x) (g_ftdone x) (g_shoot x) (g_lock x) (g_initp x) (g_libonce x) (g_cookie x) (g_pdone x) (g_libdone x) (g_dtor x) (g_mti x) (g_calls x) (g_bad x) (g_dead x).
Definition set_g_chunk (v : Z) (x : glob) : glob :=
  mkglob (g_heap x) (g_list x) (g_free x) v (g_pos x) (g_chunks x) (g_num x) (g_inexit x) (g_used x) (g_support x) (g_ftdone x) (g_shoot x) (g_lock x) (g_initp x) (g_libonce x) (g_cookie x) (g_pdone x) (g_libdone x) (g_dtor x) (g_mti x) (g_calls x) (g_bad x) (g_dead x).
Definition set_g_pos (v : Z) (x : glob) : glob :=
  mkglob (g_heap x) (g_list x) (g_free x) (g_chunk x) v (g_chunks x) (g_num x) (g_inexit x) (g_used x) (g_support x) (g_ftdone x) (g_shoot x) (g_lock x) (g_initp x) (g_libonce x) (g_cookie x) (g_pdone x) (g_libdone x) (g_dtor x) (g_mti x) (g_calls x) (g_bad x) (g_dead x).
Definition set_g_chunks (v : Z) (x : glob) : glob :=
  mkglob (g_heap x) (g_list x) (g_free x) (g_chunk x) (g_pos x) v (g_num x) (g_inexit x) (g_used x) (g_support x) (g_ftdone x) (g_shoot x) (g_lock x) (g_initp x) (g_libonce x) (g_cookie x) (g_pdone x) (g_libdone x) (g_dtor x) (g_mti x) (g_calls x) (g_bad x) (g_dead x).
Definition set_g_num (v : Z) (x : glob) : glob :=
  mkglob (g_heap x) (g_list x) (g_free x) (g_chunk x) (g_pos x) (g_chunks x) v (g_inexit x) (g_used x) (g_support x) (g_ftdone x) (g_shoot x) (g_lock x) (g_initp x) (g_libonce x) (g_cookie x) (g_pdone x) (g_libdone x) (g_dtor x) (g_mti x) (g_calls x) (g_bad x) (g_dead x).
Definition set_g_inexit (v : bool) (x : glob) : glob :=
  mkglob (g_heap x) (g_list x) (g_free x) (g_chunk x) (g_pos x) (g_chunks x) (g_num x) v (g_used x) (g_support x) (g_ftdone x) (g_shoot x) (g_lock x) (g_initp x) (g_libonce x) (g_cookie x) (g_pdone x) (g_libdone x) (g_dtor x) (g_mti x) (g_calls x) (g_bad x) (g_dead x).
Definition set_g_used (v : bool) (x : glob) : glob :=
  mkglob (g_heap x) (g_list x) (g_free x) (g_chunk x) (g_pos x) (g_chunks x) (g_num x) (g_inexit x) v (g_support x) (g_ftdone x) (g_shoot x) (g_lock x) (g_initp x) (g_libonce x) (g_cookie x) (g_pdone x) (g_libdone x) (g_dtor x) (g_mti x) (g_calls x) (g_bad x) (g_dead x).
Definition set_g_support (v : bool) (x : glob) : glob :=
  mkglob (g_heap x) (g_list x) (g_free x) (g_chunk x) (g_pos x) (g_chunks x) (g_num x) (g_inexit x) (g_used x) v (g_ftdone x) (g_shoot x) (g_lock x) (g_initp x) (g_libonce x) (g_cookie x) (g_pdone x) (g_libdone x) (g_dtor x) (g_mti x) (g_calls x) (g_bad x) (g_dead x).
Definition set_g_ftdone (v : bool) (x : glob) : glob :=
  mkglob (g_heap x) (g_list x) (g_free x) (g_chunk x) (g_pos x) (g_chunks x) (g_num x) (g_inexit x) (g_used x) (g_support x) v (g_shoot x) (g_lock x) (g_initp x) (g_libonce x) (g_cookie x) (g_pdone x) (g_libdone x) (g_dtor x) (g_mti x) (g_calls x) (g_bad x) (g_dead x).
Definition set_g_shoot (v : bool) (x : glob) : glob :=
  mkglob (g_heap x) (g_list x) (g_free x) (g_chunk x) (g_pos x) (g_chunks x) (g_num x) (g_inexit x) (g_used x) (g_support x) (g_ftdone x) v (g_lock x) (g_initp x) (g_libonce x) (g_cookie x) (g_pdone x) (g_libdone x) (g_dtor x) (g_mti x) (g_calls x) (g_bad x) (g_dead x).
Definition set_g_lock (v : option Z) (x : glob) : glob :=
  mkglob (g_heap x) (g_list x) (g_free x) (g_chunk x) (g_pos x) (g_chunks x) (g_num x) (g_inexit x) (g_used x) (g_support x) (g_ftdone x) (g_shoot x) v (g_initp x) (g_libonce x) (g_cookie x) (g_pdone x) (g_libdone x) (g_dtor x) (g_mti x) (g_calls x) (g_bad x) (g_dead x).
Definition set_g_initp (v : bool) (x : glob) : glob :=
  mkglob (g_heap x) (g_list x) (g_free x) (g_chunk x) (g_pos x) (g_chunks x) (g_num x) (g_inexit x) (g_used x) (g_support x) (g_ftdone x) (g_shoot x) (g_lock x) v (g_libonce x) (g_cookie x) (g_pdone x) (g_libdone x) (g_dtor x) (g_mti x) (g_calls x) (g_bad x) (g_dead x).
Definition set_g_libonce (v : bool) (x : glob) : glob :=
  mkglob (g_heap x) (g_list x) (g_free x) (g_chunk x) (g_pos x) (g_chunks x) (g_num x) (g_inexit x) (g_used x) (g_support x) (g_ftdone x) (g_shoot x) (g_lock x) (g_initp x) v (g_cookie x) (g_pdone x) (g_libdone x) (g_dtor x) (g_mti x) (g_calls x) (g_bad x) (g_dead x).
Definition set_g_cookie (v : bool) (x : glob) : glob :=
  mkglob (g_heap x) (g_list x) (g_free x) (g_chunk x) (g_pos x) (g_chunks x) (g_num x) (g_inexit x) (g_used x) (g_support x) (g_ftdone x) (g_shoot x) (g_lock x) (g_initp x) (g_libonce x) v (g_pdone x) (g_libdone x) (g_dtor x) (g_mti x) (g_calls x) (g_bad x) (g_dead x).
Definition set_g_pdone (v : bool) (x : glob) : glob :=
  mkglob (g_heap x) (g_list x) (g_free x) (g_chunk x) (g_pos x) (g_chunks x) (g_num x) (g_inexit x) (g_used x) (g_support x) (g_ftdone x) (g_shoot x) (g_lock x) (g_initp x) (g_libonce x) (g_cookie x) v (g_libdone x) (g_dtor x) (g_mti x) (g_calls x) (g_bad x) (g_dead x).
Definition set_g_libdone (v : bool) (x : glob) : glob :=
  mkglob (g_heap x) (g_list x) (g_free x) (g_chunk x) (g_pos x) (g_chunks x) (g_num x) (g_inexit x) (g_used x) (g_support x) (g_ftdone x) (g_shoot x) (g_lock x) (g_initp x) (g_libonce x) (g_cookie x) (g_pdone x) v (g_dtor x) (g_mti x) (g_calls x) (g_bad x) (g_dead x).
Definition set_g_dtor (v : bool) (x : glob) : glob :=
  mkglob (g_heap x) (g_list x) (g_free x) (g_chunk x) (g_pos x) (g_chunks x) (g_num x) (g_inexit x) (g_used x) (g_support x) (g_ftdone x) (g_shoot x) (g_lock x) (g_initp x) (g_libonce x) (g_cookie x) (g_pdone x) (g_libdone x) v (g_mti x) (g_calls x) (g_bad x) (g_dead x).
Definition set_g_mti (v : Z -> Z * Z) (x : glob) : glob :=
  mkglob (g_heap x) (g_list x) (g_free x) (g_chunk x) (g_pos x) (g_chunks x) (g_num x) (g_inexit x) (g_used x) (g_support x) (g_ftdone x) (g_shoot x) (g_lock x) (g_initp x) (g_libonce x) (g_cookie x) (g_pdone x) (g_libdone x) (g_dtor x) v (g_calls x) (g_bad x) (g_dead x).
Definition set_g_calls (v : Z) (x : glob) : glob :=
  mkglob (g_heap x) (g_list x) (g_free x) (g_chunk x) (g_pos x) (g_chunks x) (g_num x) (g_inexit x) (g_used x) (g_support x) (g_ftdone x) (g_shoot x) (g_lock x) (g_initp x) (g_libonce x) (g_cookie x) (g_pdone x) (g_libdone x) (g_dtor x) (g_mti x) v (g_bad x) (g_dead x).
Definition set_g_bad (v : bool) (x : glob) : glob :=
  mkglob (g_heap x) (g_list x) (g_free x) (g_chunk x) (g_pos x) (g_chunks x) (g_num x) (g_inexit x) (g_used x) (g_support x) (g_ftdone x) (g_shoot x) (g_lock x) (g_initp x) (g_libonce x) (g_cookie x) (g_pdone x) (g_libdone x) (g_dtor x) (g_mti x) (g_calls x) v (g_dead x).
Definition set_g_dead (v : bool) (x : glob) : glob :=
  mkglob (g_heap x) (g_list x) (g_free x) (g_chunk x) (g_pos x) (g_chunks x) (g_num x) (g_inexit x) (g_used x) (g_support x) (g_ftdone x) (g_shoot x) (g_lock x) (g_initp x) (g_libonce x) (g_cookie x) (g_pdone x) (g_libdone x) (g_dtor x) (g_mti x) (g_calls x) (g_bad x) v.

(** Change one node. *)
Definition set_node (n : Z) (f : node -> node) (g : glob) : glob :=
  set_g_heap (upd (g_heap g) n (f (g_heap g n))) g.
Definition nd (g : glob) (n : Z) : node := g_heap g n.

(** monitor.h 45, 47; pthread.c 86. *)
Definition EXIT_NORMAL : Z := 1.
Definition EXIT_SIGNAL : Z := 2.
Definition EXIT_EXEC : Z := 3.
Definition IGNORE_NEW_THREAD : Z := -1.
Definition TN_ARRAY_SIZE : Z := 600.

(** The k-th node of an array. *)
Definition array_node (chunk pos : Z) : Z := chunk * TN_ARRAY_SIZE + pos + 1.

(** The list macros of queue.h on Coq lists, with their preconditions. *)
Definition memb (n : Z) (l : list Z) : bool := existsb (Z.eqb n) l.
Definition without (n : Z) (l : list Z) : list Z := filter (fun x => negb (x =? n)) l.

(** ** What the client sees: its callbacks *)

Inductive cb :=
| CbInitLibrary | CbFiniLibrary
| CbStartMain | CbAtMain
| CbInitProcess (data : Z)
| CbBeginExit (how : Z)
| CbFiniProcess (how data : Z)
| CbThreadSupport
| CbPreCreate (call : Z)            (* the pthread_create call it belongs to *)
| CbResetStack
| CbPostCreate (call data : Z)
| CbInitThread (num data : Z)
| CbFiniThread (data : Z)
| CbPreFork
| CbPostFork (data : Z).

(** One call of pthread_create: its number, start routine, argument and return
    address. *)
Record creq := mkcreq { q_id : Z; q_start : Z; q_arg : Z; q_ra : Z }.

(** The locals of the shootdown loop, 513-519. *)
Record scan := mkscan {
  sc_old : bool;       (* old_state *)
  sc_my : option Z;    (* my_tn *)
  sc_last : Z;         (* last_started *)
  sc_st : Z; sc_un : Z; sc_uf : Z (* num_started, num_unstarted, num_unfinished *)
}.

(** What the library does when a callback returns (with its value, if any). *)
Inductive cont :=
| KNone
| KInitProcess                              (* main.c 282 *)
| KBeginExit (how : Z)                      (* main.c 318 *)
| KFiniProcess                              (* main.c 342 *)
| KFiniLibrary                              (* main.c 248 *)
| KPreCreate (q : creq) (my : option Z)     (* pthread.c 1127 *)
| KInitThread (n : Z)                       (* pthread.c 986 *)
| KFiniCleanup (n : Z)                      (* pthread.c 932 *)
| KFiniHandler (n : Z) (old : bool)         (* pthread.c 473 *)
| KFiniOwn (l : scan) (n : Z)               (* pthread.c 630 *)
| KPreFork.                                 (* fork.c 315 *)

(** Callbacks issued without locals and whose return only resumes the code below. *)
Inductive plain := PStartMain | PAtMain | PThreadSupport | PResetStack | PPostFork (d : Z).
Definition plain_cb (p : plain) : cb :=
  match p with
  | PStartMain => CbStartMain | PAtMain => CbAtMain | PThreadSupport => CbThreadSupport
  | PResetStack => CbResetStack | PPostFork d => CbPostFork d
  end.

(** Entry points of the library that the application or the client calls. *)
Inductive query := QNum | QData | QStart | QBottom | QThreaded.
Inductive api :=
| AConstructor                      (* main.c 644-649, by the dynamic loader *)
| AInitialize                       (* monitor_initialize *)
| AExit | AUExit                    (* exit; _exit and _Exit *)
| ARealExit                         (* monitor_real_exit *)
| ACreate (start arg ra : Z)        (* pthread_create *)
| APthreadExit
| AFork                             (* fork, vfork *)
| ARealFork                         (* monitor_real_fork *)
| AExec (expected : bool)           (* the exec family; [expected]: is_exec *)
| AQuery (q : query)
| AInfo                             (* monitor_get_new_thread_info *)
| ABlock | AUnblock                 (* monitor_(un)block_shootdown *)
| ADisable | AEnable                (* monitor_(en/dis)able_new_threads *)
| ABroadcast (sig : Z).             (* monitor_broadcast_signal *)

(** Which application code runs in an open frame. *)
Inductive acode :=
| AppPre        (* library constructors and the loader, before main *)
| AppMain
| AppStart      (* a thread's start routine *)
| AppHandler    (* a signal handler of the application or client *)
| AppAtexit     (* atexit handlers, inside the real exit *)
| AppTsd.       (* thread-specific-data destructors, after the thread function *)

(** ** Frames: where a thread is *)

(** Places in monitor_begin_thread, 942-998, and monitor_link_thread_node. *)
Inductive btpc :=
| BTSelf | BTTsd                    (* 968-970; 971 *)
| BTLock | BTChk                    (* 409; 411 *)
| BTRead | BTNum (x : Z) | BTIns    (* 415 (read); 415 (write); 416 *)
| BTUnlock | BTRefuse               (* 418; 412 *)
| BTInit | BTStore (v : Z)          (* 986: the call; the assignment *)
| BTStarted | BTCall | BTPop.       (* 988; 990; 993 *)

(** Places in monitor_pthread_cleanup_routine, 904-935, and
    monitor_unlink_thread_node, 423-439. *)
Inductive clpc :=
| CLChk | CLDone | CLSet | CLCall | CLEnd        (* 913-921; 922; 928; 931; 932 *)
| CLLock | CLExit | CLMark1 | CLMark2            (* 425; 430; 431; 432 *)
| CLRemove | CLZero | CLFree | CLUnlock.         (* 434; 435; 436; 438 *)

Inductive frame :=
(* open code *)
| FApp (a : acode)
| FCb (c : cb) (k : cont)
| FCall (p : plain)                 (* about to issue the callback *)
| FRun (start arg : Z)              (* about to run a thread's start routine *)
(* main.c 503-537 *)
| FMain
(* begin_library_fcn, end_library_fcn, 227-249 *)
| FBeginLib
| FEndLib | FFiniLib | FEndLibSet
| FEndLibDyn                        (* #ifdef MONITOR_DYNAMIC end_library_fcn *)
(* begin_process_fcn, 255-285 *)
| FBPCas (data : Z) (is_fork : bool)
| FBPReset (data : Z) | FBPLib (data : Z) | FBPDone (data : Z) | FBPInit (data : Z)
| FBPStore (v : Z)
(* end_process_fcn, 300-344 *)
| FEPGet (how : Z) | FEPCas (how : Z) (tn : option Z)
| FEPWin (how : Z) (tn : option Z) | FEPBegin (how : Z) | FEPFini (how : Z)
| FEPLose (tn : option Z) | FEPWait | FEPDone
(* the real exit, _exit, exec, raise *)
| FRealExit | FDtor | FDie | FUExit | FExec (expected : bool) | FSigEnd
(* thread_shootdown, 511-633 *)
| FSUsed | FSLock (old : bool) | FSSet (old : bool) | FSUnlock (old : bool)
| FSInstall (old : bool) | FSMain (old : bool)
| FSPass (l : scan)
| FSNode (l : scan) (rest : list Z)
| FSStarted (l : scan) (n : Z) (rest : list Z)
| FSDone (l : scan) (n : Z) (rest : list Z)
| FSEnd (l : scan) | FSOwn (l : scan) | FSOwnCall (l : scan) (n : Z)
| FSOwnDone (l : scan) (n : Z) | FSRestore (old : bool)
(* shootdown_handler, 441-475, and the shootdown branch of sigwait_helper *)
| FHGet | FHChk (n : Z) | FHDone (n : Z) | FHSet (n : Z)
| FHCall (n : Z) (old : bool) | FHEnd (n : Z) (old : bool)
| FWGet
(* the created thread *)
| FBT (p : btpc) (n : Z)
| FClean (p : clpc) (n : Z)
(* pthread_create, 1058-1177, and make_thread_node, 365-400 *)
| FPCInit (q : creq) | FPCInfo (q : creq) | FPCIgn (q : creq) (my : option Z)
| FPCSup (q : creq) (my : option Z) | FPCSupSet (q : creq) (my : option Z)
| FPCPre (q : creq) (my : option Z) | FPCGot (q : creq) (my : option Z) (d : Z)
| FPCReal0 (q : creq)
| FPCLock (q : creq) (my : option Z) (d : Z)
| FPCPick (q : creq) (my : option Z) (d : Z)
| FPCTake (q : creq) (my : option Z) (d n : Z)
| FPCArray (q : creq) (my : option Z) (d : Z)
| FPCInc (q : creq) (my : option Z) (d n : Z)
| FPCZero (q : creq) (my : option Z) (d n : Z)
| FPCUnlock (q : creq) (my : option Z) (d n : Z)
| FPCFill (q : creq) (my : option Z) (d n : Z)
| FPCReal (q : creq) (my : option Z) (n : Z)
| FPCPost (q : creq) (my : option Z) (n : Z)
| FPCEnd (q : creq) (my : option Z) | FPCRet (q : creq)
(* pthread_exit, 1184-1200 *)
| FPExit | FUnwind
(* fork, real_fork *)
| FPreFork | FForkGo (d : Z) | FForkRet | FRForkGo | FRFReset
(* queries and flags, 644-891 *)
| FQuery (q : query) | FInfo | FBlock | FBlock2 | FUnblock | FIgnore (b : bool)
(* broadcast_signal, 764-793 *)
| FBc (sig : Z) | FBcTry (sig : Z) | FBcFirst (sig : Z) | FBcNode (sig : Z) (rest : list Z)
| FBcMain (sig : Z) | FBcUnlock.

(** ** Events: the observable history, newest first *)

Inductive event :=
| ECall (t : Z) (c : cb)            (* the callback is issued in thread t *)
| ERet (t : Z) (c : cb) (v : Z)     (* and returns v *)
| EExit (t : Z) (how : Z)           (* t enters end_process *)
| EWin (t : Z)                      (* t is the one that runs the exit callbacks *)
| EPast (t : Z)                     (* t goes on to the real exit, exec or raise *)
| EDead (t : Z)                     (* the process ends *)
| ECreateCall (t : Z) (q : creq)    (* t calls pthread_create *)
| ECreate (t : Z) (q : creq) (u : Z) (monitored : bool) (* the real create made thread u *)
| ECreateFail (t : Z) (q : creq) (monitored : bool)
| ECreateRet (t : Z) (q : creq)     (* pthread_create returns *)
| EReg (t num : Z)                  (* t is registered under this number *)
| EStart (t start arg : Z)          (* the start routine runs *)
| EEnd (t : Z)                      (* t has terminated *)
| EFreeze (t : Z)                   (* exit cleanup has begun *)
| EPass (t : Z)                     (* one pass over the thread list begins *)
| EGiveUp (t : Z)                   (* the shootdown timeout *)
| EShoot (t u : Z)                  (* shootdown signal sent to u *)
| EDeliver (t : Z)                  (* and delivered, as a signal or by sigwait *)
| EFork (t : Z)                     (* what follows happens in the forked child *)
| EForkRet (t : Z)                  (* fork() or vfork() returns 0 to the application *)
| EQuery (t : Z) (q : query) (r : Z)
| EInfo (t : Z) (r : option (Z * (Z * Z))) (* call, (start routine, return address) *)
| EBlock (t : Z) (r : bool) | EUnblock (t : Z) | EIgnore (t : Z) (b : bool)
| EBcast (t sig : Z)                (* broadcast_signal is called *)
| EKill (t u sig : Z)               (* signal sent to u *)
| EBcastRet (t : Z) (r : Z).

(** ** Choices *)
Inductive choice :=
| CStep
| CCall (a : api)
| CRet (v : Z)
| COk | CFail            (* the real pthread_create, fork, exec *)
| CChild                 (* continue in the child *)
| CGiveUp
| CSignal                (* a signal whose handler is application or client code *)
| CFatal                 (* a signal whose default action ends the process *)
| CShoot                 (* delivery of a pending shootdown signal *)
| CSync                  (* sigwait returns the pending shootdown signal *)
| CCancel.

(** ** State *)

Record thread := mkth {
  th_stack : list frame;
  th_tsd : option Z;     (* pthread_getspecific(monitor_pthread_key) *)
  th_live : bool;
  th_nc : bool;          (* cancellation disabled *)
  th_pend : bool         (* shootdown signal pending *)
}.
Definition th0 : thread := mkth [] None false false false.

Record state := mkst {
  s_g : glob;
  s_th : Z -> thread;
  s_next : Z;            (* the next thread id *)
  s_tr : list event
}.

(** ** Library functions that are one step *)

(** monitor_get_tn, 222-238. *)
Definition get_tn (g : glob) (tsd : option Z) : option Z :=
  if g_used g
  then match tsd with
       | Some n => if n_magic (nd g n) then Some n else None
       | None => None
       end
  else Some MAIN_TN.

(** monitor_thread_list_init, 280-314, then 1085.  One step: no other thread
    exists (1069-1070).  The thread-specific data of the caller becomes main_tn. *)
Definition list_init (t : Z) (g : glob) : glob :=
  set_g_used true
    (set_node MAIN_TN (set_n_self t)
      (set_g_pos 0 (set_g_free [] (set_g_list [] g)))).

(** monitor_reset_thread_list, 323-359.  One step: the child has one thread.
    The caller's thread-specific data is gone with the key. *)
Definition reset_list (tsd : option Z) (g : glob) : glob :=
  if g_used g
  then
    let g1 := match get_tn g tsd with
              | Some n =>
                  if n =? MAIN_TN then g
                  else set_node MAIN_TN
                         (fun _ => set_n_bottom (n_bottom (nd g n))
                                     (set_n_data (n_data (nd g n)) node_main)) g
              | None => g
              end in
    set_g_used false (set_g_pos 0 (set_g_free [] (set_g_list [] g1)))
  else g.

Definition list_insert (n : Z) (l : list Z) (set : list Z -> glob -> glob) (g : glob) : glob :=
  set (n :: l) (if memb n l then set_g_bad true g else g).
Definition list_delete (n : Z) (l : list Z) (set : list Z -> glob -> glob) (g : glob) : glob :=
  set (without n l) (if memb n l then g else set_g_bad true g).

(** ** One step of the top frame *)

(** The frames that replace the top frame, the thread's new TSD and cancel state,
    events (newest first), and at most one of: a new thread, a thread that gets
    the shootdown signal, becoming the forked child. *)
Record eff := mkeff {
  e_g : glob; e_fr : list frame; e_tsd : option Z; e_nc : bool; e_ev : list event;
  e_new : option (list frame); e_kill : option Z; e_child : bool
}.

(** What an entry point pushes.  [k]: the number of the next pthread_create. *)
Definition api_frames (a : api) (k : Z) : list frame :=
  match a with
  | AConstructor => [FBeginLib]
  | AInitialize => [FBPCas 0 false]
  | AExit => [FEPGet EXIT_NORMAL; FRealExit]                     (* 590-601 *)
  | AUExit => [FEPGet EXIT_NORMAL; FEndLibDyn; FUExit]           (* 607-637 *)
  | ARealExit => [FDie]                                          (* 433-438 *)
  | ACreate s a r => [FPCInit (mkcreq k s a r)]
  | APthreadExit => [FPExit]
  | AFork => [FPreFork]                          (* fork.c 312-313 *)
  | ARealFork => [FRForkGo]
  | AExec true => [FEPGet EXIT_EXEC; FEndLibDyn; FExec true]          (* fork.c 365-371 *)
  | AExec false => [FExec false]
  | AQuery q => [FQuery q]
  | AInfo => [FInfo]
  | ABlock => [FBlock]
  | AUnblock => [FUnblock]
  | ADisable => [FIgnore true]
  | AEnable => [FIgnore false]
  | ABroadcast s => [FBc s]
  end.

(** The value of a callback goes to its continuation. *)
Definition resume (k : cont) (v : Z) : list frame :=
  match k with
  | KNone => []
  | KInitProcess => [FBPStore v]
  | KBeginExit how => [FSUsed; FEPFini how]
  | KFiniProcess => [FEPDone]
  | KFiniLibrary => [FEndLibSet]
  | KPreCreate q my => [FPCGot q my v]
  | KInitThread n => [FBT (BTStore v) n]
  | KFiniCleanup n => [FClean CLEnd n]
  | KFiniHandler n old => [FHEnd n old]
  | KFiniOwn l n => [FSOwnDone l n]
  | KPreFork => [FForkGo v]
  end.

(** Answers of the queries, 644-716. *)
Definition answer (g : glob) (tsd : option Z) (q : query) : Z :=
  match q with
  | QThreaded => if g_used g then 1 else 0
  | QNum => match get_tn g tsd with Some n => n_num (nd g n) | None => -1 end
  | QData => match get_tn g tsd with Some n => n_data (nd g n) | None => 0 end
  | QStart => match get_tn g tsd with Some n => n_start (nd g n) | None => 0 end
  | QBottom => match get_tn g tsd with Some n => n_bottom (nd g n) | None => 0 end
  end.

Section Step.
  (** [dyn]: MONITOR_DYNAMIC.  The thread, the id of the next thread, the globals,
      the thread's TSD and cancel state. *)
  Context (dyn : bool) (t u : Z) (g : glob) (tsd : option Z) (nc : bool).

  Definition ret (g : glob) (fr : list frame) (ev : list event) : option eff :=
    Some (mkeff g fr tsd nc ev None None false).
  Definition go (fr : list frame) : option eff := ret g fr [].
  Definition call (g : glob) (c : cb) (k : cont) (fr : list frame) : option eff :=
    ret g (FCb c k :: fr) [ECall t c].
  Definition cancel (b : bool) (g : glob) (fr : list frame) : option eff :=
    Some (mkeff g fr tsd b [] None None false).

  (** monitor_begin_thread, 942-998, with monitor_link_thread_node, 407-420. *)
  Definition bt_step (p : btpc) (n : Z) : option eff :=
    match p with
    | BTSelf => ret (set_node n (fun x => set_n_bottom t (set_n_self t x)) g) [FBT BTTsd n] []
    | BTTsd => Some (mkeff g [FBT BTLock n] (Some n) nc [] None None false)
    | BTLock => match g_lock g with
                | None => ret (set_g_lock (Some t) g) [FBT BTChk n] []
                | Some _ => None
                end
    | BTChk => go [FBT (if g_inexit g then BTRefuse else BTRead) n]
    | BTRead => go [FBT (BTNum (g_num g)) n]
    | BTNum x => ret (set_node n (set_n_num (x + 1)) (set_g_num (x + 1) g))
                     [FBT BTIns n] [EReg t (x + 1)]
    | BTIns => ret (list_insert n (g_list g) set_g_list g) [FBT BTUnlock n] []
    | BTUnlock => ret (set_g_lock None g) [FBT BTInit n] []
    | BTRefuse => ret (set_g_lock None g) [] []
    | BTInit => call g (CbInitThread (n_num (nd g n)) (n_data (nd g n))) (KInitThread n) []
    | BTStore v => ret (set_node n (set_n_data v) g) [FBT BTStarted n] []
    | BTStarted => ret (set_node n (set_n_appl true) g) [FBT BTCall n] []
    | BTCall => go [FRun (n_start (nd g n)) (n_arg (nd g n)); FBT BTPop n]
    | BTPop => go [FClean CLChk n]
    end.

  (** monitor_pthread_cleanup_routine, 904-935, and monitor_unlink_thread_node,
      423-439. *)
  Definition cl_step (p : clpc) (n : Z) : option eff :=
    match p with
    | CLChk =>
        let x := nd g n in
        if negb (n_magic x) || negb (n_appl x) || n_fstart x || n_block x
        then go [] else go [FClean CLDone n]
    | CLDone => go (if g_ftdone g then [] else [FClean CLSet n])
    | CLSet => ret (set_node n (set_n_fstart true) g) [FClean CLCall n] []
    | CLCall => call g (CbFiniThread (n_data (nd g n))) (KFiniCleanup n) []
    | CLEnd => ret (set_node n (set_n_fdone true) g) [FClean CLLock n] []
    | CLLock => match g_lock g with
                | None => ret (set_g_lock (Some t) g) [FClean CLExit n] []
                | Some _ => None
                end
    | CLExit => go [FClean (if g_inexit g then CLMark1 else CLRemove) n]
    | CLMark1 => ret (set_node n (set_n_fstart true) g) [FClean CLMark2 n] []
    | CLMark2 => ret (set_node n (set_n_fdone true) g) [FClean CLUnlock n] []
    | CLRemove => ret (list_delete n (g_list g) set_g_list g) [FClean CLZero n] []
    | CLZero => ret (set_node n (fun _ => node0) g) [FClean CLFree n] []
    | CLFree => ret (list_insert n (g_free g) set_g_free g) [FClean CLUnlock n] []
    | CLUnlock => ret (set_g_lock None g) [] []
    end.

  (** Shared by all frames: one step that needs no choice. *)
  Definition auto_step (f : frame) : option eff :=
    match f with
    | FApp _ | FCb _ _ => None
    | FCall p => call g (plain_cb p) KNone []
    | FRun s a => ret g [FApp AppStart] [EStart t s a]
    (* monitor_main, 503-537; 515 stores the stack bottom; returning from it is
       exit() in the C library *)
    | FMain => ret (set_node MAIN_TN (set_n_bottom t) g)
                   [FBPCas 0 false; FCall PAtMain; FApp AppMain;
                    FEPGet EXIT_NORMAL; FRealExit] []
    (* begin_library_fcn, 227-238.  The run-once test and set are one step: a signal
       handler that enters the library between the two is not considered *)
    | FBeginLib => if g_libonce g then go []
                   else call (set_g_libonce true g) CbInitLibrary KNone []
    (* end_library_fcn, 240-249 *)
    | FEndLibDyn => go (if dyn then [FEndLib] else [])
    | FEndLib => if g_libdone g then go [] else go [FFiniLib]
    | FFiniLib => call g CbFiniLibrary KFiniLibrary []
    | FEndLibSet => ret (set_g_libdone true g) [] []
    (* begin_process_fcn, 255-285 *)
    | FBPCas d isf =>
        ret (set_g_initp true g)
            (if isf then [FBPReset d] else if g_initp g then [] else [FBPLib d]) []
    | FBPReset d =>
        Some (mkeff (set_node MAIN_TN (set_n_data d) (reset_list tsd g)) [FBPLib d]
                    (if g_used g then None else tsd) nc [] None None false)
    | FBPLib d => ret (set_g_libdone false g) [FBPDone d] []
    | FBPDone d => ret (set_g_pdone false g) [FBeginLib; FBPInit d] []
    | FBPInit d => call g (CbInitProcess d) KInitProcess []
    | FBPStore v => ret (set_node MAIN_TN (set_n_data v) g) [] []
    (* end_process_fcn, 300-344 *)
    | FEPGet how => ret g [FEPCas how (get_tn g tsd)] [EExit t how]
    | FEPCas how tn =>
        if g_cookie g then go [FEPLose tn]
        else ret (set_g_cookie true g) [FEPWin how tn] [EWin t]
    | FEPWin how tn =>
        ret (match tn with Some n => set_node n (set_n_win true) g | None => g end)
            [FEPBegin how] []
    | FEPBegin how => call g (CbBeginExit how) (KBeginExit how) []
    | FEPFini how => call g (CbFiniProcess how (n_data (nd g MAIN_TN))) KFiniProcess []
    | FEPLose tn =>
        match tn with
        | Some n => go (if n_win (nd g n) then [FEPDone] else [FEPWait])
        | None => go [FEPWait]
        end
    | FEPWait => if g_pdone g then go [FEPDone] else None
    | FEPDone => ret (set_g_pdone true g) [] []
    (* the real exit runs the atexit handlers and, once, the destructors *)
    | FRealExit => ret g [FApp AppAtexit; FDtor; FDie] [EPast t]
    | FDtor => if dyn && negb (g_dtor g) then ret (set_g_dtor true g) [FEndLib] [] else go []
    | FDie => ret (set_g_dead true g) [] [EDead t]
    | FUExit => ret (set_g_dead true g) [] [EDead t; EPast t]
    (* signal.c 255-264: restore the default action and raise; CRet is the
       mse_noraise return *)
    | FSigEnd => ret (set_g_dead true g) [] [EDead t; EPast t]
    (* thread_shootdown, 511-633 *)
    | FSUsed => if g_used g then cancel true g [FSLock nc] else go []
    | FSLock old => match g_lock g with
                    | None => ret (set_g_lock (Some t) g) [FSSet old] []
                    | Some _ => None
                    end
    | FSSet old => ret (set_g_inexit true g) [FSUnlock old] [EFreeze t]
    | FSUnlock old => ret (set_g_lock None g) [FSInstall old] []
    | FSInstall old => ret (set_g_shoot true g) [FSMain old] []
    (* 553-560: main's flags and its insertion; no lock is held *)
    | FSMain old =>
        let l := mkscan old None 0 0 0 0 in
        if n_self (nd g MAIN_TN) =? t then go [FSPass l]
        else ret (list_insert MAIN_TN (g_list g) set_g_list
                   (set_node MAIN_TN
                     (fun x => set_n_fdone false (set_n_fstart false (set_n_appl true x))) g))
                 [FSPass l] []
    (* 576-583: the list is read once per pass; it does not change any more *)
    | FSPass l => ret g [FSNode (mkscan (sc_old l) (sc_my l) (sc_last l) 0 0 0) (g_list g)] [EPass t]
    | FSNode l [] =>
        (* 603-616 *)
        if sc_uf l =? 0 then go [FSEnd l]
        else if sc_last l <? sc_st l
             then go [FSPass (mkscan (sc_old l) (sc_my l) (sc_st l) 0 0 0)]
             else go [FSPass l]
    | FSNode l (n :: r) =>
        (* 585-589: self, then tn_appl_started *)
        if n_self (nd g n) =? t
        then go [FSNode (mkscan (sc_old l) (Some n) (sc_last l) (sc_st l) (sc_un l) (sc_uf l)) r]
        else if n_appl (nd g n) then go [FSStarted l n r] else go [FSNode l r]
    | FSStarted l n r =>
        (* 590-595: tn_fini_started, else pthread_kill *)
        if n_fstart (nd g n)
        then go [FSDone (mkscan (sc_old l) (sc_my l) (sc_last l) (sc_st l + 1) (sc_un l) (sc_uf l)) n r]
        else Some (mkeff g [FSDone (mkscan (sc_old l) (sc_my l) (sc_last l) (sc_st l)
                                           (sc_un l + 1) (sc_uf l)) n r]
                         tsd nc [EShoot t (n_self (nd g n))] None (Some (n_self (nd g n))) false)
    | FSDone l n r =>
        (* 596-599: tn_fini_done *)
        go [FSNode (if n_fdone (nd g n) then l
                    else mkscan (sc_old l) (sc_my l) (sc_last l) (sc_st l) (sc_un l) (sc_uf l + 1)) r]
    | FSEnd l => ret (set_g_ftdone true g) [FSOwn l] []
    (* 624-631: own flags, no other thread writes them *)
    | FSOwn l =>
        match sc_my l with
        | Some n => if n_fstart (nd g n) then go [FSRestore (sc_old l)]
                    else ret (set_node n (set_n_fstart true) g) [FSOwnCall l n] []
        | None => go [FSRestore (sc_old l)]
        end
    | FSOwnCall l n => call g (CbFiniThread (n_data (nd g n))) (KFiniOwn l n) []
    | FSOwnDone l n => ret (set_node n (set_n_fdone true) g) [FSRestore (sc_old l)] []
    | FSRestore old => cancel old g []
    (* shootdown_handler, 441-475 *)
    | FHGet => match tsd with
               | Some n => if n_magic (nd g n) then go [FHChk n] else go []
               | None => go []
               end
    | FHChk n =>
        let x := nd g n in
        if negb (n_appl x) || n_fstart x || n_block x then go [] else go [FHDone n]
    | FHDone n => go (if g_ftdone g then [] else [FHSet n])
    | FHSet n => cancel true (set_node n (set_n_fstart true) g) [FHCall n nc]
    | FHCall n old => call g (CbFiniThread (n_data (nd g n))) (KFiniHandler n old) []
    | FHEnd n old => cancel old (set_node n (set_n_fdone true) g) []
    (* sigwait_helper, 1255-1264 *)
    | FWGet =>
        match get_tn g tsd with
        | Some n =>
            let x := nd g n in
            if g_inexit g && negb (g_ftdone g) && n_appl x && negb (n_fstart x) && negb (n_block x)
            then go [FHSet n] else go []
        | None => go []
        end
    | FBT p n => bt_step p n
    | FClean p n => cl_step p n
    (* pthread_create, 1058-1177 *)
    | FPCInit q =>
        if g_used g then go [FPCInfo q]
        else Some (mkeff (list_init t g) [FPCInfo q] (Some MAIN_TN) nc [] None None false)
    | FPCInfo q =>
        let my := get_tn g tsd in
        ret (match my with Some n => set_node n (set_n_info (Some (q_id q))) g | None => g end)
            [FBPCas 0 false; FPCIgn q my] []
    | FPCIgn q my =>
        match my with
        | None => go [FPCReal0 q]
        | Some n => go (if n_ignore (nd g n) then [FPCReal0 q] else [FPCSup q my])
        end
    | FPCSup q my => go (if g_support g then [FPCPre q my] else [FPCSupSet q my])
    | FPCSupSet q my => ret (set_g_support true g) [FCall PThreadSupport; FPCPre q my] []
    | FPCPre q my => call g (CbPreCreate (q_id q)) (KPreCreate q my) []
    | FPCGot q my d => go (if d =? IGNORE_NEW_THREAD then [FPCReal0 q] else [FPCLock q my d])
    | FPCLock q my d => match g_lock g with
                        | None => ret (set_g_lock (Some t) g) [FPCPick q my d] []
                        | Some _ => None
                        end
    (* make_thread_node, 365-400 *)
    | FPCPick q my d => match g_free g with
                        | n :: _ => go [FPCTake q my d n]
                        | [] => go [FPCArray q my d]
                        end
    | FPCTake q my d n => ret (list_delete n (g_free g) set_g_free g) [FPCZero q my d n] []
    | FPCArray q my d =>
        if g_pos g <? TN_ARRAY_SIZE
        then go [FPCInc q my d (array_node (g_chunk g) (g_pos g))]
        else ret (set_g_chunks (g_chunks g + 1) (set_g_pos 1 (set_g_chunk (g_chunks g) g)))
                 [FPCZero q my d (array_node (g_chunks g) 0)] []
    | FPCInc q my d n => ret (set_g_pos (g_pos g + 1) g) [FPCZero q my d n] []
    | FPCZero q my d n => ret (set_node n (fun _ => node_made) g) [FPCUnlock q my d n] []
    | FPCUnlock q my d n => ret (set_g_lock None g) [FPCFill q my d n] []
    | FPCFill q my d n =>
        ret (set_node n (fun x => set_n_data d (set_n_arg (q_arg q) (set_n_start (q_start q) x))) g)
            [FCall PResetStack; FPCReal q my n] []
    | FPCPost q my n => call g (CbPostCreate (q_id q) (n_data (nd g n))) KNone [FPCEnd q my]
    | FPCEnd q my =>
        ret (match my with Some n => set_node n (set_n_info None) g | None => g end) [FPCRet q] []
    | FPCRet q => ret g [] [ECreateRet t q]
    (* pthread_exit, 1184-1200; FUnwind is the real one *)
    | FPExit =>
        match get_tn g tsd with
        | Some n => go (if n_main (nd g n) then [FEPGet EXIT_NORMAL; FUnwind] else [FUnwind])
        | None => go [FUnwind]
        end
    | FPreFork => call g CbPreFork KPreFork []
    | FForkRet => ret g [] [EForkRet t]
    | FRFReset => Some (mkeff (reset_list tsd g) [] (if g_used g then None else tsd)
                              nc [] None None false)
    (* client support functions, 644-891 *)
    | FQuery q => ret g [] [EQuery t q (answer g tsd q)]
    | FInfo =>
        ret g [] [EInfo t (match get_tn g tsd with
                           | Some n => match n_info (nd g n) with
                                       | Some k => Some (k, g_mti g k)
                                       | None => None
                                       end
                           | None => None
                           end)]
    | FBlock => match get_tn g tsd with
                | Some n => ret (set_node n (set_n_block true) g) [FBlock2] []
                | None => ret g [] [EBlock t false]
                end
    | FBlock2 => ret g [] [EBlock t (g_inexit g)]
    | FUnblock => ret (match get_tn g tsd with
                       | Some n => set_node n (set_n_block false) g | None => g end)
                      [] [EUnblock t]
    | FIgnore b => ret (match get_tn g tsd with
                        | Some n => set_node n (set_n_ignore b) g | None => g end)
                       [] [EIgnore t b]
    (* broadcast_signal, 764-793 *)
    | FBc sig => ret g (if g_used g then [FBcTry sig] else []) 
                     (if g_used g then [EBcast t sig] else [EBcastRet t 0; EBcast t sig])
    | FBcTry sig => match g_lock g with
                    | None => ret (set_g_lock (Some t) g) [FBcFirst sig] []
                    | Some _ => ret g [] [EBcastRet t (-1)]
                    end
    | FBcFirst sig => go [FBcNode sig (g_list g)]
    | FBcNode sig [] => go [FBcMain sig]
    | FBcNode sig (n :: r) =>
        let x := nd g n in
        ret g [FBcNode sig r]
            (if negb (n_self x =? t) && n_appl x && negb (n_fstart x)
             then [EKill t (n_self x) sig] else [])
    | FBcMain sig =>
        ret g [FBcUnlock] (if n_self (nd g MAIN_TN) =? t then []
                           else [EKill t (n_self (nd g MAIN_TN)) sig])
    | FBcUnlock => ret (set_g_lock None g) [] [EBcastRet t 0]
    | FExec _ | FPCReal0 _ | FPCReal _ _ _ | FUnwind | FForkGo _ | FRForkGo => None
    end.

  (** Frames whose step depends on a choice. *)
  Definition frame_step (f : frame) (c : choice) : option eff :=
    match c with
    | CStep => auto_step f
    | CCall a =>
        match f with
        | FApp _ | FCb _ _ =>
            let fr := api_frames a (g_calls g) ++ [f] in
            match a with
            | AConstructor =>
                match f with FApp AppPre => if dyn then go fr else None | _ => None end
            | ACreate st ar ra =>
                let q := mkcreq (g_calls g) st ar ra in
                ret (set_g_calls (g_calls g + 1)
                      (set_g_mti (upd (g_mti g) (g_calls g) (st, ra)) g)) fr [ECreateCall t q]
            | _ => go fr
            end
        | _ => None
        end
    | CRet v =>
        match f with
        | FApp _ => go []
        | FCb c k => ret g (resume k v) [ERet t c v]
        | FSigEnd => ret g [] []
        | _ => None
        end
    | COk =>
        match f with
        | FExec x => ret (set_g_dead true g) [] (EDead t :: if x then [EPast t] else [])
        (* 1105: an ignored thread runs the application's routine directly *)
        | FPCReal0 q => Some (mkeff g [FPCRet q] tsd nc [ECreate t q u false]
                                    (Some [FRun (q_start q) (q_arg q); FApp AppTsd]) None false)
        (* 1148-1149 *)
        | FPCReal q my n => Some (mkeff g [FPCPost q my n] tsd nc [ECreate t q u true]
                                        (Some [FBT BTSelf n; FApp AppTsd]) None false)
        (* fork: the parent *)
        | FForkGo d => go [FCall (PPostFork d)]
        | FRForkGo => go []
        | _ => None
        end
    | CFail =>
        match f with
        | FExec x => ret g [] (if x then [EPast t] else [])
        | FPCReal0 q => ret g [FPCRet q] [ECreateFail t q false]
        | FPCReal q my n => ret g [FPCPost q my n] [ECreateFail t q true]
        | FForkGo d => go [FCall (PPostFork d)]
        | FRForkGo => go []
        | _ => None
        end
    | CChild =>
        match f with
        | FForkGo d => Some (mkeff g [FBPCas d true; FForkRet] tsd nc [EFork t] None None true)
        | FRForkGo => Some (mkeff g [FRFReset] tsd nc [EFork t] None None true)
        | _ => None
        end
    | CGiveUp =>
        (* 608-615: no progress, and a thread that has not started its fini *)
        match f with
        | FSNode l [] =>
            if negb (sc_uf l =? 0) && negb (sc_last l <? sc_st l) && (0 <? sc_un l)
            then ret g [FSEnd l] [EGiveUp t] else None
        | _ => None
        end
    | _ => None
    end.
End Step.

(** ** One step of a thread *)

(** Frames inside a region locked by the thread lock. *)
Definition locked (f : frame) : bool :=
  match f with
  | FSSet _ | FSUnlock _ => true
  | FBT p _ => match p with
               | BTChk | BTRead | BTNum _ | BTIns | BTUnlock | BTRefuse => true
               | _ => false end
  | FClean p _ => match p with
                  | CLExit | CLMark1 | CLMark2 | CLRemove | CLZero | CLFree | CLUnlock => true
                  | _ => false end
  | FPCPick _ _ _ | FPCTake _ _ _ _ | FPCArray _ _ _ | FPCInc _ _ _ _
  | FPCZero _ _ _ _ | FPCUnlock _ _ _ _ => true
  | FBcFirst _ | FBcNode _ _ | FBcMain _ | FBcUnlock => true
  | _ => false
  end.

(** A signal handler is running. *)
Definition handling (f : frame) : bool :=
  match f with FApp AppHandler | FSigEnd => true | _ => false end.

(** The shootdown signal is blocked while its handler runs (no SA_NODEFER). *)
Definition in_shoot (f : frame) : bool :=
  match f with
  | FHGet | FHChk _ | FHDone _ | FHSet _ | FHCall _ _ | FHEnd _ _ | FWGet => true
  | FCb _ (KFiniHandler _ _) => true
  | _ => false
  end.

Definition open (f : frame) : bool :=
  match f with FApp _ | FCb _ _ => true | _ => false end.

Definition is_unwind (f : frame) : bool := match f with FUnwind => true | _ => false end.

(** The cleanup handler is pushed between 980 and 993. *)
Definition pushed (p : btpc) : bool :=
  match p with BTInit | BTStore _ | BTStarted | BTCall | BTPop => true | _ => false end.

(** pthread_exit and cancellation drop all frames, run the cleanup handler if it
    is pushed, then the thread-specific-data destructors. *)
Fixpoint unwind (st : list frame) : list frame :=
  match st with
  | [] => [FApp AppTsd]
  | FBT p n :: r => if pushed p then [FClean CLChk n; FApp AppTsd] else unwind r
  | FCb _ (KInitThread n) :: _ => [FClean CLChk n; FApp AppTsd]
  | _ :: r => unwind r
  end.

Definition set_th (s : state) (t : Z) (x : thread) : state :=
  mkst (s_g s) (upd (s_th s) t x) (s_next s) (s_tr s).

Definition add_ev (ev : list event) (s : state) : state :=
  mkst (s_g s) (s_th s) (s_next s) (ev ++ s_tr s).

(** Apply the effect of the top frame of thread t; [x] is the thread, [rest] the
    frames below. *)
Definition apply_eff (s : state) (t : Z) (x : thread) (rest : list frame) (e : eff) : state :=
  let th1 := upd (if e_child e then fun _ => th0 else s_th s) t
                 (mkth (e_fr e ++ rest) (e_tsd e) true (e_nc e)
                       (if e_child e then false else th_pend x)) in
  let th2 := match e_kill e with
             | Some u => let y := th1 u in
                         upd th1 u (mkth (th_stack y) (th_tsd y) (th_live y) (th_nc y) true)
             | None => th1
             end in
  match e_new e with
  | Some st => mkst (e_g e) (upd th2 (s_next s) (mkth st None true false false))
                    (s_next s + 1) (e_ev e ++ s_tr s)
  | None => mkst (e_g e) th2 (s_next s) (e_ev e ++ s_tr s)
  end.

(** pthread_create is not async-signal-safe: no call from a signal handler. *)
Definition barred (c : choice) (st : list frame) : bool :=
  match c with CCall (ACreate _ _ _) => existsb handling st | _ => false end.

Definition with_stack (x : thread) (st : list frame) : thread :=
  mkth st (th_tsd x) (th_live x) (th_nc x) (th_pend x).

Definition step (dyn : bool) (s : state) (t : Z) (c : choice) : option state :=
  let x := s_th s t in
  if g_dead (s_g s) || negb (th_live x) then None else
  match c with
  | CSignal => Some (set_th s t (with_stack x (FApp AppHandler :: th_stack x)))
  | CFatal =>
      Some (set_th s t (with_stack x (FEPGet EXIT_SIGNAL :: FEndLibDyn :: FSigEnd :: th_stack x)))
  | CShoot =>
      if th_pend x && g_shoot (s_g s) && negb (existsb in_shoot (th_stack x))
      then Some (add_ev [EDeliver t]
                  (set_th s t (mkth (FHGet :: th_stack x) (th_tsd x) true (th_nc x) false)))
      else None
  | CSync =>
      match th_stack x with
      | f :: _ =>
          if th_pend x && open f && negb (existsb in_shoot (th_stack x))
          then Some (add_ev [EDeliver t]
                      (set_th s t (mkth (FWGet :: th_stack x) (th_tsd x) true (th_nc x) false)))
          else None
      | [] => None
      end
  | CCancel =>
      match th_stack x with
      | f :: _ =>
          if negb (th_nc x) && (open f || match f with FEPWait => true | _ => false end)
             && negb (existsb locked (th_stack x))
          then Some (set_th s t (with_stack x (unwind (th_stack x))))
          else None
      | [] => None
      end
  | _ =>
      match th_stack x with
      | [] => match c with
              | CStep => Some (add_ev [EEnd t]
                           (set_th s t (mkth [] (th_tsd x) false (th_nc x) (th_pend x))))
              | _ => None
              end
      | f :: rest =>
          if is_unwind f
          then match c with
               | CStep => if existsb locked rest then None
                          else Some (set_th s t (with_stack x (unwind rest)))
               | _ => None
               end
          else if barred c (f :: rest) then None
          else option_map (apply_eff s t x rest)
                 (frame_step dyn t (s_next s) (s_g s) (th_tsd x) (th_nc x) f c)
      end
  end.

(** ** Process start *)

Definition MAIN : Z := 1.

Definition glob0 : glob :=
  mkglob (upd (fun _ => node0) MAIN_TN node_main) [] [] 0 0 1 0 false false false false false
         None false false false false false false (fun _ => (0, 0)) 0 false false.

(** The main thread: loader and library constructors, the start_main_init
    callback, the program's constructors, then monitor_main. *)
Definition init : state :=
  mkst glob0
       (upd (fun _ => th0) MAIN
            (mkth [FApp AppPre; FCall PStartMain; FApp AppPre; FMain] None true false false))
       2 [].

(** A schedule: which thread moves, and how its choice is resolved. *)
Fixpoint run (dyn : bool) (s : state) (l : list (Z * choice)) : option state :=
  match l with
  | [] => Some s
  | (t, c) :: r => match step dyn s t c with Some s' => run dyn s' r | None => None end
  end.
