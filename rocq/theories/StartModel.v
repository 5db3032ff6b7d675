(** Model of process start and end as seen by one thread, with the values that pass
    through: src/main.c 135-149 (static data), 190-285, 301-344, 357-368, 423-438,
    485-488, 504-537 (monitor_main), 541-551 (__wrap_main), 555-582
    (__libc_start_main), 591-656 (exit, _exit, _Exit, constructor, destructor);
    src/fork.c 329; src/pthread.c 1098.

    Simplified: one thread, so the thread shootdown is empty and nobody else exits
    (the interleavings are in LifeModel.v); looking up real functions succeeds; the
    client is given by what its init_process callback does (it may store through
    its argc pointer and into the argument vector, and returns a value); the other
    callbacks only observe.  The Powerpc form of __libc_start_main is the [ppc]
    build. *)
From Verif Require Export Base.

(** The three builds: MONITOR_STATIC, MONITOR_DYNAMIC, and MONITOR_DYNAMIC with
    MONITOR_START_MAIN_PPC. *)
Inductive build := Static | Dynamic | DynamicPPC.
Definition is_static (b : build) : bool := match b with Static => true | _ => false end.
Definition is_ppc (b : build) : bool := match b with DynamicPPC => true | _ => false end.

(** The client's init_process: from *argc, the argument vector's memory and the
    data argument to the new *argc, the new memory and the result. *)
Record client := mkclient {
  c_argc : Z -> Z -> Z; c_mem : (Z -> Z) -> (Z -> Z); c_data : Z -> Z }.

(** What a call from the library or the application looks like from outside.
    0 is the NULL pointer. *)
Inductive call :=
| InitLibrary
| StartMainInit
| InitProcess (argc argv data : Z)
| AtMain
| WrapMain (argc argv envp : Z)
| RealStartMain (fn argc argv : Z) (stinfo : list Z)  (* the system's __libc_start_main *)
| Main (fn argc argv envp : Z)                        (* the application's main *)
| BeginExit (how : Z)
| FiniProcess (how data : Z)
| FiniLibrary
| RealExit (status : Z)
| RealUExit (status : Z).

(** Each call is recorded with what monitor_get_addr_main and
    monitor_get_main_args would answer during it, and the memory of the argument
    vector at that time. *)
Record event := mkevent {
  e_call : call; e_main : Z; e_args : Z * Z * Z; e_mem : Z -> Z }.

(** Static data of main.c, and the memory of the argument vector. *)
Record gstate := mkg {
  g_argc : Z; g_argv : Z; g_envp : Z;      (* 142-144; monitor_get_main_args, 357-368 *)
  g_real_main : Z;                         (* 136; 0 is NULL; monitor_get_addr_main, 485-488 *)
  g_normal : bool;                         (* MONITOR_RUN_ONCE(normal_init) *)
  g_lib : bool;                            (* MONITOR_RUN_ONCE(begin_library) *)
  g_initp : bool;                          (* monitor_init_process_called *)
  g_libdone : bool;                        (* monitor_fini_library_called *)
  g_cookie : bool; g_win : bool;           (* end_process_cookie, main's tn_exit_win *)
  g_data : Z;                              (* monitor_main_tn.tn_user_data *)
  g_mem : Z -> Z;
  g_log : list event }.                    (* newest first *)

Definition set_main (m : Z) g := mkg (g_argc g) (g_argv g) (g_envp g) m (g_normal g) (g_lib g) (g_initp g) (g_libdone g) (g_cookie g) (g_win g) (g_data g) (g_mem g) (g_log g).
Definition set_args (a v e : Z) g := mkg a v e (g_real_main g) (g_normal g) (g_lib g) (g_initp g) (g_libdone g) (g_cookie g) (g_win g) (g_data g) (g_mem g) (g_log g).
Definition set_normal g := mkg (g_argc g) (g_argv g) (g_envp g) (g_real_main g) true (g_lib g) (g_initp g) (g_libdone g) (g_cookie g) (g_win g) (g_data g) (g_mem g) (g_log g).
Definition set_lib g := mkg (g_argc g) (g_argv g) (g_envp g) (g_real_main g) (g_normal g) true (g_initp g) (g_libdone g) (g_cookie g) (g_win g) (g_data g) (g_mem g) (g_log g).
Definition set_initp g := mkg (g_argc g) (g_argv g) (g_envp g) (g_real_main g) (g_normal g) (g_lib g) true (g_libdone g) (g_cookie g) (g_win g) (g_data g) (g_mem g) (g_log g).
Definition set_libdone (x : bool) g := mkg (g_argc g) (g_argv g) (g_envp g) (g_real_main g) (g_normal g) (g_lib g) (g_initp g) x (g_cookie g) (g_win g) (g_data g) (g_mem g) (g_log g).
Definition set_exit (ck w : bool) g := mkg (g_argc g) (g_argv g) (g_envp g) (g_real_main g) (g_normal g) (g_lib g) (g_initp g) (g_libdone g) ck w (g_data g) (g_mem g) (g_log g).
Definition set_data (d : Z) g := mkg (g_argc g) (g_argv g) (g_envp g) (g_real_main g) (g_normal g) (g_lib g) (g_initp g) (g_libdone g) (g_cookie g) (g_win g) d (g_mem g) (g_log g).
Definition set_mem (m : Z -> Z) g := mkg (g_argc g) (g_argv g) (g_envp g) (g_real_main g) (g_normal g) (g_lib g) (g_initp g) (g_libdone g) (g_cookie g) (g_win g) (g_data g) m (g_log g).

Definition emit (c : call) g :=
  mkg (g_argc g) (g_argv g) (g_envp g) (g_real_main g) (g_normal g) (g_lib g) (g_initp g) (g_libdone g)
      (g_cookie g) (g_win g) (g_data g) (g_mem g)
      (mkevent c (g_real_main g) (g_argc g, g_argv g, g_envp g) (g_mem g) :: g_log g).

(** What the program is: the build, the client, main's address, and the argument
    count, vector and environment the system starts it with; [p_mem] is the memory
    the vector points into, [p_stinfo] the Powerpc start information (four words,
    the second is main). *)
Record program := mkprogram {
  p_build : build; p_client : client; p_main : Z;
  p_argc : Z; p_argv : Z; p_envp : Z; p_mem : Z -> Z; p_stinfo : list Z }.

(** monitor_normal_init, 190-219 (194 calls monitor_early_init, which fills main's
    node; tn_user_data is 0 from the start). *)
Definition normal_init (p : program) (g : gstate) : gstate :=
  if g_normal g then g
  else let g := set_normal g in
       if is_static (p_build p) then set_main (p_main p) g else g.

(** monitor_begin_library_fcn, 228-238. *)
Definition begin_library (p : program) (g : gstate) : gstate :=
  if g_lib g then g
  else emit InitLibrary (normal_init p (set_lib g)).

(** monitor_end_library_fcn, 241-249. *)
Definition end_library (g : gstate) : gstate :=
  if g_libdone g then g else set_libdone true (emit FiniLibrary g).

(** 281-284: the init_process callback and what it does. *)
Definition call_init_process (p : program) (d : Z) (g : gstate) : gstate :=
  let g1 := emit (InitProcess (g_argc g) (g_argv g) d) g in
  set_data (c_data (p_client p) d)
    (set_mem (c_mem (p_client p) (g_mem g))
      (set_args (c_argc (p_client p) (g_argc g) (g_argv g)) (g_argv g) (g_envp g) g1)).

(** monitor_begin_process_fcn, 256-285 (resetting the thread list: LifeModel.v). *)
Definition begin_process (p : program) (d : Z) (is_fork : bool) (g : gstate) : gstate :=
  let g := normal_init p g in
  let val := g_initp g in
  let g := set_initp g in
  let g := if is_fork then set_data d g else g in
  if negb is_fork && val then g
  else
    call_init_process p d (begin_library p (set_libdone false g)).

(** monitor_end_process_fcn, 301-344, one thread. *)
Definition end_process (how : Z) (g : gstate) : gstate :=
  if g_cookie g then g
  else let g := emit (BeginExit how) (set_exit true true g) in
       emit (FiniProcess how (g_data g)) g.

(** MONITOR_EXIT_NORMAL, monitor.h 45. *)
Definition EXIT_NORMAL : Z := 1.

(** What the application, its libraries and the client do besides main: constructors
    that call pthread_create or monitor_initialize before main (both
    begin_process(NULL, FALSE)); the child of a fork, in which the history goes on;
    monitor's own constructor.  Other calls do not touch this state. *)
Inductive act :=
| DoConstructor                 (* 645-649, dynamic only *)
| DoBegin                       (* pthread.c 1098, main.c 425 *)
| DoForkChild (d : Z).          (* fork.c 329 *)

Definition do_act (p : program) (g : gstate) (a : act) : gstate :=
  match a with
  | DoConstructor => if is_static (p_build p) then g else begin_library p g
  | DoBegin => begin_process p 0 false g
  | DoForkChild d => begin_process p d true g
  end.
Definition do_acts (p : program) (l : list act) (g : gstate) : gstate :=
  fold_left (do_act p) l g.

(** How main ends; [CallsMonitorExit] is monitor_real_exit. *)
Inductive ending :=
| Returns (v : Z) | CallsExit (v : Z) | CallsUExit (v : Z) | CallsMonitorExit (v : Z).

(** The system's exit runs the destructors, 652-656, in the dynamic build. *)
Definition real_exit (p : program) (v : Z) (g : gstate) : gstate :=
  let g := emit (RealExit v) g in
  if is_static (p_build p) then g else end_library g.
(** exit, 591-601, and _exit/_Exit, 608-637, and monitor_real_exit, 434-438. *)
Definition do_exit (p : program) (v : Z) (g : gstate) : gstate :=
  real_exit p v (end_process EXIT_NORMAL (normal_init p g)).
Definition do_uexit (p : program) (v : Z) (g : gstate) : gstate :=
  let g := end_process EXIT_NORMAL (normal_init p g) in
  emit (RealUExit v) (if is_static (p_build p) then g else end_library g).
Definition do_monitor_exit (p : program) (v : Z) (g : gstate) : gstate :=
  emit (RealUExit v) (normal_init p g).

(** monitor_main, 504-537: [a] [v] [e] are its parameters, [body] what the
    application's main does.  If main returns, the C library calls the system's exit
    with the value (not exit's override, which is not on that path). *)
Definition monitor_main (p : program) (a v e : Z) (body : list act) (fin : ending)
  (g : gstate) : gstate :=
  let g := set_args a v e (normal_init p g) in
  let g := emit AtMain (begin_process p 0 false g) in
  let g := if is_static (p_build p)
           then emit (WrapMain (g_argc g) (g_argv g) (g_envp g)) g else g in
  let g := do_acts p body (emit (Main (g_real_main g) a v e) g) in
  match fin with
  | Returns x => real_exit p x (end_process EXIT_NORMAL g)
  | CallsExit x => do_exit p x g
  | CallsUExit x => do_uexit p x g
  | CallsMonitorExit x => do_monitor_exit p x g
  end.

(** __libc_start_main, 555-582, or __wrap_main, 541-551.  [mid]: constructors of the
    program itself, which the system's __libc_start_main runs before it calls the
    function it was given; in the static build the system calls __wrap_main after
    them. *)
Definition replace_second (x : Z) (l : list Z) : list Z :=
  match l with a :: _ :: r => a :: x :: r | _ => l end.

(** The address of monitor_main itself: any number that the system hands back. *)
Definition MONITOR_MAIN : Z := -1.

Definition run_program (p : program) (pre mid body : list act) (fin : ending) (g : gstate)
  : gstate :=
  let g := do_acts p pre g in
  match p_build p with
  | Static =>
      let g := do_acts p mid g in
      let g := emit StartMainInit (set_main (p_main p) (normal_init p g)) in
      monitor_main p (p_argc p) (p_argv p) (p_envp p) body fin g
  | _ =>
      let m := if is_ppc (p_build p) then nth 1 (p_stinfo p) 0 else p_main p in
      let st := if is_ppc (p_build p) then replace_second MONITOR_MAIN (p_stinfo p) else [] in
      let g := emit StartMainInit (set_main m g) in
      let g := emit (RealStartMain MONITOR_MAIN (p_argc p) (p_argv p) st) g in
      let g := do_acts p mid g in
      monitor_main p (p_argc p) (p_argv p) (p_envp p) body fin g
  end.

Definition start_g (p : program) : gstate :=
  mkg 0 0 0 0 false false false false false false 0 (p_mem p) [].

(** The whole history of a run, oldest first. *)
Definition history (p : program) (pre mid body : list act) (fin : ending) : list event :=
  rev (g_log (run_program p pre mid body fin (start_g p))).
