(** Model of system() and fork() in src/fork.c, with the part of
    monitor_begin_process_fcn (src/main.c) that the forked child runs.

    The kernel (signal dispositions and the calling thread's mask) and the calls
    real_sigaction / real_sigprocmask are those of SignalModel.v; the environment
    copy is copy_environ of ExecModel.v.  Callbacks are events and leave the
    kernel's signal state alone.  Not modelled: MONITOR_DEBUG output, errno. *)
From Verif Require Export SignalModel.
From Verif Require Import ExecModel.

(** ** Events, in the order they happen *)

(** fork.c 66-72: SHELL, and the argument vector of 572-575. *)
Definition SHELL : bytes := str "/bin/sh".
Definition shell_argv (command : bytes) : list bytes := [SHELL; str "-c"; command].

Inductive sev :=
| SPreFork                                   (* monitor_pre_fork() *)
| SPostFork (pid data : Z)                   (* monitor_post_fork(pid, data) *)
| SForked (pid : Z)                          (* real fork returned this *)
| SWait (pid : Z)                            (* one waitpid(pid, &status, 0) *)
| SExec (path : bytes) (argv : list bytes) (env : res (list (option bytes))) (k : kern)
    (* the real execve, made with the signal state [k] *)
| SExit127                                   (* monitor_real_exit(127) *)
| SRealSystem (command : option bytes)       (* the C library's system() *)
| SResetThreads                              (* monitor_reset_thread_list *)
| SInitLib                                   (* monitor_init_library() *)
| SInitProcess (data : Z).                   (* monitor_init_process(.., data) *)

(** What waitpid(2) answers: a status, EINTR, or another error. *)
Inductive waited := WStatus (st : Z) | WIntr | WFail.

(** ** monitor_system, fork.c 521-603 *)

(** memset + sa_handler = SIG_IGN, 547-548. *)
Definition ign_act : act := mkact HIgn 0 0.
Definition sigchld_set : sigset := sadd SIGCHLD 0%N.

(** The result of a system() call as seen by the process that made it.
    [Running]: the results of waitpid are used up and the call is still waiting. *)
Inductive sysres :=
| Returned (status : Z) (k : kern) (tr : list sev)
| Running (tr : list sev).

(** The waitpid loop, 584-589; the answers are given in order. *)
Fixpoint wait_loop (pid : Z) (ws : list waited) : option Z * list sev :=
  match ws with
  | [] => (None, [])
  | WStatus s :: _ => (Some s, [SWait pid])
  | WFail :: _ => (Some (-1), [SWait pid])
  | WIntr :: r => let '(s, t) := wait_loop pid r in (s, SWait pid :: t)
  end.

(** The value written through the old-action pointer; SIGINT and SIGQUIT are
    always accepted, so the [None] case (uninitialised struct) never arises
    (SystemProofs). *)
Definition saved (a : option act) : act := match a with Some x => x | None => act0 end.

(** The three save-and-set calls, 559-561. *)
Definition sys_enter (o : os) (k : kern) : kern * (act * act * sigset) :=
  let '(k1, oi) := real_sigaction o k SIGINT (Some ign_act) in
  let '(k2, oq) := real_sigaction o k1 SIGQUIT (Some ign_act) in
  let '(k3, (_, om)) := real_sigprocmask o k2 SIG_BLOCK (Some sigchld_set) in
  (k3, (saved oi, saved oq, om)).

(** The three restoring calls, 569-571 and 591-593. *)
Definition sys_leave (o : os) (k : kern) (s : act * act * sigset) : kern :=
  let '(oi, oq, om) := s in
  let k1 := fst (real_sigaction o k SIGINT (Some oi)) in
  let k2 := fst (real_sigaction o k1 SIGQUIT (Some oq)) in
  fst (real_sigprocmask o k2 SIG_SETMASK (Some om)).

(** [pre]: what monitor_pre_fork returns.  [pid]: what the real fork returns in
    this process (negative: failure).  [shell_ok]: access(SHELL, X_OK) == 0.
    The parent's view; [pid] <> 0. *)
Definition monitor_system_parent (o : os) (callback shell_ok : bool) (pre : Z)
  (command : option bytes) (pid : Z) (ws : list waited) (k : kern) : sysres :=
  match command with
  | None => Returned (if shell_ok then 1 else 0) k []
  | Some _ =>
      let t0 := if callback then [SPreFork] else [] in
      let data := if callback then pre else 0 in
      let '(k1, s) := sys_enter o k in
      let t1 := t0 ++ [SForked pid] in
      let finish status t :=
        Returned status (sys_leave o k1 s)
                 (t ++ (if callback then [SPostFork pid data] else [])) in
      if pid <? 0 then finish (-1) t1
      else match wait_loop pid ws with
           | (Some status, tw) => finish status (t1 ++ tw)
           | (None, tw) => Running (t1 ++ tw)
           end
  end.

(** The child's view, 566-581: it inherits the signal state at the fork.
    [environ] is the environment; [pagesize], [mmap_ok] as in copy_environ.
    The events are those from the call of system() on in the child's history; the
    exec may fail, in which case SExit127 follows. *)
Definition monitor_system_child (o : os) (callback : bool) (pagesize : Z) (mmap_ok : bool)
  (environ : list bytes) (command : bytes) (exec_ok : bool) (k : kern) : list sev :=
  let '(k1, s) := sys_enter o k in
  let k2 := sys_leave o k1 s in
  let env := if callback then Ok (map Some environ ++ [None])
             else match copy_environ pagesize mmap_ok environ with
                  | Ok a => Ok (snd a)
                  | Overrun => Overrun | BadRead => BadRead | Fatal => Fatal
                  end in
  (if callback then [SPreFork] else []) ++ [SForked 0] ++
  [SExec SHELL (shell_argv command) env k2] ++ (if exec_ok then [] else [SExit127]).

(** system(), 605-621: MONITOR_NO_SYSTEM_OVERRIDE (fork_init, 136-138) turns the
    override off. *)
Definition system_parent (o : os) (override shell_ok : bool) (pre : Z)
  (command : option bytes) (pid : Z) (ws : list waited) (libc : Z) (k : kern) : sysres :=
  if override then monitor_system_parent o true shell_ok pre command pid ws k
  else Returned libc k [SRealSystem command].

(** monitor_real_system(), 652-656. *)
Definition real_system_parent (o : os) (shell_ok : bool)
  (command : option bytes) (pid : Z) (ws : list waited) (k : kern) : sysres :=
  monitor_system_parent o false shell_ok 0 command pid ws k.

(** ** fork() *)

(** The process-wide variables of main.c (144-149, 258) that
    monitor_begin_process_fcn touches, and whether monitor_begin_library_fcn has
    run (its RUN_ONCE flag, main.c 229). *)
Record pstate := mkpstate {
  p_init_called : bool; p_fini_library : bool; p_fini_process : bool;
  p_lib_begun : bool; p_data : Z }.

(** monitor_begin_process_fcn(user_data, is_fork), main.c 255-285; [init_ret]:
    what monitor_init_process returns. *)
Definition begin_process (s : pstate) (data init_ret : Z) (is_fork : bool)
  : pstate * list sev :=
  if negb is_fork && p_init_called s then (s, [])
  else
    (mkpstate true false false true init_ret,
     (if is_fork then [SResetThreads] else []) ++
     (if p_lib_begun s then [] else [SInitLib]) ++
     [SInitProcess data]).

(** monitor_fork(), fork.c 306-333; fork() and vfork() (335-345) both call it.
    [pid]: what the real fork returns in this process. *)
Definition monitor_fork (s : pstate) (pre pid init_ret : Z) : pstate * list sev * Z :=
  if pid =? 0 then
    let '(s', t) := begin_process s pre init_ret true in
    (s', [SPreFork; SForked pid] ++ t, pid)
  else (s, [SPreFork; SForked pid; SPostFork pid pre], pid).

(** ** Several threads in system() at once *)

(** One thread inside monitor_system between entry and return; one kernel call per
    step.  The masks are per thread, the dispositions shared. *)
Inductive sysloc :=
| L1 | L2 (oi : act) | L3 (oi oq : act) | LRun (oi oq : act) (om : sigset)
| L4 (oi oq : act) (om : sigset) | L5 (oq : act) (om : sigset) | L6 (om : sigset) | LDone.

(** [acts]: the process's dispositions, [m]: this thread's mask. *)
Definition sys_step (o : os) (l : sysloc) (acts : Z -> act) (m : sigset)
  : option (sysloc * (Z -> act) * sigset) :=
  let k := mkkern acts m in
  match l with
  | L1 => let '(k', a) := real_sigaction o k SIGINT (Some ign_act) in
          Some (L2 (saved a), k_act k', m)                                (* 559 *)
  | L2 oi => let '(k', a) := real_sigaction o k SIGQUIT (Some ign_act) in
             Some (L3 oi (saved a), k_act k', m)                          (* 560 *)
  | L3 oi oq => let '(k', (_, om)) := real_sigprocmask o k SIG_BLOCK (Some sigchld_set) in
                Some (LRun oi oq om, acts, k_mask k')                     (* 561 *)
  | LRun oi oq om => Some (L4 oi oq om, acts, m)                          (* 563-589 *)
  | L4 oi oq om => let '(k', _) := real_sigaction o k SIGINT (Some oi) in
                   Some (L5 oq om, k_act k', m)                           (* 591 *)
  | L5 oq om => let '(k', _) := real_sigaction o k SIGQUIT (Some oq) in
                Some (L6 om, k_act k', m)                                 (* 592 *)
  | L6 om => let '(k', _) := real_sigprocmask o k SIG_SETMASK (Some om) in
             Some (LDone, acts, k_mask k')                                (* 593 *)
  | LDone => None
  end.

(** Threads are numbered; each has a location and a mask.  A schedule is a list of
    thread numbers; a step of a finished thread is skipped. *)
Record sysall := mksysall { y_acts : Z -> act; y_loc : Z -> sysloc; y_mask : Z -> sigset }.

Definition y_step (o : os) (s : sysall) (t : Z) : sysall :=
  match sys_step o (y_loc s t) (y_acts s) (y_mask s t) with
  | Some (l, a, m) => mksysall a (upd (y_loc s) t l) (upd (y_mask s) t m)
  | None => s
  end.
Definition y_run (o : os) (s : sysall) (sch : list Z) : sysall := fold_left (y_step o) sch s.
