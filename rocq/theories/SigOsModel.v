(** What a program sees of its signals, with monitor and without it.

    Monitor's side is the code of signal.c as modelled in SignalModel.v: the
    actions it installs (324-342, 844-853, with the flags of 64-65) and what its
    handler does (196-276).  The operating system's side is Linux's delivery of a
    signal, its rule for system calls interrupted by a handler, and what exec does
    to the actions (signal(7), sigaction(2), execve(2)); it is trusted.

    Simplifications.  Which signal is delivered when is part of the program here
    (it is not derived from the mask).  Client handlers and exit callbacks make no
    calls of their own.  Calls are sequential. *)
From Verif Require Import SignalModel.

(** ** The operating system *)

(** sa_flags bit of SA_NODEFER, <bits/sigaction.h>: 0x40000000 = 2^30; the other
    bits used below are SA_SIGINFO 2, SA_ONSTACK 27, SA_RESTART 28,
    SA_RESETHAND 31. *)
Definition SA_NODEFER : N := 1073741824%N.

(** What the system does when it delivers a signal. *)
Inductive kresult := KNothing | KStop | KDie | KRun (h : handler) (three : bool).

(** Delivery, signal(7).  [sync]: the signal comes from a fault of the running
    instruction; then it cannot be ignored.  SA_RESETHAND puts the default back
    before the handler runs. *)
Definition kernel_deliver (k : kern) (s : Z) (sync : bool) : kern * kresult :=
  let a := k_act k s in
  if s =? SIGKILL then (k, KDie)
  else if s =? SIGSTOP then (k, KStop)
  else match sa_handler a with
       | HIgn => (k, if sync then KDie else KNothing)
       | HDfl => (k, if existsb (Z.eqb s) [SIGCHLD; SIGCONT; SIGURG; SIGWINCH] then KNothing
                     else if existsb (Z.eqb s) [SIGTSTP; SIGTTIN; SIGTTOU] then KStop
                     else KDie)
       | h => (if N.testbit (sa_flags a) 31
               then mkkern (upd (k_act k) s (mkact HDfl (sa_flags a) (sa_mask a))) (k_mask k)
               else k,
               KRun h (N.testbit (sa_flags a) 2))
       end.

(** The signals blocked while a handler runs, and the stack it runs on. *)
Definition handler_mask (o : os) (k : kern) (s : Z) : sigset :=
  let a := k_act k s in
  let own := if N.testbit (sa_flags a) 30 then 0%N else sadd s 0 in
  N.ldiff (N.lor (k_mask k) (N.lor (sa_mask a) own)) (k_noblock o).
Definition on_alternate_stack (k : kern) (s : Z) : bool := N.testbit (sa_flags (k_act k s)) 27.

(** A system call that is blocked when the signal arrives: one that SA_RESTART
    restarts (read, write, wait, ...) or one that never is (poll, select, sleep,
    ...; signal(7) lists them). *)
Inductive syscall := Restartable | NotRestarted.
Inductive outcome := GoesOn | Interrupted | StoppedIn | Dead.

Definition kernel_outcome (k : kern) (s : Z) (w : syscall) : outcome :=
  match snd (kernel_deliver k s false) with
  | KNothing => GoesOn
  | KStop => StoppedIn
  | KDie => Dead
  | KRun _ _ => match w with
                | Restartable => if N.testbit (sa_flags (k_act k s)) 28 then GoesOn
                                 else Interrupted
                | NotRestarted => Interrupted
                end
  end.

(** execve(2): ignored signals stay ignored, all others get the default; flags and
    masks of the actions are cleared; the process's mask is kept. *)
Definition kernel_exec (k : kern) : kern :=
  mkkern (fun s => mkact (match sa_handler (k_act k s) with HIgn => HIgn | _ => HDfl end) 0 0)
         (k_mask k).

(** The calls without monitor.  The C library's signal() asks for SA_RESTART with
    the signal itself in the mask and refuses SIG_ERR; the client's call does not
    exist. *)
Definition native_op (o : os) (k : kern) (x : op) : kern :=
  match x with
  | OpSigaction sig a _ => fst (real_sigaction o k sig a)
  | OpSignal sig h =>
      match h with
      | HErr => k
      | _ => fst (real_sigaction o k sig (Some (mkact h SA_RESTART (sadd sig 0))))
      end
  | OpClient _ _ _ => k
  | OpMask how set => fst (real_sigprocmask o k how set)
  end.

Definition native_after (o : os) (k : kern) (h : list op) : kern :=
  fold_left (native_op o) h k.

(** ** Programs: calls, and signals that arrive; [body] is what the application's
    handler does if it runs. *)
Inductive item := Call (x : op) | Arrive (s : Z) (sync : bool) (body : list item).

(** What the application and its parent see. *)
Inductive seen := Ran (h : handler) (three : bool) (s : Z) | Stopped | Died (s : Z).

(** *** Without monitor: the state, what was seen, and whether the process lives. *)
Definition native_arrive (k : kern) (s : Z) (sync : bool)
  (run_body : kern -> kern * list seen * bool) : kern * list seen * bool :=
  match kernel_deliver k s sync with
  | (k1, KNothing) => (k1, [], true)
  | (k1, KStop) => (k1, [Stopped], true)
  | (k1, KDie) => (k1, [Died s], false)
  | (k1, KRun h b) => let '(k2, t, l) := run_body k1 in (k2, Ran h b s :: t, l)
  end.

Fixpoint native_item (o : os) (k : kern) (i : item) : kern * list seen * bool :=
  match i with
  | Call x => (native_op o k x, [], true)
  | Arrive s sync body =>
      native_arrive k s sync
        (fun k1 =>
           (fix go (k : kern) (l : list item) : kern * list seen * bool :=
              match l with
              | [] => (k, [], true)
              | i :: r => let '(k1, t1, l1) := native_item o k i in
                          if l1 then let '(k2, t2, l2) := go k1 r in (k2, t1 ++ t2, l2)
                          else (k1, t1, false)
              end) k1 body)
  end.

Fixpoint native_run (o : os) (k : kern) (l : list item) : kern * list seen * bool :=
  match l with
  | [] => (k, [], true)
  | i :: r => let '(k1, t1, l1) := native_item o k i in
              if l1 then let '(k2, t2, l2) := native_run o k1 r in (k2, t1 ++ t2, l2)
              else (k1, t1, false)
  end.

(** *** With monitor *)

Definition set_kn (st : state) (k : kern) : state :=
  mkstate (inited st) (tab st) (shoot st) (sdlist st) k.

(** The application handler among the events of monitor's handler, 270-274. *)
Definition app_call (evs : list event) : option (handler * bool) :=
  fold_right (fun e r => match e with
                         | EvApp1 h _ => Some (h, false)
                         | EvApp3 h _ => Some (h, true)
                         | _ => r
                         end) None evs.
Definition raised (s : Z) (evs : list event) : bool :=
  existsb (fun e => match e with EvRaise g => g =? s | _ => false end) evs.

(** After monitor's handler: the process is gone if the signal has its default
    action, is not blocked, and was raised again (264) or the faulting instruction
    is run again (260-263). *)
Definition gone (k : kern) (s : Z) (sync : bool) (evs : list event) : bool :=
  match sa_handler (k_act k s) with HDfl => true | _ => false end &&
  negb (mem s (k_mask k)) && (raised s evs || sync).

Definition mon_arrive (c : config) (dyn : bool) (cret : Z) (st : state) (s : Z) (sync : bool)
  (run_body : state -> state * list seen * bool) : state * list seen * bool :=
  match kernel_deliver (kn st) s sync with
  | (k1, KNothing) => (set_kn st k1, [], true)
  | (k1, KStop) => (set_kn st k1, [Stopped], true)
  | (k1, KDie) => (set_kn st k1, [Died s], false)
  | (k1, KRun HMon _) =>
      let '(st1, evs) := signal_handler c dyn (set_kn st k1) s [] cret [] in
      if gone (kn st1) s sync evs then (st1, [Died s], false)
      else if raised SIGSTOP evs then (st1, [Stopped], true)       (* 247 *)
      else match app_call evs with
           | Some (h, b) => let '(st2, t, l) := run_body st1 in (st2, Ran h b s :: t, l)
           | None => (st1, [], true)
           end
  | (k1, KRun h b) => let '(st2, t, l) := run_body (set_kn st k1) in (st2, Ran h b s :: t, l)
  end.

Fixpoint mon_item (c : config) (dyn : bool) (cret : Z) (st : state) (i : item)
  : state * list seen * bool :=
  match i with
  | Call x => (fst (do_op c st x), [], true)
  | Arrive s sync body =>
      mon_arrive c dyn cret st s sync
        (fun st1 =>
           (fix go (st : state) (l : list item) : state * list seen * bool :=
              match l with
              | [] => (st, [], true)
              | i :: r => let '(st1, t1, l1) := mon_item c dyn cret st i in
                          if l1 then let '(st2, t2, l2) := go st1 r in (st2, t1 ++ t2, l2)
                          else (st1, t1, false)
              end) st1 body)
  end.

Fixpoint mon_run (c : config) (dyn : bool) (cret : Z) (st : state) (l : list item)
  : state * list seen * bool :=
  match l with
  | [] => (st, [], true)
  | i :: r => let '(st1, t1, l1) := mon_item c dyn cret st i in
              if l1 then let '(st2, t2, l2) := mon_run c dyn cret st1 r in (st2, t1 ++ t2, l2)
              else (st1, t1, false)
  end.

(** A blocked system call with monitor: what monitor's handler does decides whether
    the process goes on at all, the kernel's flags decide about the call. *)
Definition mon_outcome (c : config) (dyn : bool) (cret : Z) (st : state) (s : Z) (w : syscall)
  : outcome :=
  match mon_item c dyn cret st (Arrive s false []) with
  | (_, _, false) => Dead
  | (_, [Stopped], true) => StoppedIn
  | _ => kernel_outcome (kn st) s w
  end.

(** A process that goes through several programs, each replacing the one before by
    exec: the kernel's state at the start of the next one. *)
Definition mon_exec (c : config) (k : kern) (h : list op) : kern :=
  kernel_exec (kn (fst (run c (signal_init c (start k)) h))).
Definition native_exec (o : os) (k : kern) (h : list op) : kern :=
  kernel_exec (native_after o k h).
