(** Model of what the overrides do to the two places where the system reports
    why a call failed: errno and the message kept for dlerror().

    All code outside libmonitor that runs during an override (callbacks, output
    to stderr, successful library calls, the application's own handler) may
    leave any values there: [out] says which, one answer per piece of code. *)
From Coq Require Import ZArith List Bool.
Import ListNotations.
Open Scope Z_scope.

(** The calling thread's error state. *)
Record world := mkworld {
  w_errno : Z;     (* errno *)
  w_dl : Z;        (* the message dlerror() would give; 0 is none *)
  w_n : nat }.     (* pieces of outside code run so far *)

Inductive kind :=
| KCallback        (* a client callback or a client signal handler *)
| KPrint           (* fprintf(stderr, ...), src/common.h 89-101 *)
| KLibc            (* a library call that succeeds, or whose failure is not reported *)
| KApp.            (* the application's signal handler *)

Record env := mkenv {
  e_debug : bool;                            (* monitor_debug *)
  out : nat -> kind -> Z * Z -> Z * Z }.     (* what outside code leaves *)

Definition M (A : Type) := env -> world -> A * world.
Definition ret {A} (a : A) : M A := fun _ w => (a, w).
Definition bind {A B} (m : M A) (f : A -> M B) : M B :=
  fun e w => let '(a, w') := m e w in f a e w'.
Notation "x <- m ;; k" := (bind m (fun x => k)) (at level 61, m at next level, right associativity).
Notation "m ;;; k" := (bind m (fun _ => k)) (at level 61, right associativity).

(** A piece of outside code. *)
Definition outside (k : kind) : M unit := fun e w =>
  let '(x, d) := out e (w_n w) k (w_errno w, w_dl w) in (tt, mkworld x d (S (w_n w))).

(** MONITOR_DEBUG, src/common.h 89-95, and MONITOR_WARN, 97-101. *)
Definition debug : M unit := fun e w => if e_debug e then outside KPrint e w else (tt, w).
Definition warn : M unit := outside KPrint.

(** A call of a real function that answers [r]; when it fails it sets errno. *)
Definition real (a : Z * Z) : M Z := fun e w =>
  let '(r, x) := a in
  if r <? 0 then (r, mkworld x (w_dl w) (S (w_n w)))
  else let '(_, w') := outside KLibc e w in (r, w').

(** The same for dlopen/dlclose: [m] is the message of a failing call.  Failing
    is a NULL handle for dlopen, a non-zero code for dlclose; the errno left is
    that of outside code. *)
Definition real_dl (failed : bool) (r m : Z) : M Z := fun e w =>
  let '(_, w') := outside KLibc e w in
  (r, if failed then mkworld (w_errno w') m (w_n w') else w').

Definition get_errno : M Z := fun _ w => (w_errno w, w).
Definition set_errno (x : Z) : M unit := fun _ w => (tt, mkworld x (w_dl w) (w_n w)).

Definition EINVAL : Z := 22.
Definition EACCES : Z := 13.
Definition EINTR : Z := 4.
Definition SIG_ERR : Z := -1.

(** monitor_fork_init, monitor_signal_init, monitor_thread_name_init,
    monitor_dlopen_init: look-ups and output, as one piece of each kind. *)
Definition init : M unit := outside KLibc ;;; debug.

(** monitor_begin_process_fcn in the child, src/main.c 255-285: callbacks. *)
Definition begin_process : M unit := debug ;;; outside KCallback ;;; outside KCallback.

(** monitor_end_process_fcn and monitor_end_library_fcn, src/main.c 240-253 and 300-350:
    callbacks, signals to the threads, sleeps. *)
Definition end_process : M unit := debug ;;; outside KCallback ;;; outside KLibc ;;; outside KCallback.

(** monitor_fork, src/fork.c 306-333; [a] is the real fork's answer. *)
Definition m_fork (a : Z * Z) : M Z :=
  init ;;; debug ;;; outside KCallback ;;;
  r <- real a ;;
  if r =? 0 then debug ;;; begin_process ;;; ret r
  else (if r <? 0 then debug else ret tt) ;;; debug ;;; outside KCallback ;;; ret r.

(** monitor_execv, monitor_execvp, monitor_execve, src/fork.c 355-437: the three
    differ only in the test and the real function, here [is_exec] and [a]. *)
Definition m_exec (is_exec : bool) (a : Z * Z) : M Z :=
  init ;;; outside KLibc ;;; debug ;;;
  (if is_exec then end_process else ret tt) ;;;
  r <- real a ;;
  (if is_exec then warn else ret tt) ;;;
  ret r.

(** monitor_real_execve, src/fork.c 633-647. *)
Definition m_real_execve (null_arg : bool) (a : Z * Z) : M Z :=
  init ;;; debug ;;;
  if null_arg then debug ;;; set_errno EACCES ;;; ret (-1)
  else outside KLibc ;;; real a.

(** The waitpid loop, src/fork.c 585-590; [None]: still waiting. *)
Fixpoint wait_child (answers : list (Z * Z)) (status : Z) : M (option Z) :=
  match answers with
  | [] => ret None
  | a :: more =>
      r <- real a ;;
      if r <? 0 then
        x <- get_errno ;;
        if x =? EINTR then wait_child more status else ret (Some (-1))
      else ret (Some status)
  end.

(** monitor_system with a command, src/fork.c 548-604, in the parent; [pid] is
    the real fork's answer (positive or negative). *)
Definition m_system (callback : bool) (pid : Z * Z) (answers : list (Z * Z)) (status : Z)
  : M (option Z) :=
  init ;;;
  (if callback then debug ;;; outside KCallback else ret tt) ;;;
  outside KLibc ;;; outside KLibc ;;; outside KLibc ;;;
  r <- real pid ;;
  st <- (if r <? 0 then debug ;;; ret (Some (-1)) else wait_child answers status) ;;
  match st with
  | None => ret None
  | Some s =>
      outside KLibc ;;; outside KLibc ;;; outside KLibc ;;;
      (if callback then debug ;;; outside KCallback else ret tt) ;;;
      debug ;;; ret (Some s)
  end.

(** monitor_appl_sigaction, src/signal.c 809-863. *)
Definition m_sigaction (valid avoid : bool) (act : bool) (a : Z * Z) : M Z :=
  init ;;;
  if negb valid then debug ;;; set_errno EINVAL ;;; ret (-1)
  else if avoid then debug ;;; real a
  else debug ;;; (if act then outside KLibc else ret tt) ;;; ret 0.

(** signal, src/signal.c 872-886; [old] is the handler it had. *)
Definition m_signal (valid avoid : bool) (old : Z) (a : Z * Z) : M Z :=
  r <- m_sigaction valid avoid true a ;;
  if r =? 0 then ret old else set_errno EINVAL ;;; ret SIG_ERR.

(** sigprocmask, src/signal.c 893-908. *)
Definition m_sigprocmask (set : bool) (a : Z * Z) : M Z :=
  init ;;; (if set then debug else ret tt) ;;; real a.

(** One turn of the wait loops, src/pthread.c 1311-1315: the real call's answer,
    whether the helper ran client code, and whether it took the signal. *)
Record turn := mkturn { t_ans : Z * Z; t_client : bool; t_taken : bool }.

(** do { ret = ...; save_errno = errno; } while (monitor_sigwait_helper(...)):
    the result and the saved errno. *)
Fixpoint wait_turns (ts : list turn) : M (option (Z * Z)) :=
  match ts with
  | [] => ret None
  | t :: more =>
      r <- real (t_ans t) ;;
      x <- get_errno ;;
      if r <? 0 then (if x =? EINTR then wait_turns more else ret (Some (r, x)))
      else (if t_client t then outside KLibc ;;; debug ;;; outside KCallback ;;; outside KLibc
            else ret tt) ;;;
           (if t_taken t then wait_turns more else ret (Some (r, x)))
  end.

(** sigwaitinfo and sigtimedwait, src/pthread.c 1325-1381. *)
Definition m_sigwaitinfo (ts : list turn) : M (option Z) :=
  init ;;; debug ;;;
  o <- wait_turns ts ;;
  match o with
  | None => ret None
  | Some (r, x) => set_errno x ;;; ret (Some r)
  end.

(** sigwait, src/pthread.c 1296-1323: the error is the result itself. *)
Definition m_sigwait (ts : list turn) : M (option Z) :=
  init ;;; debug ;;;
  o <- wait_turns ts ;;
  match o with
  | None => ret None
  | Some (r, x) => ret (Some (if r <? 0 then x else 0))
  end.

(** dlopen, src/dlopen.c 118-131, and dlclose, 133-146. *)
Definition m_dlopen (h m : Z) : M Z :=
  init ;;; debug ;;; outside KCallback ;;;
  r <- real_dl (h =? 0) h m ;;
  outside KCallback ;;; debug ;;; ret r.
Definition m_dlclose (c m : Z) : M Z :=
  init ;;; debug ;;; outside KCallback ;;;
  r <- real_dl (negb (c =? 0)) c m ;;
  outside KCallback ;;; debug ;;; ret r.

(** monitor_real_dlopen and monitor_real_dlclose, src/dlopen.c 101-113. *)
Definition m_real_dlopen (h m : Z) : M Z := init ;;; real_dl (h =? 0) h m.
Definition m_real_dlclose (c m : Z) : M Z := init ;;; real_dl (negb (c =? 0)) c m.

(** What the application asked for a signal. *)
Inductive action := AIgnore | ADefault | AHandler.

(** monitor_signal_handler, src/signal.c 196-266, for a valid signal.  [client]:
    the code the client's handler returns, if there is one; [noterm], [stop],
    [noraise]: the flags of the signal's entry.  The paths that end the process
    are followed up to the last call before its end. *)
Definition m_handler (client : option Z) (appl : action) (noterm stop noraise : bool) : M unit :=
  c <- (match client with
        | Some r => outside KCallback ;;; ret (r =? 0)
        | None => ret false
        end) ;;
  if c then ret tt
  else match appl with
       | AIgnore => ret tt
       | ADefault =>
           if noterm then ret tt
           else if stop then outside KLibc
           else end_process ;;; outside KLibc ;;; outside KLibc ;;;
                (if noraise then ret tt else outside KLibc)
       | AHandler => outside KApp
       end.

(** monitor_shootdown_handler, src/pthread.c 441-476.  [known]: the thread has a
    record; [skip]: line 457 holds; [late]: monitor_fini_thread_done. *)
Definition m_shootdown (known skip late : bool) : M unit :=
  outside KLibc ;;;
  if negb known then warn
  else if skip then ret tt
  else if late then warn
  else outside KLibc ;;; debug ;;; outside KCallback ;;; outside KLibc.
