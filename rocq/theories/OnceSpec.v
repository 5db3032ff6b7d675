(** * Calls of real functions: what the user relies on *)

From Coq Require Import List String Bool Arith.
From Verif Require Import OnceModel.
Import ListNotations.
Local Open Scope string_scope.

(** Every call made through the pointer [p] reached the real function that
    [p] is meant for: not NULL, and not another function. *)
Definition reached (s : state) (p : ptr) : Prop :=
  forall f o, In (f, p, o) (calls s) -> o = Some (snd p).

(** The initialisations that set their "has run" flag before they have run:
    of main.c, of the thread functions, and of the signal functions. *)
Definition hasty (f : fn) : bool :=
  match f with
  | F_normal_init | F_name_init | F_signal_init => true
  | _ => false
  end.

(** Some thread is in the middle of one of them. *)
Definition initialising (s : state) : bool :=
  existsb (existsb (fun fr => hasty (fst fr))) (threads s).

(** All three have begun, and none is running. *)
Definition settled (s : state) : bool :=
  flags s FlNormal && flags s FlNames && flags s FlSignal && negb (initialising s).

(** The event is not one of those that break into an initialisation: a signal
    while one is running, or a thread that libmonitor has not seen starting
    before all of them are over. *)
Definition polite (s : state) (e : event) : bool :=
  match e with
  | Signal _ | Shot _ => negb (initialising s)
  | Foreign => settled s
  | _ => true
  end.

Fixpoint all_polite (s : state) (es : list event) : bool :=
  match es with
  | [] => true
  | e :: es' =>
      polite s e && match step s e with Some s' => all_polite s' es' | None => true end
  end.

(** The pointers that are looked up on each use, or guarded by a flag that is
    set only when they are all found: those of fork.c, dlopen.c and the MPI
    files, and the pointers of main.c and pthread.c with their own look-up. *)
Definition careful (p : ptr) : bool :=
  match fst p with
  | Ffork | Fdlopen | Fmpi => true
  | Fmain => String.eqb (snd p) "fork" || String.eqb (snd p) "main"
             || String.eqb (snd p) "__libc_start_main"
  | Fpthread => String.eqb (snd p) "malloc" || String.eqb (snd p) "pthread_exit"
  | Fsignal => false
  end.

(** The name of an MPI function in a spelling: C, the three of Fortran, and the
    same for the profiling interface. *)
Definition spelled (c low : string) (s : spelling) : string :=
  match s with
  | SpC => "MPI_" ++ c | SpP => "PMPI_" ++ c
  | Sp0 => "mpi_" ++ low | Sp1 => "mpi_" ++ low ++ "_" | Sp2 => "mpi_" ++ low ++ "__"
  | SpP0 => "pmpi_" ++ low | SpP1 => "pmpi_" ++ low ++ "_" | SpP2 => "pmpi_" ++ low ++ "__"
  end.

(** The real functions that an override or client function is there to call, for
    those that call nothing else themselves. *)
Definition duty (f : fn) : option (list string) :=
  match f with
  | F_exit => Some ["exit"] | F_u_exit => Some ["_exit"] | F_real_exit => Some ["_exit"]
  | F_real_sigprocmask | F_sigprocmask => Some ["sigprocmask"]
  | F_fork | F_real_fork => Some ["fork"]
  | F_execv => Some ["execv"] | F_execvp => Some ["execvp"] | F_execve => Some ["execve"]
  | F_execl | F_execlp | F_execle => Some []
  | F_real_execve => Some ["execve"] | F_libc_system => Some ["system"]
  | F_pthread_create | F_create_ignored => Some ["pthread_create"]
  | F_pthread_exit => Some ["pthread_exit"]
  | F_pthread_sigmask | F_real_pthread_sigmask => Some ["pthread_sigmask"]
  | F_sigwait_loop => Some ["sigwaitinfo"] | F_sigtimedwait_loop => Some ["sigtimedwait"]
  | F_dlopen | F_real_dlopen => Some ["dlopen"]
  | F_dlclose | F_real_dlclose => Some ["dlclose"]
  | F_start_main => Some ["__libc_start_main"] | F_monitor_main => Some ["main"]
  | F_sigaction_avoid | F_install_appl | F_install_loop => Some ["sigaction"]
  | F_mpi MInit s => Some [spelled "Init" "init" s]
  | F_mpi MInitThread s => Some [spelled "Init_thread" "init_thread" s]
  | F_mpi MFinalize s => Some [spelled "Finalize" "finalize" s]
  | F_mpi MCommRank s => Some [spelled "Comm_rank" "comm_rank" s; spelled "Comm_size" "comm_size" s]
  | _ => None
  end.

(** How often function f returns in a history, and how often it calls, itself, a
    real function of name n. *)
Definition fn_eq_dec (f g : fn) : {f = g} + {f <> g}.
Proof. decide equality; decide equality. Defined.

Definition returning (f : fn) (s : state) (e : event) : bool :=
  match e with
  | Run t _ => match nth_error (threads s) t with
               | Some ((g, []) :: _) => if fn_eq_dec f g then true else false
               | _ => false
               end
  | _ => false
  end.
Fixpoint returns (f : fn) (s : state) (es : list event) : nat :=
  match es with
  | [] => 0
  | e :: es' => (if returning f s e then 1 else 0) +
                match step s e with Some s' => returns f s' es' | None => 0 end
  end.
Definition called (f : fn) (n : string) (s : state) : nat :=
  List.length (filter (fun x => match x with (g, p, _) =>
     (if fn_eq_dec f g then true else false) && String.eqb (snd p) n end) (calls s)).

(** How often function f is entered. *)
Definition entering (s : state) (e : event) : option fn :=
  match e with
  | Enter _ g => Some g
  | Signal _ => Some F_signal_handler
  | Shot _ => Some F_shootdown_handler
  | Foreign => Some F_app
  | Leave _ => None
  | Run t choice =>
      match nth_error (threads s) t with
      | Some ((f, i :: _) :: _) =>
          match i with
          | ICall g => Some g
          | IMaybe g | ITail g | ISpawn g | IFork g => if choice then Some g else None
          | ILoop => if choice then Some f else None
          | IUsed g => if used s then Some g else None
          | IUnused g => if used s then None else Some g
          | _ => None
          end
      | _ => None
      end
  end.
Fixpoint entries (f : fn) (s : state) (es : list event) : nat :=
  match es with
  | [] => 0
  | e :: es' => (match entering s e with
                 | Some g => if fn_eq_dec f g then 1 else 0
                 | None => 0
                 end) +
                match step s e with Some s' => entries f s' es' | None => 0 end
  end.
