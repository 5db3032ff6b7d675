(** Vocabulary for "init_thread_support comes once, before the first thread" and
    for monitor_is_threaded. *)
From Verif Require Export LifeSpec.

Definition is_support (e : event) : bool :=
  match e with ECall _ CbThreadSupport => true | _ => false end.

(** The thread is between the test of the flag (pthread.c 1114) and the return of
    init_thread_support (1117). *)
Definition asking (f : frame) : bool :=
  match f with
  | FPCSupSet _ _ | FCall PThreadSupport | FCb CbThreadSupport _ => true
  | _ => false
  end.

(** Forks as in [clean_forks].  A thread between the two points calls neither
    pthread_create nor pthread_exit and is not cancelled: the client does not do so in
    the callback, nor any code that interrupts the thread there. *)
Definition support_alone (s : state) (t : Z) (c : choice) : Prop :=
  clean_forks s t c /\
  (existsb asking (th_stack (s_th s t)) = true ->
   (forall st ar ra, c <> CCall (ACreate st ar ra)) /\ c <> CCall APthreadExit /\ c <> CCancel).

(** Forks as in [clean_forks], and none in a handler that interrupts the very first
    step of pthread_create. *)
Definition entering (f : frame) : bool := match f with FPCInit _ => true | _ => false end.
Definition outside_create (s : state) (t : Z) (c : choice) : Prop :=
  clean_forks s t c /\ (c = CChild -> existsb entering (th_stack (s_th s t)) = false).

(** Less: forks as in [clean_forks], and no call of pthread_create in the thread that
    has found the flag clear and has not yet set it (pthread.c 1114-1116).  Only code
    that interrupts the thread there could make such a call. *)
Definition at_flag (f : frame) : bool := match f with FPCSupSet _ _ => true | _ => false end.
Definition flag_alone (s : state) (t : Z) (c : choice) : Prop :=
  clean_forks s t c /\
  (existsb at_flag (th_stack (s_th s t)) = true -> forall st ar ra, c <> CCall (ACreate st ar ra)).

(** A thread is made, or a call of pthread_create returns. *)
Definition created (e : event) : Prop :=
  (exists t q u b, e = ECreate t q u b) \/ (exists t q, e = ECreateRet t q).
