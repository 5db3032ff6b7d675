(** * C74: every call of a real function reaches that function *)

From Coq Require Import List String Bool Arith.
From Verif Require Import OnceModel OnceSpec OnceProofs OnceReturn.
Import ListNotations.
Local Open Scope string_scope.
Local Open Scope list_scope.
Local Open Scope nat_scope.

(** ** Helpers to write down concrete histories *)

(** Thread [t] runs until application or client code is reached, or its stack
    is empty; every choice is [false], except that threads do start. *)
Fixpoint auto (fuel : nat) (s : state) (t : nat) : list event :=
  match fuel with
  | O => []
  | S n =>
      let go b := match step s (Run t b) with
                  | Some s' => Run t b :: auto n s' t
                  | None => []
                  end in
      match nth_error (threads s) t with
      | Some ((_, IClient :: _) :: _) | Some [] | None => []
      | Some ((_, ISpawn _ :: _) :: _) => go true
      | _ => go false
      end
  end.

(** A script: [inr t] lets thread [t] run as above, [inl es] are events. *)
Fixpoint script (s : state) (l : list (list event + nat)) : list event :=
  match l with
  | [] => []
  | x :: l' =>
      let es := match x with inl es => es | inr t => auto 400 s t end in
      es ++ match run s es with Some s' => script s' l' | None => [] end
  end.

Definition steps (t n : nat) : list event := repeat (Run t false) n.

(** ** The claim *)

(** Whatever the application, the client and the scheduler do, every call
    through every pointer reaches the function it is meant for, as long as no
    signal is delivered while one of the three hasty initialisations runs, and
    no thread starts behind libmonitor's back before they are over. *)
Theorem C74_reaches_partial : forall (es : list event) (s : state),
  run start es = Some s ->
  all_polite start es = true ->
  forall p, reached s p.
Proof. exact polite_run. Qed.

(** The pointers of fork.c, dlopen.c and the MPI files, and the few others with
    their own look-up, need no such condition. *)
Theorem C74_careful : forall (es : list event) (s : state),
  run start es = Some s ->
  forall p, careful p = true -> reached s p.
Proof. exact careful_run. Qed.

(** Each override calls the real function of its own name and no other: the call
    recorded in a function is one of those the function is there to make. *)
Theorem C74_own_name : forall (es : list event) (s : state),
  run start es = Some s ->
  forall f l p o, duty f = Some l -> In (f, p, o) (calls s) -> In (snd p) l.
Proof. exact duty_run. Qed.

(** And it makes the call each time: for every override and every real function it is
    there to call, the override has returned at most as often as it has made that
    call. *)
Theorem C74_each_return : forall (es : list event) (s : state),
  run start es = Some s ->
  forall f l n, duty f = Some l -> In n l -> returns f start es <= called f n s.
Proof. exact return_run. Qed.

(** Nor does it make the call twice: it has made it at most as often as it was
    entered. *)
Theorem C74_each_entry : forall (es : list event) (s : state),
  run start es = Some s ->
  forall f l n, duty f = Some l -> In n l -> called f n s <= entries f start es.
Proof. exact entry_run. Qed.

(** *** A history that meets the hypotheses *)

(** The constructor, a handler, a thread, a signal, a foreign thread, and calls
    of both threads at the same time; then fork, and a thread in the child. *)
Definition busy : list event :=
  script start
    [inl [Enter 0 F_ctor]; inr 0; inl [Leave 0]; inr 0;
     inl [Enter 0 F_start_main]; inr 0; inl [Leave 0]; inr 0; inl [Leave 0]; inr 0;
     inl [Leave 0]; inr 0;
     inl [Enter 0 F_sigaction]; inr 0;
     inl [Enter 0 F_pthread_create]; inr 0; inl [Leave 0]; inr 0; inl [Leave 0]; inr 0;
     inl [Leave 0]; inr 0; inl [Leave 0]; inr 0; inr 1; inl [Leave 1]; inr 1; inl [Signal 1; Run 1 false; Run 1 false; Run 1 true];
     inl [Foreign; Enter 1 F_pthread_sigmask; Enter 2 F_pthread_sigmask]; inr 2; inr 1;
     inl [Enter 2 (F_mpi MCommRank SpP1)]; inr 2;
     inl [Enter 1 F_fork]; inr 1; inl [Leave 1; Run 1 false; Run 1 true]; inr 0;
     inl [Leave 0]; inr 0;
     inl [Enter 0 F_pthread_create]; inr 0].

Example C74_reaches_example :
  match run start busy with
  | Some s =>
      all_polite start busy && (15 <? List.length (calls s))
      && existsb (fun x => ptr_eqb (snd (fst x)) (Fpthread, "pthread_sigmask")) (calls s)
      && existsb (fun x => ptr_eqb (snd (fst x)) (Ffork, "fork")) (calls s)
      && existsb (fun x => ptr_eqb (snd (fst x)) (Fmpi, "pmpi_comm_rank_")) (calls s)
  | None => false
  end = true.
Proof. vm_compute. reflexivity. Qed.

Lemma found_null (es : list event) (p : ptr) :
  match run start es with
  | Some s => existsb (fun x => ptr_eqb (snd (fst x)) p
                && match snd x with None => true | _ => false end) (calls s)
  | None => false
  end = true ->
  exists s f, run start es = Some s /\ In (f, p, None) (calls s).
Proof.
  destruct (run start es) as [s|]; [|discriminate]. intros E.
  exists s. apply existsb_exists in E.
  destruct E as (((f & q) & o) & I & E). exists f. split; [reflexivity|]. cbn [fst snd] in E. apply andb_true_iff in E.
  destruct E as [E1 E2]. apply ptr_eqb_eq in E1. subst q.
  destruct o; [discriminate | exact I].
Qed.

Definition is_signal (e : event) : bool :=
  match e with Signal _ | Shot _ => true | _ => false end.
Definition is_foreign (e : event) : bool :=
  match e with Foreign => true | _ => false end.

(** ** What happens otherwise *)

(** The program has started as usual and has a handler for a signal, and creates
    its first thread.  The signal arrives during the look-up of the thread
    functions, and the handler calls pthread_sigmask, which POSIX allows there.
    The call goes through a NULL pointer. *)
Definition first_create_signal : list event :=
  script start
    [inl [Enter 0 F_ctor]; inr 0; inl [Leave 0]; inr 0;
     inl [Enter 0 F_start_main]; inr 0; inl [Leave 0]; inr 0; inl [Leave 0]; inr 0;
     inl [Leave 0]; inr 0;
     inl [Enter 0 F_sigaction]; inr 0;
     inl [Enter 0 F_pthread_create]; inl (steps 0 10);
     inl [Signal 0; Run 0 false; Run 0 false; Run 0 true];
     inl [Enter 0 F_pthread_sigmask]; inr 0].

Theorem C74_signal_refuted : exists es s f,
  run start es = Some s
  /\ existsb is_foreign es = false
  /\ List.length (filter is_signal es) = 1
  /\ In (f, (Fpthread, "pthread_sigmask"), None) (calls s).
Proof.
  destruct (found_null first_create_signal (Fpthread, "pthread_sigmask")) as (s & f & R & I);
    [vm_compute; reflexivity|].
  exists first_create_signal, s, f. repeat split; try exact R; try exact I; vm_compute; reflexivity.
Qed.

(** The same with a handler that calls _exit while the library's constructor runs:
    the process crashes instead of exiting. *)
Definition ctor_signal : list event :=
  script start
    [inl [Enter 0 F_sigaction]; inr 0; inl [Enter 0 F_ctor]; inl (steps 0 12);
     inl [Signal 0; Run 0 false; Run 0 false; Run 0 true];
     inl [Enter 0 F_u_exit]; inr 0; inl [Leave 0]; inr 0].

Theorem C74_exit_in_handler_refuted : exists es s f,
  run start es = Some s
  /\ existsb is_foreign es = false
  /\ List.length (filter is_signal es) = 1
  /\ In (f, (Fmain, "_exit"), None) (calls s).
Proof.
  destruct (found_null ctor_signal (Fmain, "_exit")) as (s & f & R & I);
    [vm_compute; reflexivity|].
  exists ctor_signal, s, f. repeat split; try exact R; try exact I; vm_compute; reflexivity.
Qed.

(** Two threads that were not made by pthread_create (thrd_create, clone) call
    pthread_sigmask for the first time, without any signal, in a program that
    has started as usual. *)
Definition two_first_calls : list event :=
  script start
    [inl [Enter 0 F_ctor]; inr 0; inl [Leave 0]; inr 0;
     inl [Enter 0 F_start_main]; inr 0; inl [Leave 0]; inr 0; inl [Leave 0]; inr 0;
     inl [Leave 0]; inr 0;
     inl [Foreign; Foreign; Enter 1 F_pthread_sigmask]; inl (steps 1 5);
     inl [Enter 2 F_pthread_sigmask]; inr 2].

Theorem C74_foreign_refuted : exists es s f,
  run start es = Some s
  /\ existsb is_signal es = false
  /\ In (f, (Fpthread, "pthread_sigmask"), None) (calls s).
Proof.
  destruct (found_null two_first_calls (Fpthread, "pthread_sigmask")) as (s & f & R & I);
    [vm_compute; reflexivity|].
  exists two_first_calls, s, f. repeat split; try exact R; try exact I; vm_compute; reflexivity.
Qed.

(** A careful pointer in an impolite history: both foreign threads call dlopen
    for the first time, and a signal interrupts one of them. *)
Definition two_dlopens : list event :=
  script start
    [inl [Foreign; Foreign; Enter 0 F_sigaction]; inr 0;
     inl [Enter 1 F_dlopen]; inl (steps 1 2);
     inl [Signal 1; Run 1 false; Run 1 false; Run 1 true];
     inl [Enter 1 F_real_dlclose]; inr 1;
     inl [Enter 2 F_real_dlopen]; inr 2].

Example C74_careful_example :
  match run start two_dlopens with
  | Some s => negb (all_polite start two_dlopens)
      && existsb (fun x => ptr_eqb (snd (fst x)) (Fdlopen, "dlopen")) (calls s)
      && existsb (fun x => ptr_eqb (snd (fst x)) (Fdlopen, "dlclose")) (calls s)
      && careful (Fdlopen, "dlopen")
  | None => false
  end = true.
Proof. vm_compute. reflexivity. Qed.

(** Two calls of MPI_Comm_rank in one spelling and one in another. *)
Definition ranks : list event :=
  script start [inl [Enter 0 (F_mpi MCommRank SpP1)]; inr 0; inl [Enter 0 (F_mpi MCommRank SpC)]; inr 0;
                inl [Enter 0 (F_mpi MCommRank SpP1)]; inr 0].
Example C74_each_return_example :
  match run start ranks with
  | Some s => returns (F_mpi MCommRank SpP1) start ranks = 2 /\
              entries (F_mpi MCommRank SpP1) start ranks = 2 /\
              called (F_mpi MCommRank SpP1) "pmpi_comm_size_" s = 2 /\
              called (F_mpi MCommRank SpP1) "pmpi_comm_rank_" s = 2 /\
              called (F_mpi MCommRank SpC) "MPI_Comm_size" s = 1
  | None => False
  end.
Proof. vm_compute. repeat split. Qed.

Print Assumptions C74_reaches_partial.
Print Assumptions C74_careful.
Print Assumptions C74_own_name.
Print Assumptions C74_each_return.
Print Assumptions C74_each_entry.
Print Assumptions C74_signal_refuted.
Print Assumptions C74_exit_in_handler_refuted.
Print Assumptions C74_foreign_refuted.
