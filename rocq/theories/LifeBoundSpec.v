(** Vocabulary for "every call returns". *)
From Verif Require Export LifeSpec LifeLockSpec.

Local Open Scope Z_scope.

(** What a thread does on its own: library code goes on, application and client code
    returns, a system call answers, exit stops waiting when it may.  No new call is made
    and no signal or cancellation arrives. *)
Definition answers (c : choice) : bool :=
  match c with CStep | CRet _ | COk | CFail | CChild | CGiveUp => true | _ => false end.

(** Process exit starts another round of waiting for the other threads (pthread.c
    603-616). *)
Definition again (f : frame) : bool :=
  match f with FSNode l [] => negb (sc_uf l =? 0) | _ => false end.

(** A run in which thread t stays inside the code above [base] whenever it moves: before
    each step of t, its stack is more than [base], it does not start another round of
    waiting, and at most M threads are on the list.  The other threads do anything. *)
Fixpoint stays_in (dyn : bool) (M : nat) (t : Z) (base : list frame) (s : state) (l : list (Z * choice)) : Prop :=
  match l with
  | [] => True
  | (u, c) :: r =>
      (u = t -> answers c = true /\ (length (g_list (s_g s)) <= M)%nat /\
        exists f p, th_stack (s_th s t) = f :: p ++ base /\ again f = false) /\
      exists s', step dyn s u c = Some s' /\ stays_in dyn M t base s' r
  end.

(** How many steps of the run are t's. *)
Definition steps_by (t : Z) (l : list (Z * choice)) : nat := length (filter (fun x => fst x =? t) l).

(** Why thread t may have to wait: the lock is held; another thread's process exit is not
    over; pthread_exit is called from a handler that interrupted a region that holds the
    lock. *)
Definition must_wait (s : state) (t : Z) : Prop :=
  exists f r, th_stack (s_th s t) = f :: r /\
  ((waiting f = true /\ g_lock (s_g s) <> None) \/ (f = FEPWait /\ g_pdone (s_g s) = false) \/
   (f = FUnwind /\ existsb locked r = true)).

(** The calls that neither end the process nor the thread, nor announce that an exec is
    about to end it. *)
Definition ordinary (a : api) : bool :=
  match a with AExit | AUExit | ARealExit | APthreadExit | AExec true => false | _ => true end.

(** A run to s' in which thread t makes only moves of its own, all inside the code above
    [base]; the other threads do anything. *)
Fixpoint inside (dyn : bool) (t : Z) (base : list frame) (s : state) (l : list (Z * choice)) (s' : state) : Prop :=
  match l with
  | [] => s' = s
  | (u, c) :: r =>
      (u = t -> answers c = true /\ exists f p, th_stack (s_th s t) = f :: p ++ base) /\
      exists s1, step dyn s u c = Some s1 /\ inside dyn t base s1 r s'
  end.
