(** Vocabulary for "process exit ends". *)
From Verif Require Export LifeSpec.

Local Open Scope Z_scope.

(** What thread t does next when no other thread moves and no signal comes: the client's
    and the application's code returns v, and the wait of process exit (pthread.c
    608-615) gives up when it may.  A thread that cannot move stays where it is. *)
Definition move (dyn : bool) (v t : Z) (s : state) : state :=
  match step dyn s t CGiveUp with
  | Some s' => s'
  | None => match step dyn s t CStep with
            | Some s' => s'
            | None => match step dyn s t (CRet v) with Some s' => s' | None => s end
            end
  end.
Fixpoint alone (dyn : bool) (v t : Z) (n : nat) (s : state) : state :=
  match n with
  | O => s
  | S k => alone dyn v t k (move dyn v t s)
  end.

(** Thread t has just called exit, returned from main, called _exit, or got a fatal
    signal. *)
Definition leaving (s : state) (t how : Z) : Prop :=
  g_dead (s_g s) = false /\ th_live (s_th s t) = true /\
  exists r, th_stack (s_th s t) = FEPGet how :: FRealExit :: r \/
            th_stack (s_th s t) = FEPGet how :: FEndLibDyn :: FUExit :: r \/
            th_stack (s_th s t) = FEPGet how :: FEndLibDyn :: FSigEnd :: r.

(** Another thread that is on the list of threads and runs application code
    (tn_appl_started). *)
Definition other (s : state) (t n : Z) : Prop :=
  In n (g_list (s_g s)) /\ n_self (nd (s_g s) n) <> t /\ n_appl (nd (s_g s) n) = true.

(** No thread is stuck in fini_thread, or exit need not wait for it: every other thread
    whose fini_thread was begun has completed it (tn_fini_started, tn_fini_done); or
    there is one whose fini_thread was not begun; or t is not the main thread. *)
Definition not_stuck (s : state) (t : Z) : Prop :=
  (forall n, other s t n -> n_fstart (nd (s_g s) n) = true -> n_fdone (nd (s_g s) n) = true) \/
  (exists n, other s t n /\ n_fstart (nd (s_g s) n) = false) \/
  n_self (nd (s_g s) MAIN_TN) <> t.

(** begin_process_exit or fini_process is issued. *)
Definition exit_call (e : event) : bool :=
  match e with ECall _ (CbBeginExit _) | ECall _ (CbFiniProcess _ _) => true | _ => false end.
