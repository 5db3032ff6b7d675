(** The small specification for "a program sees of its signals what it would see
    without monitor". *)
From Verif Require Import SignalModel SignalSpec SigOsModel.

(** All calls and all arrivals of a program, those inside handlers included. *)
Fixpoint calls_of (i : item) : list op :=
  match i with
  | Call x => [x]
  | Arrive _ _ body => (fix go l := match l with [] => [] | i :: r => calls_of i ++ go r end) body
  end.
Definition calls_in (l : list item) : list op := flat_map calls_of l.

Fixpoint arrivals_of (i : item) : list (Z * bool) :=
  match i with
  | Call _ => []
  | Arrive s sync body =>
      (s, sync) :: (fix go l := match l with [] => [] | i :: r => arrivals_of i ++ go r end) body
  end.
Definition arrivals_in (l : list item) : list (Z * bool) := flat_map arrivals_of l.

(** A program starts with every signal at its default or ignored (execve(2)). *)
Definition fresh (k : kern) : Prop :=
  forall s, k_act k s = mkact HDfl 0 0 \/ k_act k s = mkact HIgn 0 0.

(** Not a one-shot handler; signal() is not called with SIG_ERR. *)
Definition ordinary (x : op) : Prop :=
  match x with
  | OpSigaction _ (Some a) _ => N.testbit (sa_flags a) 31 = false
  | OpSignal _ h => h <> HErr
  | _ => True
  end.

Definition never_ignored (k0 : kern) (calls : list op) (s : Z) : Prop :=
  sa_handler (k_act k0 s) <> HIgn /\
  forall x a, In x calls -> app_request x s = Some a -> sa_handler a <> HIgn.

(** SIGSEGV, SIGBUS and SIGILL come from faults only; a fault is not ignored. *)
Definition usual_arrival (k0 : kern) (calls : list op) (a : Z * bool) : Prop :=
  (In (fst a) [SIGSEGV; SIGBUS; SIGILL] -> snd a = true) /\
  (snd a = true -> never_ignored k0 calls (fst a)).

Definition usual (k0 : kern) (prog : list item) : Prop :=
  fresh k0 /\ Forall ordinary (calls_in prog) /\
  Forall (usual_arrival k0 (calls_in prog)) (arrivals_in prog).

(** What a whole program sees, and whether it is still there at the end. *)
Definition seen_with (c : config) (dyn : bool) (cret : Z) (k0 : kern) (prog : list item)
  : list seen * bool :=
  let '(_, t, l) := mon_run c dyn cret (signal_init c (start k0)) prog in (t, l).
Definition seen_without (o : os) (k0 : kern) (prog : list item) : list seen * bool :=
  let '(_, t, l) := native_run o k0 prog in (t, l).

(** The application's action for s without monitor. *)
Definition native_action (c : config) (k0 : kern) (h : list op) (s : Z) : act :=
  k_act (native_after (c_os c) k0 h) s.

(** Where a blocked call can notice the difference. *)
Definition restart_agrees (a : act) (s : Z) (w : syscall) : Prop :=
  match disposition_of a s, w with
  | DHandler _ _, Restartable => N.testbit (sa_flags a) 28 = true
  | DHandler _ _, NotRestarted => True
  | (DIgnore | DNothing), Restartable => True
  | (DIgnore | DNothing), NotRestarted => False
  | (DStop | DTerminate), _ => True
  end.
