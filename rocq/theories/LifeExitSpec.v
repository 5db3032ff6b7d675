(** Vocabulary for the exit properties: which schedules are considered. *)
From Verif Require Export LifeSpec.

(** Frames of a created thread's own function, up to the release (435)
    of its node. *)
Definition owner (f : frame) : bool :=
  match f with
  | FBT _ _ => true
  | FClean CLFree _ | FClean CLUnlock _ => false
  | FClean _ _ => true
  | FCb _ (KInitThread _) | FCb _ (KFiniCleanup _) => true
  | _ => false
  end.

(** A thread whose own function, with the cleanup, is over makes no call into the
    library and gets no fatal signal (in its thread-specific-data destructors); the
    thread-specific data of the library may then point to a released node. *)
Definition no_late (s : state) (t : Z) (c : choice) : Prop :=
  (c = CFatal \/ exists a, c = CCall a) ->
  t = MAIN \/ th_tsd (s_th s t) = None \/ existsb owner (th_stack (s_th s t)) = true.

(** Children are followed only of forks made before any thread ran the exit
    callbacks. *)
Definition early_forks (s : state) (t : Z) (c : choice) : Prop :=
  c = CChild -> g_cookie (s_g s) = false.

Definition orderly (s : state) (t : Z) (c : choice) : Prop :=
  clean_forks s t c /\ early_forks s t c /\ no_late s t c.

(** ** Vocabulary on exit *)

(** Thread t enters end_process; thread t runs the exit callbacks. *)
Definition exit_of (t : Z) (e : event) : bool :=
  match e with EExit t' _ => t' =? t | _ => false end.
Definition win_of (t : Z) (e : event) : bool :=
  match e with EWin t' => t' =? t | _ => false end.

(** The exit callbacks are over: fini_process has returned, or the thread that runs
    them has entered end_process again, from one of them. *)
Definition finished (tr : list event) : Prop :=
  (exists w how d v, In (ERet w (CbFiniProcess how d) v) tr) \/
  (exists w, In (EWin w) tr /\ (2 <= count (exit_of w) tr)%nat).
