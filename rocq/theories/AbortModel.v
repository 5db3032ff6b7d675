(** monitor_real_abort, signal.c 779-796, beside other threads.

    The function sets the default action for SIGABRT (787-790), empties the calling
    thread's signal mask (791) and raises SIGABRT (792).  Other threads may call any of
    the wrapped functions between these three steps: [h1] before the mask is emptied,
    [h2] after it.  Each such call is one step (simplification; calls that overlap are
    in SigRaceModel.v).  Delivery is SigOsModel.v's. *)
From Verif Require Import SignalModel SigOsModel.

(** Calls made by other threads: they change the actions of the process but not the
    mask of the thread that aborts. *)
Definition others (c : config) (st : state) (h : list op) : state :=
  let st' := fst (run c st h) in
  set_kn st' (mkkern (k_act (kn st')) (k_mask (kn st))).

(** The state when SIGABRT is raised, line 792. *)
Definition abort_state (c : config) (st : state) (h1 h2 : list op) : state :=
  let st1 := set_kn st (fst (real_sigaction (c_os c) (kn st) SIGABRT (Some act0))) in
  let st2 := others c st1 h1 in
  let st3 := set_kn st2 (fst (real_sigprocmask (c_os c) (kn st2) SIG_SETMASK (Some 0%N))) in
  others c st3 h2.

(** What the program and its parent see, whether the process lives, and what monitor's
    own handler does if it is the one that runs (client handler, exit callbacks). *)
Definition abort_end (c : config) (dyn : bool) (cret : Z) (st : state) (h1 h2 : list op)
  : list seen * bool * list event :=
  let st' := abort_state c st h1 h2 in
  if mem SIGABRT (k_mask (kn st')) then ([], true, [])
  else
    let '(_, t, alive) := mon_item c dyn cret st' (Arrive SIGABRT false []) in
    (t, alive,
     match sa_handler (k_act (kn st') SIGABRT) with
     | HMon => snd (signal_handler c dyn st' SIGABRT [] cret [])
     | _ => []
     end).
