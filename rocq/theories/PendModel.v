(** Signals that are blocked, wait, and are delivered later: one thread, with
    monitor (signal.c as in SignalModel.v) and without it.

    The operating system's side is Linux: a signal that is sent becomes pending;
    pending signals that are not blocked are delivered at once, the lowest number
    first; the handler runs with its mask added, and its return puts the mask
    back; setting an ignoring action throws a pending signal away (sigaction(2),
    signal(7)).  It is trusted.

    Simplifications.  A signal is pending or not: several real-time signals of
    one number count as one.  SIGCONT does not cancel stop signals.  Client
    handlers and exit callbacks make no calls of their own.  When several signals
    are delivered together, each handler starts before the next one is put on
    top of it. *)
From Verif Require Import SignalModel SigOsModel.

(** What happens when a signal is delivered. *)
Inductive taken :=
| TNothing                       (* no trace *)
| TStop
| TDie
| TRun (h : handler) (three : bool)
| TDoom.                         (* monitor's handler has emptied the mask (signal.c 257) and
                                    is about to raise the signal again (264) *)

(** A process under one of the two systems. *)
Record sys (S : Type) := mksys {
  y_kern : S -> kern;                     (* the kernel's state *)
  y_mask : S -> sigset -> S;              (* the kernel changes the mask *)
  y_call : S -> op -> S;                  (* the program makes a call *)
  y_take : S -> Z -> S * taken }.         (* a signal is delivered *)
Arguments mksys {S}. Arguments y_kern {S}. Arguments y_mask {S}.
Arguments y_call {S}. Arguments y_take {S}.

(** A handler that has not returned: the mask to put back; or the end of
    monitor's handler for a fatal signal. *)
Inductive frame := FHandler (saved : sigset) | FDoom (s : Z).

Record proc (S : Type) := mkproc {
  p_sys : S;
  p_pend : sigset;
  p_frames : list frame;
  p_seen : list seen;             (* newest first *)
  p_alive : bool }.
Arguments mkproc {S}. Arguments p_sys {S}. Arguments p_pend {S}.
Arguments p_frames {S}. Arguments p_seen {S}. Arguments p_alive {S}.

Section Machine.
Context {S : Type} (o : os) (y : sys S).

Definition mask_of (p : proc S) : sigset := k_mask (y_kern y (p_sys p)).

(** The signal the kernel delivers next. *)
Definition next (p : proc S) : option Z :=
  find (fun s => mem s (p_pend p) && negb (mem s (mask_of p))) all_sigs.

(** Delivery of s: the system's part gives the state with the handler's mask;
    without a handler of the application the old mask comes back. *)
Definition take (p : proc S) (s : Z) : proc S :=
  let old := mask_of p in
  let pend := sdel s (p_pend p) in
  match y_take y (p_sys p) s with
  | (x, TNothing) => mkproc (y_mask y x old) pend (p_frames p) (p_seen p) true
  | (x, TStop) => mkproc (y_mask y x old) pend (p_frames p) (Stopped :: p_seen p) true
  | (x, TDie) => mkproc x pend (p_frames p) (Died s :: p_seen p) false
  | (x, TRun h b) => mkproc x pend (FHandler old :: p_frames p) (Ran h b s :: p_seen p) true
  | (x, TDoom) => mkproc x pend (FDoom s :: p_frames p) (p_seen p) true
  end.

(** All deliverable signals are delivered; then a raise that is due happens.
    Every delivery takes a signal out of a set of 64. *)
Fixpoint settle (n : nat) (p : proc S) : proc S :=
  match n with
  | O => p
  | Datatypes.S n =>
      if p_alive p then
        match next p with
        | Some s => settle n (take p s)
        | None =>
            match p_frames p with
            | FDoom s :: _ => mkproc (p_sys p) (p_pend p) (p_frames p) (Died s :: p_seen p) false
            | _ => p
            end
        end
      else p
  end.

(** The action of a signal that a call sets in the kernel. *)
Definition sets (x : op) : option Z :=
  match x with
  | OpSigaction s (Some _) _ => Some s
  | OpSignal s h => match h with HErr => None | _ => Some s end
  | OpClient s _ (Some _) => Some s
  | _ => None
  end.

(** A kernel action that ignores the signal. *)
Definition ignoring (k : kern) (s : Z) : bool :=
  match sa_handler (k_act k s) with
  | HIgn => true
  | HDfl => existsb (Z.eqb s) [SIGCHLD; SIGCONT; SIGURG; SIGWINCH]
  | _ => false
  end.

(** Does the call throw a pending signal away? *)
Definition discards (k : kern) (x : op) (s : Z) : bool :=
  match sets x with
  | Some g => (g =? s) && in_range s && negb (k_reject o s) && negb (s =? SIGKILL) &&
              negb (s =? SIGSTOP) && ignoring k s
  | None => false
  end.
Definition flush (k : kern) (x : op) (pend : sigset) : sigset :=
  match sets x with
  | Some s => if discards k x s then sdel s pend else pend
  | None => pend
  end.

(** What happens to the process: it makes a call, a signal is sent to it, the
    running handler returns. *)
Inductive happening := HCall (x : op) | HSend (s : Z) | HReturn.

Definition happen (p : proc S) (e : happening) : proc S :=
  match e with
  | HCall x =>
      let x' := y_call y (p_sys p) x in
      mkproc x' (flush (y_kern y x') x (p_pend p)) (p_frames p) (p_seen p) (p_alive p)
  | HSend s => mkproc (p_sys p) (sadd s (p_pend p)) (p_frames p) (p_seen p) (p_alive p)
  | HReturn =>
      match p_frames p with
      | FHandler m :: r => mkproc (y_mask y (p_sys p) m) (p_pend p) r (p_seen p) (p_alive p)
      | _ => p
      end
  end.

Definition step (p : proc S) (e : happening) : proc S :=
  if p_alive p then settle 66 (happen p e) else p.

Definition runs (p : proc S) (script : list happening) : proc S := fold_left step script p.

Definition begin (x : S) (pend : sigset) : proc S := settle 66 (mkproc x pend [] [] true).
End Machine.

(** ** Without monitor *)
Definition native_take (o : os) (k : kern) (s : Z) : kern * taken :=
  match kernel_deliver k s false with
  | (k1, KNothing) => (k1, TNothing)
  | (k1, KStop) => (k1, TStop)
  | (k1, KDie) => (k1, TDie)
  | (k1, KRun h b) => (mkkern (k_act k1) (handler_mask o k s), TRun h b)
  end.

Definition native (o : os) : sys kern :=
  mksys (fun k => k) (fun k m => mkkern (k_act k) m) (native_op o) (native_take o).

(** ** With monitor: the kernel starts monitor_signal_handler (signal.c 196-276)
    with the mask of the action monitor installed. *)
Definition with_mask (st : state) (m : sigset) : state := set_kn st (mkkern (k_act (kn st)) m).

Definition mon_take (c : config) (dyn : bool) (cret : Z) (st : state) (s : Z) : state * taken :=
  match kernel_deliver (kn st) s false with
  | (k1, KNothing) => (set_kn st k1, TNothing)
  | (k1, KStop) => (set_kn st k1, TStop)
  | (k1, KDie) => (set_kn st k1, TDie)
  | (k1, KRun HMon _) =>
      let inside := set_kn st (mkkern (k_act k1) (handler_mask (c_os c) (kn st) s)) in
      let '(st1, evs) := signal_handler c dyn inside s [] cret [] in
      if gone (kn st1) s false evs then (st1, TDoom)
      else if raised SIGSTOP evs then (st1, TStop)                       (* 247 *)
      else match app_call evs with
           | Some (h, b) => (st1, TRun h b)                              (* 270-274 *)
           | None => (st1, TNothing)
           end
  | (k1, KRun h b) =>
      (set_kn st (mkkern (k_act k1) (handler_mask (c_os c) (kn st) s)), TRun h b)
  end.

Definition monitored (c : config) (dyn : bool) (cret : Z) : sys state :=
  mksys kn with_mask (fun st x => fst (do_op c st x)) (mon_take c dyn cret).

(** A program from its start: the kernel as exec left it, signals pending. *)
Definition run_without (o : os) (k0 : kern) (pend : sigset) (script : list happening) : proc kern :=
  runs o (native o) (begin (native o) k0 pend) script.
Definition run_with (c : config) (dyn : bool) (cret : Z) (k0 : kern) (pend : sigset)
  (script : list happening) : proc state :=
  runs (c_os c) (monitored c dyn cret) (begin (monitored c dyn cret) (signal_init c (start k0)) pend)
       script.
