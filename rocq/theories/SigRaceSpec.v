(** What the concurrent sigaction properties say. *)
From Verif Require Import SignalModel SignalSpec SigRaceModel.

(** States that some schedule reaches. *)
Definition reached (c : config) (k0 : kern) (s : rstate) : Prop :=
  exists l, rrun c (rstart c k0) l = Some s.

(** The calls made so far, oldest first. *)
Fixpoint calls (tr : list event) : list op :=
  match tr with
  | [] => []
  | ECall _ o :: r => calls r ++ [o]
  | ERet _ _ _ :: r => calls r
  end.

(** Thread t is inside a call for signal g: its last event is an ECall for g. *)
Fixpoint inside (tr : list event) (t g : Z) : bool :=
  match tr with
  | [] => false
  | ECall u o :: r => if u =? t then op_sig o =? g else inside r t g
  | ERet u _ _ :: r => if u =? t then false else inside r t g
  end.

(** Nobody is inside a call for g. *)
Definition quiet (tr : list event) (g : Z) : Prop := forall t, inside tr t g = false.

(** Calls for g never overlapped: each was made while nobody was inside one. *)
Fixpoint apart (tr : list event) (g : Z) : Prop :=
  match tr with
  | [] => True
  | ECall _ o :: r => (op_sig o = g -> quiet r g) /\ apart r g
  | ERet _ _ _ :: r => apart r g
  end.

(** An event of thread t. *)
Definition by_thread (t : Z) (e : event) : bool :=
  match e with ECall u _ | ERet u _ _ => u =? t end.

(** What a call answers after the calls h were made one at a time. *)
Definition answer_after (c : config) (k0 : kern) (h : list op) (o : op) : ret :=
  match o with
  | OpSigaction s a w => spec_sigaction c k0 h s a w
  | OpSignal s _ => spec_signal c k0 h s
  | OpClient s _ _ => ret_int (if managedb c s then 0 else -1)
  | OpMask _ _ => ret_int 0
  end.

(** The actions for g that could be in force: the one at program start and those
    the application asked for. *)
Definition asked (k0 : kern) (h : list op) (g : Z) (a : act) : Prop :=
  a = k_act k0 g \/ exists o, In o h /\ app_request o g = Some a.

(** The mask of the most recent request for g, by the application or the client. *)
Definition wants_blocked (h : list op) (g x : Z) : bool :=
  match last_request (rev h) g with None => false | Some (_, a, _) => mem x (sa_mask a) end.
