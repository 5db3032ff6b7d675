(** The small specification for "blocked signals wait and arrive as without
    monitor". *)
From Verif Require Import SignalModel SignalSpec SigOsModel SigOsSpec PendModel.

Definition calls_made (script : list happening) : list op :=
  flat_map (fun e => match e with HCall x => [x] | _ => [] end) script.

(** A signal of the application: not reserved by the client, now or later, not
    the one that ends threads; and not one of the three that monitor takes for
    faults. *)
Definition plain (c : config) (script : list happening) (s : Z) : Prop :=
  1 <= s < 65 /\ s <> spec_shoot c /\
  (managedb c s = true -> reserved c s = false) /\
  (forall h a, ~ In (HCall (OpClient s h a)) script) /\
  ~ In s [SIGSEGV; SIGBUS; SIGILL].

Definition only_plain (c : config) (script : list happening) (pend : sigset) : Prop :=
  (forall s, 1 <= s -> mem s pend = true -> plain c script s) /\
  (forall s, In (HSend s) script -> plain c script s).

(** In the run without monitor, no call throws away a signal that is pending,
    and nothing else is pending when a signal kills the process. *)
Definition calm_at (o : os) (p : proc kern) (e : happening) : Prop :=
  (forall x s, e = HCall x -> p_alive p = true ->
     discards o (native_op o (p_sys p) x) x s = true -> mem s (p_pend p) = false) /\
  (p_alive (step o (native o) p e) = false -> p_pend (step o (native o) p e) = 0%N).

Fixpoint calm (o : os) (p : proc kern) (script : list happening) : Prop :=
  match script with
  | [] => True
  | e :: r => calm_at o p e /\ calm o (step o (native o) p e) r
  end.

Definition calm_run (o : os) (k0 : kern) (pend : sigset) (script : list happening) : Prop :=
  let p0 := begin (native o) k0 pend in
  (p_alive p0 = false -> p_pend p0 = 0%N) /\ calm o p0 script.

(** What the program and its parent see: handler runs, stops, death (oldest
    first); whether the process is still there; which signals are pending
    (sigpending) and which are blocked, as far as they are its own. *)
Definition same_view {S S'} (y : sys S) (y' : sys S') (mine : Z -> Prop)
  (p : proc S) (p' : proc S') : Prop :=
  rev (p_seen p) = rev (p_seen p') /\ p_alive p = p_alive p' /\
  (p_alive p = true ->
   p_pend p = p_pend p' /\ length (p_frames p) = length (p_frames p') /\
   forall s, mine s -> mem s (mask_of y p) = mem s (mask_of y' p')).
