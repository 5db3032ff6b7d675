(** What "a signal that arrives while an action is changed is handled by the action
    before or after the change" means.  Histories are newest first. *)
From Verif Require Import SignalModel SignalSpec SigRaceModel SigRaceSpec DelivModel.

Definition dreached (c : config) (k0 : kern) (s : dstate) : Prop :=
  exists l, drun c (dstart c k0) l = Some s.

(** The calls and returns in a history. *)
Fixpoint api (h : list devent) : list event :=
  match h with [] => [] | DEv e :: r => e :: api r | _ :: r => api r end.

(** The calls made so far, oldest first. *)
Definition made (h : list devent) : list op := calls (api h).

(** No call for g is being made when the delivery on thread t begins, and none is made
    until now. *)
Fixpoint undisturbed (h : list devent) (t g : Z) : Prop :=
  match h with
  | [] => True
  | DArrive u _ :: r => if u =? t then quiet (api r) g else undisturbed r t g
  | DEv (ECall _ o) :: r => op_sig o <> g /\ undisturbed r t g
  | _ :: r => undisturbed r t g
  end.

(** The client's part in the delivery on thread t. *)
Fixpoint client_part (h : list devent) (t : Z) : list devent :=
  match h with
  | [] => []
  | DArrive u g :: r => if u =? t then [] else client_part r t
  | DClient u g f :: r => if u =? t then DClient u g f :: client_part r t else client_part r t
  | DClientRet u x :: r => if u =? t then DClientRet u x :: client_part r t else client_part r t
  | _ :: r => client_part r t
  end.

(** What the application's action says should happen. *)
Definition app_result (a : act) (g : Z) : result :=
  match disposition_of a g with
  | DIgnore => Ignored
  | DHandler h b => Ran h b
  | DNothing => NoAction
  | DStop => Stopped
  | DTerminate => Terminated
  end.

(** The events of a delivery by the client's handler and the application's action. *)
Definition proper (client : option N) (a : act) (t g : Z) (part : list devent) (r : result) : Prop :=
  match client with
  | None => part = [] /\ r = app_result a g
  | Some f => exists x, part = [DClientRet t x; DClient t g f] /\
                        r = if x =? 0 then Taken else app_result a g
  end.

(** A call that takes a handler away: SIG_DFL or SIG_IGN, or no client handler. *)
Definition removes (o : op) (g : Z) : bool :=
  match o with
  | OpSigaction s (Some a) _ =>
      (s =? g) && match sa_handler a with HDfl | HIgn => true | _ => false end
  | OpSignal s h => (s =? g) && match h with HDfl | HIgn => true | _ => false end
  | OpClient s None _ => s =? g
  | _ => false
  end.

(** Thread t is inside such a call. *)
Fixpoint removing (tr : list event) (t g : Z) : bool :=
  match tr with
  | [] => false
  | ECall u o :: r => if u =? t then removes o g else removing r t g
  | ERet u _ _ :: r => if u =? t then false else removing r t g
  end.

(** None runs during the delivery on thread t. *)
Fixpoint none_removed (h : list devent) (t g : Z) : Prop :=
  match h with
  | [] => True
  | DArrive u _ :: r =>
      if u =? t then forall v, removing (api r) v g = false else none_removed r t g
  | DEv (ECall _ o) :: r => removes o g = false /\ none_removed r t g
  | _ :: r => none_removed r t g
  end.


(** The history before the signal of the delivery on thread t arrived, and the calls
    made since then. *)
Fixpoint at_arrival (h : list devent) (t : Z) : list devent :=
  match h with
  | [] => []
  | DArrive u _ :: r => if u =? t then r else at_arrival r t
  | _ :: r => at_arrival r t
  end.
Fixpoint since (h : list devent) (t : Z) : list op :=
  match h with
  | [] => []
  | DArrive u _ :: r => if u =? t then [] else since r t
  | DEv (ECall _ o) :: r => o :: since r t
  | _ :: r => since r t
  end.

(** The action in force when the signal arrived, or one asked for since. *)
Definition candidate (k0 : kern) (h : list devent) (t g : Z) (a : act) : Prop :=
  a = last_app (made (at_arrival h t)) g (k_act k0 g) \/
  exists o, In o (since h t) /\ app_request o g = Some a.
(** The same for the client's handler. *)
Definition client_candidate (h : list devent) (t g : Z) (f : option N) : Prop :=
  f = last_client (made (at_arrival h t)) g None \/
  exists a, In (OpClient g f a) (since h t).
