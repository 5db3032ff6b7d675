(** Vocabulary for "callbacks nest". *)
From Verif Require Export LifeSpec.

Local Open Scope Z_scope.

(** The callbacks issued in thread t that have not returned, the newest first, read off
    the history (newest event first): a call opens one, a return closes the newest. *)
Fixpoint opens (t : Z) (tr : list event) : list cb :=
  match tr with
  | [] => []
  | ECall u c :: b => if u =? t then c :: opens t b else opens t b
  | ERet u _ _ :: b => if u =? t then tl (opens t b) else opens t b
  | _ :: b => opens t b
  end.

(** The callbacks thread t is in, the innermost first. *)
Fixpoint within (st : list frame) : list cb :=
  match st with
  | [] => []
  | FCb c _ :: r => c :: within r
  | _ :: r => within r
  end.

(** Thread t does not leave by pthread_exit or cancellation, and the only children of
    forks that are followed are its own. *)
Definition stays_put (t : Z) (s : state) (u : Z) (c : choice) : Prop :=
  (u = t -> c <> CCancel /\ forall r, th_stack (s_th s t) <> FUnwind :: r) /\
  (c = CChild -> u = t).
