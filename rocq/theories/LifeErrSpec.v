(** Vocabulary for ends of the process inside the C library. *)
From Verif Require Export LifeStopSpec LifeErrModel.

Local Open Scope Z_scope.

(** The callbacks in a trace, oldest first. *)
Definition callbacks (tr : list event) : list cb :=
  rev (flat_map (fun e => match e with ECall _ c => [c] | _ => [] end) tr).
