(** Vocabulary for "a failed exec leaves the process as it was". *)
From Verif Require Export LifeSpec.

Local Open Scope Z_scope.

(** Two states in which everything is the same: the library, all threads, the history. *)
Definition same_state (s s' : state) : Prop :=
  s_g s' = s_g s /\ (forall u, s_th s' u = s_th s u) /\ s_next s' = s_next s /\ s_tr s' = s_tr s.

(** Thread t runs application or client code. *)
Definition in_open_code (s : state) (t : Z) : Prop :=
  exists f r, th_stack (s_th s t) = f :: r /\ open f = true.
