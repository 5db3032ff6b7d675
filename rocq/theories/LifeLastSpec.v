(** Vocabulary for "the last thread of a process ends". *)
From Verif Require Export LifeExitSpec.

Local Open Scope Z_scope.

(** As [orderly], and nobody cancels the main thread. *)
Definition main_not_cancelled (s : state) (t : Z) (c : choice) : Prop :=
  orderly s t c /\ ~ (t = MAIN /\ c = CCancel).

(** No thread is left.  The C library then ends the process, without calling the
    library's exit. *)
Definition all_ended (s : state) : Prop := forall t, th_live (s_th s t) = false.
