(** Vocabulary for the exit properties: further assumptions on schedules. *)
From Verif Require Export LifeExitSpec.

(** No signal interrupts the winner between taking the exit token (main.c 311) and
    marking its own node (312-314). *)
Definition marks_at_once (s : state) (t : Z) (c : choice) : Prop :=
  forall how n r, th_stack (s_th s t) = FEPWin how (Some n) :: r -> c = CStep.

Definition orderly_marks (s : state) (t : Z) (c : choice) : Prop :=
  orderly s t c /\ marks_at_once s t c.
