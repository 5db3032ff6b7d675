(** Vocabulary for the properties of the thread lock. *)
From Verif Require Export LifeExitSpec LifeAliveSpec.

(** Frames that wait for the thread lock. *)
Definition waiting (f : frame) : bool :=
  match f with FSLock _ | FBT BTLock _ | FClean CLLock _ | FPCLock _ _ _ => true | _ => false end.

(** No signal and no cancellation arrives in a thread that is inside a locked region,
    and no fork is made while the lock is held. *)
Definition shielded (s : state) (t : Z) (c : choice) : Prop :=
  free_forks s t c /\
  forall f r, th_stack (s_th s t) = f :: r -> locked f = true -> c = CStep.

(** A schedule that stays in this process. *)
Definition stays (l : list (Z * choice)) : Prop := forall t, ~ In (t, CChild) l.
