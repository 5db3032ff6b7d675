(** Vocabulary: schedules for the properties on signals to live threads. *)
From Verif Require Export LifeExitSpec.

(** The cleanup handler of a thread (904-935) before it has set tn_fini_started. *)
Definition cleaning (f : frame) : bool :=
  match f with FClean CLChk _ | FClean CLDone _ | FClean CLSet _ => true | _ => false end.

(** A thread does not leave its cleanup handler there by pthread_exit or cancellation
    (in a signal handler that interrupts it). *)
Definition whole_cleanup (s : state) (t : Z) (c : choice) : Prop :=
  c = CCancel \/ (exists r, th_stack (s_th s t) = FUnwind :: r) ->
  existsb cleaning (th_stack (s_th s t)) = false.

(** fork is not called when the thread lock is held. *)
Definition free_forks (s : state) (t : Z) (c : choice) : Prop :=
  c = CChild -> g_lock (s_g s) = None.

(** Thread u never calls monitor_block_shootdown. *)
Definition never_blocks (u : Z) (s : state) (t : Z) (c : choice) : Prop := t = u -> c <> CCall ABlock.

Definition calm (u : Z) (s : state) (t : Z) (c : choice) : Prop :=
  orderly s t c /\ whole_cleanup s t c /\ free_forks s t c /\ never_blocks u s t c.
