(** Vocabulary for the fini_thread properties. *)
From Verif Require Export LifeExitSpec.

(** The points of the cleanup handler (904-935) and of the shootdown handler
    (441-475, 1255-1264) between the test of tn_fini_started and its setting. *)
Definition in_window (f : frame) : bool :=
  match f with FHDone _ | FHSet _ | FClean CLDone _ | FClean CLSet _ => true | _ => false end.

(** The thread itself is not interrupted between the two: no signal is delivered to
    it there.  Other threads may run. *)
Definition set_at_once (s : state) (t : Z) (c : choice) : Prop :=
  match th_stack (s_th s t) with f :: _ => in_window f = true -> c = CStep | [] => True end.

Definition fini_safe (s : state) (t : Z) (c : choice) : Prop := orderly s t c /\ set_at_once s t c.

(** s' is reached from s by steps that satisfy [ok]. *)
Inductive later (dyn : bool) (ok : state -> Z -> choice -> Prop) (s : state) : state -> Prop :=
| later_now : later dyn ok s s
| later_step : forall s1 t c s2,
    later dyn ok s s1 -> ok s1 t c -> step dyn s1 t c = Some s2 -> later dyn ok s s2.
