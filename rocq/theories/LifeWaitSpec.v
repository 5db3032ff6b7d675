(** Vocabulary for the wait of the exit code. *)
From Verif Require Export LifeFiniSpec.

(** The points at which tn_fini_started is set and fini_thread is about to be
    issued: 459, 628 and 925 of pthread.c. *)
Definition pend_call (f : frame) : bool :=
  match f with FHCall _ _ | FClean CLCall _ | FSOwnCall _ _ => true | _ => false end.
(** The thread itself is not interrupted there. *)
Definition call_at_once (s : state) (t : Z) (c : choice) : Prop :=
  match th_stack (s_th s t) with f :: _ => pend_call f = true -> c = CStep | [] => True end.
Definition prompt (s : state) (t : Z) (c : choice) : Prop := orderly s t c /\ call_at_once s t c.
