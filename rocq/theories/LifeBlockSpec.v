(** Vocabulary for monitor_block_shootdown. *)
From Verif Require Export LifeExitSpec.

(** Between the test of tn_block_shootdown (457, 919) and the call of fini_thread; and
    inside monitor_block_shootdown after it has set the flag. *)
Definition testing (f : frame) : bool :=
  match f with
  | FHDone _ | FHSet _ | FHCall _ _ => true
  | FClean CLDone _ | FClean CLSet _ | FClean CLCall _ => true
  | FBlock2 => true
  | _ => false
  end.

(** No signal handler runs in a thread there. *)
Definition steady (s : state) (t : Z) (c : choice) : Prop :=
  orderly s t c /\ (forall f r, th_stack (s_th s t) = f :: r -> testing f = true -> c = CStep).

(** Thread t is main or has been given a number. *)
Definition known (t : Z) (tr : list event) : Prop := t = MAIN \/ exists k, In (EReg t k) tr.
