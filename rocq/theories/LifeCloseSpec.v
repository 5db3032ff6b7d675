(** Vocabulary: the moment the exit code stops waiting for fini_thread callbacks. *)
From Verif Require Export LifeExitSpec.

(** The points between the test of monitor_fini_thread_done and the call of fini_thread,
    in the cleanup handler (922-931) and in the shootdown handler (463-472). *)
Definition past_check (f : frame) : bool :=
  match f with
  | FHSet _ | FHCall _ _ | FClean CLSet _ | FClean CLCall _ => true
  | _ => false
  end.
Definition at_end (f : frame) : bool := match f with FSEnd _ => true | _ => false end.

(** The exit code sets monitor_fini_thread_done (617) when no thread is at one of them. *)
Definition quiet_end (s : state) (t : Z) (c : choice) : Prop :=
  forall f r, th_stack (s_th s t) = f :: r -> at_end f = true -> c = CStep ->
  forall t' f', In f' (th_stack (s_th s t')) -> past_check f' = false.
