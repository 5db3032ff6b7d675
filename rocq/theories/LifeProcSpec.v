(** Vocabulary for the data of the process. *)
From Verif Require Export LifeOnce LifeSpec.

Local Open Scope Z_scope.

(** No handler runs, and no cancellation is acted upon, between the return of
    init_process and the storing of its value (main.c 282); forks as in
    [clean_forks]. *)
Definition stores (s : state) (t : Z) (c : choice) : Prop :=
  clean_forks s t c /\
  (forall v r, th_stack (s_th s t) = FBPStore v :: r -> c = CStep).

(** The event is the return of init_process. *)
Definition is_init_ret (e : event) : bool :=
  match e with ERet _ (CbInitProcess _) _ => true | _ => false end.
