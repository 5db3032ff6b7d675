(** Vocabulary for monitor_real_fork. *)
From Verif Require Export LifeSpec.

Local Open Scope Z_scope.

(** If thread t asked now, the query would answer v. *)
Definition asks (dyn : bool) (s : state) (t : Z) (q : query) (v : Z) : Prop :=
  exists s', run dyn s [(t, CCall (AQuery q)); (t, CStep)] = Some s' /\ s_tr s' = EQuery t q v :: s_tr s.

(** The child of monitor_real_fork, followed to the return of the call. *)
Definition real_child (t : Z) : list (Z * choice) := [(t, CCall ARealFork); (t, CChild); (t, CStep)].
