(** Several threads in system() (src/fork.c 521-603), with cancellation.

    The steps of a call are those of SystemModel.v (y_step).  Among the functions
    monitor_system calls between 559 and 593 only waitpid (584) is a cancellation point;
    no cleanup handler is pushed, so a cancelled thread leaves the call there and runs
    none of 591-602.  Simplification: one step stands for 563-589 (fork and all the
    waits); the cancellation may come at any of the waits. *)
From Verif Require Export SystemModel.

Inductive sitem := Go (t : Z) | Cancel (t : Z).

(** Deferred cancellation: outside waitpid the request only stays pending. *)
Definition cancelled (l : sysloc) : sysloc :=
  match l with LRun _ _ _ => LDone | _ => l end.

Definition x_step (o : os) (s : sysall) (i : sitem) : sysall :=
  match i with
  | Go t => y_step o s t
  | Cancel t => mksysall (y_acts s) (upd (y_loc s) t (cancelled (y_loc s t))) (y_mask s)
  end.
Definition x_run (o : os) (s : sysall) (l : list sitem) : sysall := fold_left (x_step o) l s.
