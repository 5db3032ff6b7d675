(** What C38 means, independently of the code. *)
From Verif Require Import ShootModel.

(** Threads the exit must wait for: registered, started, not the exiting one. *)
Definition others (self : Z) (l : list tnode) : list tnode :=
  filter (fun n => negb (n_self n =? self) && n_appl n) l.
(** How many of them have begun their fini_thread callback. *)
Definition begun (self : Z) (l : list tnode) : Z :=
  Z.of_nat (length (filter n_fstart (others self l))).
(** All of them have finished it. *)
Definition all_finished (self : Z) (l : list tnode) : Prop :=
  forall n, In n (others self l) -> n_fdone n = true.
(** Some of them has not even begun. *)
Definition some_not_begun (self : Z) (l : list tnode) : Prop :=
  exists n, In n (others self l) /\ n_fstart n = false.

(** The largest number of begun callbacks seen in a list of passes. *)
Fixpoint most_begun (self : Z) (ps : list (list tnode * timeval)) : Z :=
  match ps with [] => 0 | p :: r => Z.max (begun self (fst p)) (most_begun self r) end.

(** When the number of begun callbacks last increased; [earlier] has the latest pass
    first; [start] if it never did. *)
Fixpoint last_increase (self : Z) (start : timeval) (earlier : list (list tnode * timeval)) : timeval :=
  match earlier with
  | [] => start
  | p :: r => if begun self (fst p) >? most_begun self r then snd p else last_increase self start r
  end.

(** Microseconds. *)
Definition usec (t : timeval) : Z := tv_sec t * 1000000 + tv_usec t.
Definition valid_time (t : timeval) : Prop := 0 <= tv_usec t < 1000000.
