(** What "the new program gets the caller's environment without LD_PRELOAD" means when
    several threads call monitor_real_execve.  Histories are newest first. *)
From Verif Require Import EnvRaceModel.
From Coq Require Import List. Import ListNotations.

(** The environment of the call thread t is in. *)
Fixpoint current (h : list event) (t : Z) : option (list bytes) :=
  match h with
  | [] => None
  | Call u env :: r => if u =? t then Some env else current r t
  | Exec u _ :: r | Fail u :: r | Bad u :: r => if u =? t then None else current r t
  end.

(** 248 variables or fewer. *)
Definition small (env : list bytes) : bool := Z.of_nat (length env) <=? 248.

Definition in_small (h : list event) (t : Z) : Prop :=
  exists env, current h t = Some env /\ small env = true.

(** No other call with a small environment overlaps the call thread t is in. *)
Fixpoint alone (h : list event) (t : Z) : Prop :=
  match h with
  | [] => True
  | Call u env :: r =>
      if u =? t then forall v, v <> t -> ~ in_small r v
      else small env = false /\ alone r t
  | _ :: r => alone r t
  end.

Definition was_passed (h : list event) (e : bytes) : Prop :=
  exists t env, In (Call t env) h /\ In e env.

(** The caller's variables that do not mention LD_PRELOAD (see C11). *)
Definition without_preload (env : list bytes) : list bytes :=
  filter (fun e => negb (contains LD_PRELOAD e)) env.
