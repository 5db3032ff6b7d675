(** What C15, C16 and C52 mean, independently of the code. *)
From Verif Require Import SystemModel ExecModel.

(** Two signal states the process cannot tell apart. *)
Definition same_signals (k k' : kern) : Prop :=
  (forall sig, k_act k sig = k_act k' sig) /\ k_mask k = k_mask k'.

(** What holds of every kernel: no mask contains an unblockable signal, and
    SIGINT and SIGQUIT can be handled. *)
Definition sane (o : os) (k : kern) : Prop :=
  N.land (k_mask k) (k_noblock o) = 0%N /\
  (forall sig, N.land (sa_mask (k_act k sig)) (k_noblock o) = 0%N) /\
  k_reject o SIGINT = false /\ k_reject o SIGQUIT = false.

(** The first answer of waitpid that is not EINTR decides; -1 on another error. *)
Definition wait_answer (ws : list waited) : option Z :=
  match filter (fun w => match w with WIntr => false | _ => true end) ws with
  | WStatus s :: _ => Some s
  | WFail :: _ => Some (-1)
  | _ => None
  end.

(** The callbacks among the events. *)
Definition is_callback (e : sev) : bool :=
  match e with SPreFork | SPostFork _ _ | SInitLib | SInitProcess _ => true | _ => false end.
Definition callbacks_of (t : list sev) : list sev := filter is_callback t.

(** Every wait is for the child. *)
Definition waits_only (pid : Z) (t : list sev) : Prop :=
  forall e, In e t -> match e with SWait p => p = pid | _ => True end.
Definition forks_of (t : list sev) : list Z :=
  flat_map (fun e => match e with SForked p => [p] | _ => [] end) t.
