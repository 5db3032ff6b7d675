(** Vocabulary for monitor_broadcast_signal while other threads run. *)
From Verif Require Export LifeBcastSpec.

(** Thread t calls monitor_broadcast_signal, or it returns in thread t. *)
Definition bc_mark (t : Z) (e : event) : bool :=
  match e with EBcast t' _ | EBcastRet t' _ => t' =? t | _ => false end.

(** [m] is what happened, in any thread, since thread t called
    monitor_broadcast_signal(sig); before that the history was [older]; thread t has
    neither called it again nor returned from it since. *)
Definition bc_window (tr m : list event) (t sig : Z) (older : list event) : Prop :=
  tr = m ++ EBcast t sig :: older /\ existsb (bc_mark t) m = false.

(** The start routine of thread u has begun. *)
Definition begun (u : Z) (tr : list event) : Prop := exists st ar, In (EStart u st ar) tr.
