(** Vocabulary for the properties of monitor_broadcast_signal. *)
From Verif Require Export LifeExitSpec LifeFiniSpec LifeAliveSpec.

(** Thread u is inside its start routine: its begin-thread function (pthread.c
    940-1001) waits at line 993 for it to return. *)
Definition in_start (s : state) (u : Z) : Prop := exists n, In (FBT BTPop n) (th_stack (s_th s u)).

(** Thread t sends [sig] to thread u. *)
Definition kill_of (t u sig : Z) (e : event) : bool :=
  match e with EKill t' u' s' => (t' =? t) && (u' =? u) && (s' =? sig) | _ => false end.

(** init_thread has returned in thread u. *)
Definition initiated (u : Z) (tr : list event) : Prop := exists k d v, In (ERet u (CbInitThread k d) v) tr.

(** The schedules in which the check and the setting of tn_fini_started are not
    separated, and no fork is made with the thread lock held. *)
Definition safe_free (s : state) (t : Z) (c : choice) : Prop := fini_safe s t c /\ free_forks s t c.
