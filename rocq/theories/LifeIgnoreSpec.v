(** Vocabulary for monitor_disable_new_threads. *)
From Verif Require Export LifeBlockSpec.

(** Thread t has returned from monitor_disable_new_threads and not from
    monitor_enable_new_threads since. *)
Definition disabled (t : Z) (tr : list event) : Prop :=
  exists m b, tr = m ++ EIgnore t true :: b /\ ~ In (EIgnore t false) m.

(** The same, and t was main or had a number when it made the call. *)
Definition known_disabled (t : Z) (tr : list event) : Prop :=
  exists m b, tr = m ++ EIgnore t true :: b /\ ~ In (EIgnore t false) m /\ known t b.

(** t had disabled new threads before it made call q of pthread_create, and has not
    enabled them since. *)
Definition disabled_call (t : Z) (q : creq) (tr : list event) : Prop :=
  exists m m' b, tr = m ++ ECreateCall t q :: m' ++ EIgnore t true :: b /\
    ~ In (EIgnore t false) m /\ ~ In (EIgnore t false) m' /\ known t b.

(** P held of the history at a moment of call q of thread t. *)
Definition during (P : list event -> Prop) (t : Z) (q : creq) (tr : list event) : Prop :=
  exists ev b, tr = ev ++ b /\ In (ECreateCall t q) b /\ P b.
