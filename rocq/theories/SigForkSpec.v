(** What the properties of the signal layer in the child of a fork say. *)
From Verif Require Import SignalModel SignalSpec SigRaceModel SigRaceSpec SigForkModel.

(** The parent reached s0 in some way and forked there; s is a state of the child:
    some interleaving of the child's threads leads to it. *)
Definition in_child (c : config) (k0 : kern) (s0 s : rstate) : Prop :=
  reached c k0 s0 /\
  exists l, (forall t ch, In (t, ch) l -> forall g, inside (r_tr s0) t g = false) /\
            rrun c (child s0) l = Some s.

(** The same when thread f forks, perhaps from a handler that interrupted its call. *)
Definition in_child_of (c : config) (k0 : kern) (f : Z) (s0 s : rstate) : Prop :=
  reached c k0 s0 /\
  exists l, (forall t ch, In (t, ch) l -> t = f \/ forall g, inside (r_tr s0) t g = false) /\
            rrun c (child_of f s0) l = Some s.

(** The action that the application would be told for g, had it asked at s. *)
Definition tells (s : rstate) (g : Z) : act := appl_act (tab (r_st s) g).
