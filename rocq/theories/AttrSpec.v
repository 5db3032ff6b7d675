(** What C43 means, independently of the code. *)
From Verif Require Import AttrModel.

(** The size the client asked for can be applied to object [a], whose size is [n]. *)
Definition applicable (l : attr_lib) (reset : Z -> Z) (a n : Z) : bool :=
  a_get l a && negb (reset n =? n) && a_set l (reset n).

(** How many times an object is destroyed. *)
Definition destroyed (a : Z) (t : list aev) : nat :=
  length (filter (fun e => match e with ADestroy b => a =? b | _ => false end) t).

(** The creations: attribute pointer and its size at that moment. *)
Definition creations (t : list aev) : list (Z * option Z) :=
  flat_map (fun e => match e with ACreate a n => [(a, n)] | _ => [] end) t.
