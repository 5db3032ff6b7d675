(** What C26 means: heads denote ordinary lists. *)
From Verif Require Import QueueModel.

(** The abstract lists, one per head, after an operation; None if the caller breaks the
    rules: an inserted element must exist and be on no list, a removed one must be on one
    (named here by its head). *)
Definition lists := Z -> list Z.
Inductive aop := AInsert (h e : Z) | ARemove (h e : Z).
Definition conc (o : aop) : qop :=
  match o with AInsert h e => QInsert h e | ARemove _ e => QRemove e end.
Definition allowed (mem : Z -> bool) (L : lists) (o : aop) : Prop :=
  match o with
  | AInsert _ e => e <> 0 /\ mem e = true /\ forall g, ~ In e (L g)
  | ARemove h e => In e (L h)
  end.
Definition after (L : lists) (o : aop) : lists :=
  match o with
  | AInsert h e => upd L h (e :: L h)
  | ARemove h e => upd L h (remove Z.eq_dec e (L h))
  end.
Fixpoint allowed_run (mem : Z -> bool) (L : lists) (os : list aop) : Prop :=
  match os with
  | [] => True
  | o :: r => allowed mem L o /\ allowed_run mem (after L o) r
  end.
Definition after_run (L : lists) (os : list aop) : lists := fold_left after os L.

(** The list that following the forward pointers from head [h] yields is [l]. *)
Definition denotes (q : qheap) (h : Z) (l : list Z) : Prop :=
  exists fuel, list_elements q h fuel = Some l.
