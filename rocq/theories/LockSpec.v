(** What C24 and C25 mean, independently of the code. *)
From Verif Require Import LockModel.

(** Thread t is between a successful lock or trylock and the end of its unlock,
    according to what its calls returned: its last lock event is an acquisition. *)
Definition acquires (e : lev) : bool :=
  match e with LLocked => true | LTry 0 => true | _ => false end.
Definition releases (e : lev) : bool := match e with LUnlocked => true | _ => false end.
Definition counts_as (t : Z) (p : lev -> bool) (es : list (Z * lev)) : Z :=
  Z.of_nat (length (filter (fun x => (fst x =? t) && p (snd x)) es)).
Definition inside (t : Z) (es : list (Z * lev)) : Prop :=
  counts_as t acquires es = counts_as t releases es + 1.

(** ** An atomic register *)

(** The marks and stores of a trace, executed one after the other on a register that
    starts with [v], are all correct. *)
Fixpoint atomic_ok (v : Z) (tr : list cev) : Prop :=
  match tr with
  | [] => True
  | VLin _ old new ret :: r => ret = v /\ atomic_ok (if ret =? old then new else v) r
  | VStore _ x :: r => atomic_ok x r
  | _ :: r => atomic_ok v r
  end.

(** The value of the register at the end. *)
Fixpoint atomic_val (v : Z) (tr : list cev) : Z :=
  match tr with
  | [] => v
  | VLin _ old new ret :: r => atomic_val (if ret =? old then new else v) r
  | VStore _ x :: r => atomic_val x r
  | _ :: r => atomic_val v r
  end.

(** What one thread does in a trace: a sequence of call, one mark with the same
    arguments, return with the mark's result.  [CNone]: no call open; [COpen]: called,
    no mark yet; [CMarked]: the mark has been met. *)
Inductive cphase := CNone | COpen (old new : Z) | CMarked (ret : Z).
Fixpoint thread_ok (t : Z) (p : cphase) (tr : list cev) : Prop :=
  match tr with
  | [] => True
  | VCall u old new :: r =>
      if u =? t then p = CNone /\ thread_ok t (COpen old new) r else thread_ok t p r
  | VLin u old new ret :: r =>
      if u =? t then p = COpen old new /\ thread_ok t (CMarked ret) r else thread_ok t p r
  | VRet u ret :: r =>
      if u =? t then p = CMarked ret /\ thread_ok t CNone r else thread_ok t p r
  | VStore _ _ :: r => thread_ok t p r
  end.

Definition is_mark (e : cev) : bool := match e with VLin _ _ _ _ => true | _ => false end.
Definition external (tr : list cev) : list cev := filter (fun e => negb (is_mark e)) tr.
