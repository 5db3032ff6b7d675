(** What the lock promises, on the history of events alone (newest first). *)
From Verif Require Import WeakModel.

(** Who entered last and has not left. *)
Fixpoint holder (h : list ev) : option Z :=
  match h with
  | [] => None
  | Acq t :: _ => Some t
  | Rel _ :: _ => None
  | _ :: h' => holder h'
  end.

(** The value stored last. *)
Fixpoint latest (m : Z -> Z) (h : list ev) (x : Z) : Z :=
  match h with
  | [] => m x
  | St _ y v :: h' => if x =? y then v else latest m h' x
  | _ :: h' => latest m h' x
  end.

(** A thread enters only when nobody is inside, protected data is used and the lock
    left only by the one inside, and every load of protected data gives the value stored
    last, by whichever thread. *)
Fixpoint as_one (prot : Z -> bool) (m : Z -> Z) (h : list ev) : Prop :=
  match h with
  | [] => True
  | e :: h' =>
      as_one prot m h' /\
      match e with
      | Acq _ => holder h' = None
      | Rel t => holder h' = Some t
      | Ld t x v => prot x = true -> holder h' = Some t /\ v = latest m h' x
      | St t x _ => prot x = true -> holder h' = Some t
      end
  end.

(** After a thread other than [w] has read 1 from the flag, every load of [w]'s data, by
    any thread, gives what [w] stored last. *)
Definition flag_seen (w F : Z) (h : list ev) : Prop := exists u, u <> w /\ In (Ld u F 1) h.
Fixpoint handed_over (w F : Z) (D : Z -> bool) (m : Z -> Z) (h : list ev) : Prop :=
  match h with
  | [] => True
  | e :: h' =>
      handed_over w F D m h' /\
      match e with
      | Ld _ x v => D x = true -> flag_seen w F h' -> v = latest m h' x
      | _ => True
      end
  end.
