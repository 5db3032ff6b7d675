(** What concurrent publication of size and rank should give.  Histories are newest
    event first. *)
From Verif Require Import MpiRaceModel.

(** Is thread t inside a publishing call? *)
Fixpoint publishing (h : list event) (t : Z) : bool :=
  match h with
  | [] => false
  | PCall u _ _ _ :: r => if u =? t then true else publishing r t
  | PRet u :: r => if u =? t then false else publishing r t
  | _ :: r => publishing r t
  end.

Fixpoint inits (h : list event) : Z * Z :=
  match h with
  | [] => (0, 0)
  | InitBegin :: r => let '(a, b) := inits r in (a + 1, b)
  | InitEnd :: r => let '(a, b) := inits r in (a, b + 1)
  | _ :: r => inits r
  end.

(** MPI_Init has been called and every call of it is over. *)
Definition mpi_ready (h : list event) : bool :=
  let '(a, b) := inits h in (0 <? a) && (a =? b).

(** A call that counts: the client's, or MPI_Comm_rank once MPI is ready. *)
Definition counts (e : event) (older : list event) : option (Z * Z) :=
  match e with
  | PCall _ mpi a b => if negb mpi || mpi_ready older then Some (a, b) else None
  | _ => None
  end.

(** The first such call. *)
Fixpoint first_pub (h : list event) : option (Z * Z) :=
  match h with
  | [] => None
  | e :: r => match first_pub r with Some p => Some p | None => counts e r end
  end.

(** The same, once a call has returned after it. *)
Fixpoint done_pub (h : list event) : option (Z * Z) :=
  match h with
  | [] => None
  | PRet _ :: r => first_pub r
  | _ :: r => done_pub r
  end.

(** No two publishing calls overlap, and MPI_Init does not start or end during one. *)
Fixpoint serial (h : list event) : Prop :=
  match h with
  | [] => True
  | e :: r => serial r /\
              match e with
              | PCall _ _ _ _ | InitBegin | InitEnd => forall t, publishing r t = false
              | _ => True
              end
  end.

(** The sizes and ranks handed in so far. *)
Definition some_size (h : list event) (a : Z) : Prop := exists t m b, In (PCall t m a b) h.
Definition some_rank (h : list event) (b : Z) : Prop := exists t m a, In (PCall t m a b) h.

(** The history of [s'] extends that of [s] by [l]. *)
Definition since (s s' : state) (l : list event) : Prop := hist s' = l ++ hist s.
