(** Model of mpi.c 46-131 with any number of threads: publishing and asking for the
    size and rank, one step per access to a shared variable.

    MPI_Comm_rank may be called by several threads at once (MPI_THREAD_MULTIPLE), and
    the client may publish and ask from any thread; the code takes no lock.  Memory
    is sequentially consistent here.  MPI_Init is called by one thread, so its counter
    updates are single steps.  The three tests of mpi.c 115 are one step. *)
From Coq Require Export List ZArith Bool Lia.
From Verif Require Export Base.
Export ListNotations.
Open Scope Z_scope.

(** Where a thread is.  [mpi]: the call came through MPI_Comm_rank. *)
Inductive pc :=
| Idle
| MpiTest (size rank : Z)                 (* mpi.c 115: the test *)
| SetTest (mpi : bool) (size rank : Z)    (* mpi.c 93: if (first) *)
| SetSize (mpi : bool) (size rank : Z)    (* 95 *)
| SetRank (mpi : bool) (size rank : Z)    (* 96 *)
| SetDone (mpi : bool)                    (* 97: first = 0 *)
| MpiDone                                 (* 117: first = 0 *)
| Return.                                 (* the call returns *)

(** What can be seen from outside. *)
Inductive event :=
| PCall (t : Z) (mpi : bool) (size rank : Z)  (* a publishing call begins *)
| PRet (t : Z)                                (* and returns *)
| QSize (t : Z) (answer : Z)                  (* monitor_mpi_comm_size, 121-125 *)
| QRank (t : Z) (answer : Z)                  (* monitor_mpi_comm_rank, 127-131 *)
| InitBegin | InitEnd.                        (* MPI_Init entered and left *)

(** mpi.c 46-50 and the two function-local "first" flags (91, 113). *)
Record state := mkstate {
  s_size : Z; s_rank : Z; s_first : bool; s_first_mpi : bool;
  s_count : Z; s_max : Z; pcs : Z -> pc; hist : list event }.

Definition start : state := mkstate (-1) (-1) true true 0 0 (fun _ => Idle) [].

(** What an idle thread does next. *)
Inductive choice := ChSet (size rank : Z) | ChRank (size rank : Z) | ChSize | ChRankQ
                  | ChInit | ChInitEnd.

Definition go (s : state) (t : Z) (p : pc) : state :=
  mkstate (s_size s) (s_rank s) (s_first s) (s_first_mpi s) (s_count s) (s_max s)
          (upd (pcs s) t p) (hist s).
Definition say (s : state) (e : event) : state :=
  mkstate (s_size s) (s_rank s) (s_first s) (s_first_mpi s) (s_count s) (s_max s)
          (pcs s) (e :: hist s).

(** monitor_mpi_init_count, 63-70 *)
Definition count (s : state) (inc : Z) : state :=
  let n := s_count s + inc in
  mkstate (s_size s) (s_rank s) (s_first s) (s_first_mpi s) n
          (if n >? s_max s then n else s_max s) (pcs s) (hist s).

Definition step (s : state) (t : Z) (c : choice) : state :=
  match pcs s t with
  | Idle =>
      match c with
      | ChSet a b => go (say s (PCall t false a b)) t (SetTest false a b)    (* 88-89 *)
      | ChRank a b => go (say s (PCall t true a b)) t (MpiTest a b)          (* 110-111 *)
      | ChSize => say s (QSize t (s_size s))                                 (* 124 *)
      | ChRankQ => say s (QRank t (s_rank s))                                (* 130 *)
      | ChInit => say (count s 1) InitBegin
      | ChInitEnd => if s_count s >? 0 then say (count s (-1)) InitEnd else s
      end
  | MpiTest a b =>
      if s_first_mpi s && (s_count s =? 0) && (s_max s >? 0)
      then go s t (SetTest true a b) else go s t Return
  | SetTest m a b =>
      if s_first s then go s t (SetSize m a b)
      else go s t (if m then MpiDone else Return)
  | SetSize m a b =>
      mkstate a (s_rank s) (s_first s) (s_first_mpi s) (s_count s) (s_max s)
              (upd (pcs s) t (SetRank m a b)) (hist s)
  | SetRank m a b =>
      mkstate (s_size s) b (s_first s) (s_first_mpi s) (s_count s) (s_max s)
              (upd (pcs s) t (SetDone m)) (hist s)
  | SetDone m =>
      mkstate (s_size s) (s_rank s) false (s_first_mpi s) (s_count s) (s_max s)
              (upd (pcs s) t (if m then MpiDone else Return)) (hist s)
  | MpiDone =>
      mkstate (s_size s) (s_rank s) (s_first s) false (s_count s) (s_max s)
              (upd (pcs s) t Return) (hist s)
  | Return => go (say s (PRet t)) t Idle
  end.

Fixpoint run (s : state) (l : list (Z * choice)) : state :=
  match l with [] => s | (t, c) :: r => run (step s t c) r end.
