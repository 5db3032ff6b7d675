(** Model of the MPI overrides: src/mpi.c 46-131 and the entry points in
    mpi_init_{c,f0,f1,f2}.c, mpi_init_thread_{c,f0,f1,f2}.c,
    mpi_final_{c,f0,f1,f2}.c, mpi_comm_{c,f0,f1,f2}.c and pmpi.c.

    One thread of control (the counters are plain ints in the code, and MPI init
    and finalize are called by one thread).  The library behind an override is
    arbitrary: it may re-enter any override any number of times, and so may the
    client's callbacks.  A program is therefore a tree of calls.  Debug output and
    the dlsym lookups are left out. *)
From Coq Require Export List ZArith Bool Lia.
Export ListNotations.
Open Scope Z_scope.

(** The entry points of one function: the two C names and the six Fortran names. *)
Inductive lang := LC | LF0 | LF1 | LF2.
Record entry := mkentry { e_pmpi : bool; e_thread : bool; e_lang : lang }.

Inductive act :=
| Init (e : entry) (args : Z) (ret : Z) (pre real post : list act)
    (* MPI_Init or MPI_Init_thread; what runs inside the pre_init callback, inside
       the real function and inside the init_mpi callback.  The two callback bodies
       run only if the callback is issued. *)
| Fini (e : entry) (ret : Z) (pre real post : list act)
| Rank (e : entry) (size rank ret : Z) (in_size in_rank : list act)
    (* MPI_Comm_rank: what the real size and rank functions deliver and do inside *)
| SetSizeRank (size rank : Z)       (* client: monitor_set_size_rank *)
| QuerySize                         (* client: monitor_mpi_comm_size *)
| QueryRank.                        (* client: monitor_mpi_comm_rank *)

Inductive event :=
| EInitEnter (e : entry)            (* the override is entered *)
| EPreInit                          (* callback monitor_mpi_pre_init *)
| ERealInit (e : entry) (args : Z)  (* the real function is called *)
| ERealInitDone
| EInitMpi (args : Z)               (* callback monitor_init_mpi *)
| EInitLeave (ret : option Z)       (* the override returns *)
| EFiniEnter (e : entry)
| EFiniMpi                          (* callback monitor_fini_mpi *)
| ERealFini (e : entry)
| ERealFiniDone
| EPostFini                         (* callback monitor_mpi_post_fini *)
| EFiniLeave (ret : option Z)
| ERankEnter (e : entry)
| ERankLeave (size rank : Z) (ret : option Z)
| ESet (size rank : Z)
| ESize (answer : Z)
| ERank (answer : Z).

(** mpi.c 46-50 and the two function-local "first" flags (84, 106). *)
Record mpi := mkmpi {
  init_count : Z; fini_count : Z; max_init : Z; m_size : Z; m_rank : Z;
  first_set : bool; first_mpi : bool }.

Definition mpi0 : mpi := mkmpi 0 0 0 (-1) (-1) true true.

(** monitor_mpi_init_count, mpi.c 63-70 *)
Definition mpi_init_count (s : mpi) (inc : Z) : mpi * Z :=
  let n := init_count s + inc in
  (mkmpi n (fini_count s) (if n >? max_init s then n else max_init s)
         (m_size s) (m_rank s) (first_set s) (first_mpi s), n).

(** monitor_mpi_fini_count, mpi.c 72-77 *)
Definition mpi_fini_count (s : mpi) (inc : Z) : mpi * Z :=
  let n := fini_count s + inc in
  (mkmpi (init_count s) n (max_init s) (m_size s) (m_rank s) (first_set s) (first_mpi s), n).

(** monitor_set_size_rank, mpi.c 88-99 *)
Definition set_size_rank (s : mpi) (size rank : Z) : mpi :=
  if first_set s then
    mkmpi (init_count s) (fini_count s) (max_init s) size rank false (first_mpi s)
  else s.

(** monitor_set_mpi_size_rank, mpi.c 110-119 *)
Definition set_mpi_size_rank (s : mpi) (size rank : Z) : mpi :=
  if first_mpi s && (init_count s =? 0) && (max_init s >? 0) then
    let s1 := set_size_rank s size rank in
    mkmpi (init_count s1) (fini_count s1) (max_init s1) (m_size s1) (m_rank s1) (first_set s1) false
  else s.

(** The argument pointers handed to init_mpi: the caller's own in C, those of main
    (monitor_get_main_args) in Fortran. *)
Definition init_args (main_args : Z) (e : entry) (args : Z) : Z :=
  match e_lang e with LC => args | _ => main_args end.

(** C functions return the real function's value; Fortran subroutines none. *)
Definition ret_of (e : entry) (ret : Z) : option Z :=
  match e_lang e with LC => Some ret | _ => None end.

(** Execution of one call; the list version is written inside for the recursion.
    Init: mpi_init_c.c 21-41, mpi_init_thread_c.c 21-42, mpi_init_f*.c 21-41,
    mpi_init_thread_f*.c, pmpi.c PMPI_Init, FORTRAN_INIT_BODY, PMPI_Init_thread,
    FORTRAN_INIT_THREAD_BODY.  Fini: mpi_final_c.c 21-42, mpi_final_f*.c, pmpi.c
    PMPI_Finalize, FORTRAN_FINALIZE_BODY.  Rank: mpi_comm_c.c 27-40, mpi_comm_f*.c,
    pmpi.c PMPI_Comm_rank, FORTRAN_COMM_RANK_BODY. *)
Fixpoint run1 (main_args : Z) (s : mpi) (a : act) {struct a} : mpi * list event :=
  let fix runl (s : mpi) (l : list act) {struct l} : mpi * list event :=
    match l with
    | [] => (s, [])
    | a :: r => let '(s1, t1) := run1 main_args s a in
                let '(s2, t2) := runl s1 r in (s2, t1 ++ t2)
    end in
  match a with
  | Init e args ret pre real post =>
      let '(s1, count) := mpi_init_count s 1 in
      let '(s2, t2) := if count =? 1
                       then let '(s', t') := runl s1 pre in (s', EPreInit :: t')
                       else (s1, []) in
      let '(s3, t3) := runl s2 real in
      let '(s4, t4) := if count =? 1
                       then let '(s', t') := runl s3 post in
                            (s', EInitMpi (init_args main_args e args) :: t')
                       else (s3, []) in
      let '(s5, _) := mpi_init_count s4 (-1) in
      (s5, EInitEnter e :: t2 ++ ERealInit e args :: t3 ++ ERealInitDone :: t4 ++
           [EInitLeave (ret_of e ret)])
  | Fini e ret pre real post =>
      let '(s1, count) := mpi_fini_count s 1 in
      let '(s2, t2) := if count =? 1
                       then let '(s', t') := runl s1 pre in (s', EFiniMpi :: t')
                       else (s1, []) in
      let '(s3, t3) := runl s2 real in
      let '(s4, t4) := if count =? 1
                       then let '(s', t') := runl s3 post in (s', EPostFini :: t')
                       else (s3, []) in
      let '(s5, _) := mpi_fini_count s4 (-1) in
      (s5, EFiniEnter e :: t2 ++ ERealFini e :: t3 ++ ERealFiniDone :: t4 ++
           [EFiniLeave (ret_of e ret)])
  | Rank e size rank ret in_size in_rank =>
      let '(s1, t1) := runl s in_size in
      let '(s2, t2) := runl s1 in_rank in
      (set_mpi_size_rank s2 size rank,
       ERankEnter e :: t1 ++ t2 ++ [ERankLeave size rank (ret_of e ret)])
  | SetSizeRank size rank => (set_size_rank s size rank, [ESet size rank])
  | QuerySize => (s, [ESize (m_size s)])
  | QueryRank => (s, [ERank (m_rank s)])
  end.

Section Run.
  Variable main_args : Z.
  Fixpoint run (s : mpi) (l : list act) : mpi * list event :=
    match l with
    | [] => (s, [])
    | a :: r => let '(s1, t1) := run1 main_args s a in
                let '(s2, t2) := run s1 r in (s2, t1 ++ t2)
    end.
End Run.
