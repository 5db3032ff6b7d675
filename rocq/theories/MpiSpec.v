(** What the MPI properties mean, in terms of the trace of a program. *)
From Verif Require Import MpiModel.

(** The client's view of init, as an automaton reading the trace.  [d] is how many
    init overrides are open.  An override entered when none is open must issue
    pre_init at once; the real function finishing when just that one is open must be
    followed at once by init_mpi; neither callback may appear anywhere else. *)
Fixpoint init_view (d : Z) (t : list event) : bool :=
  match t with
  | [] => true
  | EInitEnter _ :: r =>
      if d =? 0 then match r with EPreInit :: r' => init_view (d + 1) r' | _ => false end
      else init_view (d + 1) r
  | ERealInitDone :: r =>
      if d =? 1 then match r with EInitMpi _ :: r' => init_view d r' | _ => false end
      else init_view d r
  | EInitLeave _ :: r => init_view (d - 1) r
  | EPreInit :: _ | EInitMpi _ :: _ => false
  | _ :: r => init_view d r
  end.

(** The same for finalize: fini_mpi at once on entry, post_fini at once after the
    real function, for the outermost call only. *)
Fixpoint fini_view (d : Z) (t : list event) : bool :=
  match t with
  | [] => true
  | EFiniEnter _ :: r =>
      if d =? 0 then match r with EFiniMpi :: r' => fini_view (d + 1) r' | _ => false end
      else fini_view (d + 1) r
  | ERealFiniDone :: r =>
      if d =? 1 then match r with EPostFini :: r' => fini_view d r' | _ => false end
      else fini_view d r
  | EFiniLeave _ :: r => fini_view (d - 1) r
  | EFiniMpi :: _ | EPostFini :: _ => false
  | _ :: r => fini_view d r
  end.

Definition init_cb (e : event) : bool :=
  match e with EPreInit | EInitMpi _ => true | _ => false end.
Definition fini_cb (e : event) : bool :=
  match e with EFiniMpi | EPostFini => true | _ => false end.

(** Bracket depth of a trace with respect to the init overrides, and whether any
    init has started. *)
Definition enter_init (e : event) : bool := match e with EInitEnter _ => true | _ => false end.
Definition leave_init (e : event) : bool := match e with EInitLeave _ => true | _ => false end.
Definition nb (p : event -> bool) (t : list event) : Z := Z.of_nat (length (filter p t)).
Definition init_depth (t : list event) : Z := nb enter_init t - nb leave_init t.
Definition enter_fini (e : event) : bool := match e with EFiniEnter _ => true | _ => false end.
Definition leave_fini (e : event) : bool := match e with EFiniLeave _ => true | _ => false end.
Definition fini_depth (t : list event) : Z := nb enter_fini t - nb leave_fini t.

(** The first publication in a trace: the first client call, or the first
    MPI_Comm_rank that returns outside every init after some init has started. *)
Definition publishes (before : list event) (e : event) : option (Z * Z) :=
  match e with
  | ESet s r => Some (s, r)
  | ERankLeave s r _ => if (init_depth before =? 0) && (0 <? nb enter_init before)
                        then Some (s, r) else None
  | _ => None
  end.
Fixpoint first_pub (before t : list event) : option (Z * Z) :=
  match t with
  | [] => None
  | e :: r => match publishes before e with
              | Some p => Some p
              | None => first_pub (before ++ [e]) r
              end
  end.
Definition published (t : list event) : Z * Z :=
  match first_pub [] t with Some p => p | None => (-1, -1) end.
