(** Model of the attribute handling in src/pthread.c: monitor_adjust_stack_size
    (1012-1053) and its use in pthread_create (1139-1160).

    An attribute object is an address; [size a] is its stack size, None if it is not
    initialised.  The attribute calls may fail.  Not modelled: other attributes,
    MONITOR_WARN and MONITOR_DEBUG output. *)
From Verif Require Export Base.

Definition attrs := Z -> option Z.

(** The C library's attribute functions: whether pthread_attr_init succeeds and with
    which default size, whether pthread_attr_getstacksize succeeds on an object, and
    which sizes pthread_attr_setstacksize accepts. *)
Record attr_lib := mklib {
  a_init : option Z;
  a_get : Z -> bool;
  a_set : Z -> bool }.

Definition get_size (l : attr_lib) (w : attrs) (a : Z) : option Z :=
  if a_get l a then w a else None.
Definition set_size (l : attr_lib) (w : attrs) (a n : Z) : attrs * bool :=
  match w a with
  | Some _ => if a_set l n then (upd w a (Some n), true) else (w, false)
  | None => (w, false)
  end.

(** monitor_adjust_stack_size, 1012-1053.  [orig] = 0 is NULL; [def] is &default_attr;
    [reset] is the client's monitor_reset_stacksize.  Result: new attribute state, the
    pointer to use, restore, destroy, old size. *)
Record adjusted := mkadj {
  j_attrs : attrs; j_attr : Z; j_restore : bool; j_destroy : bool; j_old : Z }.

Definition adjust_stack_size (l : attr_lib) (reset : Z -> Z) (w : attrs) (orig def : Z) : adjusted :=
  let with_attr w attr destroy :=
    match get_size l w attr with
    | None => mkadj w orig false destroy 0
    | Some old =>
        let new := reset old in
        if new =? old then mkadj w orig false destroy old
        else match set_size l w attr new with
             | (w', false) => mkadj w' orig false destroy old
             | (w', true) => mkadj w' attr (attr =? orig) destroy old
             end
    end in
  if orig =? 0 then
    match a_init l with
    | None => mkadj w orig false false 0
    | Some d => with_attr (upd w def (Some d)) def true
    end
  else with_attr w orig false.

(** Observable effects on attributes during pthread_create. *)
Inductive aev :=
| ACreate (attr : Z) (size : option Z)   (* real pthread_create with this attribute
                                            pointer, whose size then is [size] *)
| ADestroy (attr : Z).                   (* real pthread_attr_destroy *)

(** pthread_create, 1139-1160 (from the stack-size adjustment on).  Destroying an
    object leaves it uninitialised. *)
Definition create_with_attr (l : attr_lib) (reset : Z -> Z) (w : attrs) (orig def : Z)
  : attrs * list aev :=
  let j := adjust_stack_size l reset w orig def in
  let w1 := j_attrs j in
  let e1 := ACreate (j_attr j) (if j_attr j =? 0 then None else w1 (j_attr j)) in
  let w2 := if j_restore j then fst (set_size l w1 (j_attr j) (j_old j)) else w1 in
  if j_destroy j then (upd w2 def None, [e1; ADestroy def]) else (w2, [e1]).

(** ** Two threads creating with the same attribute object

    One attribute call per step; the calls before and after are those of
    adjust_stack_size for orig <> NULL when nothing fails. *)
Inductive aloc := AGet | ASet (old : Z) | ARun (old : Z) | ARestore (old : Z) | AEnd (used : option Z).
Definition a_step (reset : Z -> Z) (a : Z) (w : attrs) (l : aloc) : attrs * aloc * list aev :=
  match l with
  | AGet => match w a with                                                   (* 1033 *)
            | Some old => (w, if reset old =? old then ARun old else ASet old, [])
            | None => (w, l, [])
            end
  | ASet old => (upd w a (Some (reset old)), ARestore old, [])               (* 1042 *)
  | ARestore old => (w, AEnd (Some old), [ACreate a (w a)])                  (* 1150 *)
  | ARun old => (w, AEnd None, [ACreate a (w a)])
  | AEnd (Some old) => (upd w a (Some old), AEnd None, [])                   (* 1153 *)
  | AEnd None => (w, l, [])
  end.
Fixpoint a_run (reset : Z -> Z) (a : Z) (w : attrs) (ls : Z -> aloc) (sch : list Z)
  : attrs * (Z -> aloc) * list aev :=
  match sch with
  | [] => (w, ls, [])
  | t :: r => let '(w1, l1, e1) := a_step reset a w (ls t) in
              let '(w2, ls2, e2) := a_run reset a w1 (upd ls t l1) r in (w2, ls2, e1 ++ e2)
  end.

(** ** A stack the application supplied

    pthread_attr_setstack (glibc) stores the top of the application's buffer and the
    size; a thread's stack is the [size] bytes below the top. *)
Definition stack_range (top size : Z) : Z * Z := (top - size, top).
