(** Model of the LIST macros of src/queue.h at the level of pointers. *)
From Verif Require Export Base.

(** The places that hold a "struct type *" which le_prev can point to: a list head's
    lh_first (heads are numbered) or the le_next of the element at an address. *)
Inductive slot := SFirst (head : Z) | SNext (elm : Z).

(** Memory.  [q_ptr]: contents of the slots (0 is NULL); [q_prev e]: e's le_prev, None
    if it holds no valid pointer (never set, or cleared by memset); [q_mem e]: an element
    exists at address e. *)
Record qheap := mkqheap {
  q_ptr : slot -> Z;
  q_prev : Z -> option slot;
  q_mem : Z -> bool }.

Definition slot_eqb (a b : slot) : bool :=
  match a, b with
  | SFirst x, SFirst y => x =? y
  | SNext x, SNext y => x =? y
  | _, _ => false
  end.

(** Accesses; None is an access through an invalid pointer. *)
Definition slot_ok (q : qheap) (s : slot) : bool :=
  match s with SFirst _ => true | SNext e => negb (e =? 0) && q_mem q e end.
Definition get_ptr (q : qheap) (s : slot) : option Z :=
  if slot_ok q s then Some (q_ptr q s) else None.
Definition set_ptr (q : qheap) (s : slot) (v : Z) : option qheap :=
  if slot_ok q s
  then Some (mkqheap (fun x => if slot_eqb x s then v else q_ptr q x) (q_prev q) (q_mem q))
  else None.
Definition set_prev (q : qheap) (e : Z) (p : slot) : option qheap :=
  if slot_ok q (SNext e)
  then Some (mkqheap (q_ptr q) (upd (q_prev q) e (Some p)) (q_mem q))
  else None.
Definition get_prev (q : qheap) (e : Z) : option slot :=
  if slot_ok q (SNext e) then q_prev q e else None.

Notation "'do' x <- a ; b" := (match a with Some x => b | None => None end)
  (at level 200, x name, a at level 100, b at level 200).

(** LIST_INIT, queue.h 342-344 *)
Definition list_init (q : qheap) (h : Z) : option qheap := set_ptr q (SFirst h) 0.

(** LIST_INSERT_HEAD, queue.h 361-366 *)
Definition list_insert_head (q : qheap) (h e : Z) : option qheap :=
  do first <- get_ptr q (SFirst h);
  do q1 <- set_ptr q (SNext e) first;
  do q2 <- (if first =? 0 then Some q1
            else do f <- get_ptr q1 (SFirst h); set_prev q1 f (SNext e));
  do q3 <- set_ptr q2 (SFirst h) e;
  set_prev q3 e (SFirst h).

(** LIST_REMOVE, queue.h 370-375 *)
Definition list_remove (q : qheap) (e : Z) : option qheap :=
  do next <- get_ptr q (SNext e);
  do q1 <- (if next =? 0 then Some q
            else do p <- get_prev q e; set_prev q next p);
  do p <- get_prev q1 e;
  do n <- get_ptr q1 (SNext e);
  set_ptr q1 p n.

(** The loop of LIST_FOREACH, as written out at pthread.c 580-582 and 777-779; [fuel]
    bounds the number of elements visited. *)
Fixpoint list_walk (q : qheap) (x : Z) (fuel : nat) : option (list Z) :=
  if x =? 0 then Some []
  else match fuel with
       | O => None
       | S f => do n <- get_ptr q (SNext x); do r <- list_walk q n f; Some (x :: r)
       end.
Definition list_elements (q : qheap) (h : Z) (fuel : nat) : option (list Z) :=
  do f <- get_ptr q (SFirst h); list_walk q f fuel.

(** A history of operations on any number of lists. *)
Inductive qop := QInit (h : Z) | QInsert (h e : Z) | QRemove (e : Z).
Definition q_step (q : qheap) (o : qop) : option qheap :=
  match o with
  | QInit h => list_init q h
  | QInsert h e => list_insert_head q h e
  | QRemove e => list_remove q e
  end.
Fixpoint q_run (q : qheap) (os : list qop) : option qheap :=
  match os with
  | [] => Some q
  | o :: r => do q' <- q_step q o; q_run q' r
  end.
