(** The spinlock on processors that delay stores and load early: src/spinlock.h 52-98
    and src/atomic.h 56-196.

    Each processor has a buffer of its own stores that are not yet in memory; a load
    sees the newest of them, or else the memory.  On x86 the buffer empties in order
    (the x86-TSO model).  On the other processors stores to different places may reach
    memory in any order, except that none passes a barrier.  Those processors may also do
    a load before its turn, past earlier loads and stores and past a branch: the value
    found is kept until the program comes to a load of that place.  Two loads of one place
    keep their order, a store of the thread's own is not passed by a later load of the
    same place, and isync (spinlock.h 64-66, 87-89) throws away what was loaded early.
    Simplifications: a load is not done after its turn (lwsync in spinlock_unlock forbids
    that on powerpc), and the compiler keeps the order of the program. *)
From Verif Require Export Base.

(** A processor, as the two files distinguish them. *)
Record arch := mkarch {
  fifo : bool;        (* stores reach memory in order *)
  barrier : bool;     (* spinlock_unlock begins with a barrier: spinlock.h 72-74 *)
  drains : bool;      (* compare_and_swap waits until the buffer is empty *)
  early : bool;       (* loads may be done before their turn *)
  isync : bool }.     (* taking the lock throws away early loads: spinlock.h 64-66, 87-89 *)
(** atomic.h 62-90, lock cmpxchg. *)
Definition x86 : arch := mkarch true false true false false.
(** atomic.h 93-170, load-linked and store-conditional; lwsync in unlock, isync in lock
    and trylock. *)
Definition powerpc : arch := mkarch false true false true true.
(** atomic.h 52-60, the GNU builtin on a processor with unordered stores, such as ARM:
    a full barrier in compare_and_swap, which also throws away early loads; none in
    unlock. *)
Definition arm : arch := mkarch false false true true true.

(** The place of lock->val, spinlock.h 45-47.  Other places are data. *)
Definition LOCK : Z := 0.

Inductive entry := Ent (x v : Z) | Fence.

(** What is recorded: a thread enters, leaves, loads or stores data. *)
Inductive ev := Acq (t : Z) | Rel (t : Z) | Ld (t x v : Z) | St (t x v : Z).

Record wstate := mkw {
  w_mem : Z -> Z;             (* memory *)
  w_buf : Z -> list entry;    (* per thread, oldest first *)
  w_pre : Z -> Z -> option Z; (* per thread and place: loaded early, not yet used *)
  w_in : Z -> bool;           (* the thread has the lock as far as its own code goes *)
  w_hist : list ev }.         (* newest first *)
Definition w0 (m : Z -> Z) : wstate := mkw (upd m LOCK 0) (fun _ => []) (fun _ _ => None) (fun _ => false) [].

(** The value a load of [x] gives the thread: newest entry of its buffer, or memory. *)
Fixpoint newest (b : list entry) (x d : Z) : Z :=
  match b with
  | [] => d
  | Ent y v :: b' => newest b' x (if x =? y then v else d)
  | Fence :: b' => newest b' x d
  end.
Definition wload (s : wstate) (t x : Z) : Z := newest (w_buf s t) x (w_mem s x).
(** The same, if the load was done early. *)
Definition wvalue (s : wstate) (t x : Z) : Z := match w_pre s t x with Some v => v | None => wload s t x end.
Definition pre_set (p : Z -> Z -> option Z) (t x : Z) (v : option Z) : Z -> Z -> option Z := upd p t (upd (p t) x v).

Inductive item :=
| Cas (t : Z)              (* compare_and_swap(&lock->val, 0, 1): spinlock.h 59, 86 *)
| Load (t x : Z)           (* any load, also the test of lock->val, line 57 *)
| Early (t x : Z)          (* a later load of the thread is done now *)
| Store (t x v : Z)        (* a store of data *)
| Unlock (t : Z)           (* spinlock_unlock, 69-77 *)
| Flush (t : Z) (n : nat). (* the n-th oldest entry of the buffer reaches memory *)

Definition of_lock (e : entry) : bool := match e with Ent x _ => x =? LOCK | Fence => false end.

(** May an entry pass the ones before it? *)
Definition may_pass (a : arch) (before : list entry) (e : entry) : bool :=
  match before with
  | [] => true
  | _ => match e with
         | Fence => false
         | Ent x _ => negb (fifo a) &&
             forallb (fun p => match p with Ent y _ => negb (x =? y) | Fence => false end) before
         end
  end.

Definition wstep (a : arch) (s : wstate) (i : item) : option wstate :=
  match i with
  | Cas t =>
      (* a store-conditional cannot overtake the thread's own store to the lock *)
      if (if drains a then match w_buf s t with [] => true | _ => false end
          else negb (existsb of_lock (w_buf s t)))
      then if w_mem s LOCK =? 0
           then Some (mkw (upd (w_mem s) LOCK 1) (w_buf s)
                       (if isync a then upd (w_pre s) t (fun _ => None) else w_pre s)
                       (upd (w_in s) t true) (Acq t :: w_hist s))
           else Some s
      else None
  | Load t x =>
      Some (mkw (w_mem s) (w_buf s) (pre_set (w_pre s) t x None) (w_in s)
              (if x =? LOCK then w_hist s else Ld t x (wvalue s t x) :: w_hist s))
  | Early t x =>
      if early a
      then Some (mkw (w_mem s) (w_buf s) (pre_set (w_pre s) t x (Some (wload s t x))) (w_in s) (w_hist s))
      else None
  | Store t x v =>
      Some (mkw (w_mem s) (upd (w_buf s) t (w_buf s t ++ [Ent x v])) (pre_set (w_pre s) t x None)
              (w_in s) (St t x v :: w_hist s))
  | Unlock t =>
      Some (mkw (w_mem s)
              (upd (w_buf s) t (w_buf s t ++ (if barrier a then [Fence] else []) ++ [Ent LOCK 0]))
              (pre_set (w_pre s) t LOCK None) (upd (w_in s) t false) (Rel t :: w_hist s))
  | Flush t n =>
      match nth_error (w_buf s t) n with
      | None => None
      | Some e =>
          if may_pass a (firstn n (w_buf s t)) e then
            Some (mkw (match e with Ent x v => upd (w_mem s) x v | Fence => w_mem s end)
                    (upd (w_buf s) t (firstn n (w_buf s t) ++ skipn (S n) (w_buf s t)))
                    (w_pre s) (w_in s) (w_hist s))
          else None
      end
  end.

(** The program's part: data that the lock protects ([prot]) is used, and the lock
    released, only by a thread that has it; data stores are not to the lock. *)
Definition obeys (prot : Z -> bool) (s : wstate) (i : item) : bool :=
  match i with
  | Cas _ | Flush _ _ | Early _ _ => true
  | Load t x => negb (prot x) || w_in s t
  | Store t x _ => negb (x =? LOCK) && (negb (prot x) || w_in s t)
  | Unlock t => w_in s t
  end.

Inductive wreach (a : arch) (prot : Z -> bool) (m : Z -> Z) : wstate -> Prop :=
| WInit : wreach a prot m (w0 m)
| WStep s i s' : wreach a prot m s -> obeys prot s i = true -> wstep a s i = Some s' -> wreach a prot m s'.

(** ** A flag without a lock

    tn_fini_done (pthread.c 469-473, 928-932, 1265-1269): the thread stores its data in
    fini_thread, then stores the flag; monitor_thread_shootdown's loop (pthread.c 588-597)
    in another thread reads the flag and goes on to fini_process.  [w] is the thread,
    [F] its flag, [D] the data that only [w] stores, and only before the flag. *)
Definition flag_stored (F : Z) (h : list ev) : bool :=
  existsb (fun e => match e with St _ x _ => x =? F | _ => false end) h.
Definition obeys_flag (w F : Z) (D : Z -> bool) (s : wstate) (i : item) : bool :=
  match i with
  | Store t x v =>
      negb (x =? LOCK) &&
      (if x =? F then (t =? w) && (v =? 1) else negb (D x) || (t =? w) && negb (flag_stored F (w_hist s)))
  | _ => true
  end.
Inductive freach (a : arch) (w F : Z) (D : Z -> bool) (m : Z -> Z) : wstate -> Prop :=
| FInit : freach a w F D m (w0 m)
| FStep s i s' : freach a w F D m s -> obeys_flag w F D s i = true -> wstep a s i = Some s' -> freach a w F D m s'.
