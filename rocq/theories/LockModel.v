(** Model of src/spinlock.h and of the load-linked / store-conditional
    compare_and_swap of src/atomic.h, for any number of threads, one memory access
    per step.

    Memory is sequentially consistent: the barriers of spinlock.h 68-70, 77-79, 92-94
    are what makes powerpc so for these accesses, and are not modelled.  The other
    compare_and_swap variants (GNU builtin, x86, ia64) are one atomic instruction. *)
From Verif Require Export Base.

(** * spinlock.h *)

(** Where a thread is.  [PIdle]: not holding; [PHeld]: between a successful lock or
    trylock and the unlock's store. *)
Inductive lpc :=
| PIdle
| PTest          (* spinlock_lock, before the load at 62 *)
| PCas           (* before the compare_and_swap at 64 *)
| PTry           (* spinlock_trylock, before the compare_and_swap at 91 *)
| PHeld
| PStore.        (* spinlock_unlock, before the store at 81 *)

Record lstate := mklstate { l_val : Z; l_pc : Z -> lpc }.

(** What a thread may ask for. *)
Inductive lcall := CallLock | CallTry | CallUnlock | Go.

(** What a step shows: the result of a trylock, the return of lock and unlock. *)
Inductive lev := LNone | LLocked | LTry (ret : Z) | LUnlocked.

(** One step of thread [t]; None if it is not possible. *)
Definition lock_step (s : lstate) (t : Z) (c : lcall) : option (lstate * lev) :=
  let goto p := mklstate (l_val s) (upd (l_pc s) t p) in
  match l_pc s t, c with
  | PIdle, CallLock => Some (goto PTest, LNone)
  | PIdle, CallTry => Some (goto PTry, LNone)
  | PHeld, CallUnlock => Some (goto PStore, LNone)
  | PTest, Go =>                                   (* while (lock->val != 0) ; *)
      if l_val s =? 0 then Some (goto PCas, LNone) else Some (s, LNone)
  | PCas, Go =>                                    (* compare_and_swap(&val, 0, 1) == 0 *)
      if l_val s =? 0 then Some (mklstate 1 (upd (l_pc s) t PHeld), LLocked)
      else Some (goto PTest, LNone)
  | PTry, Go =>
      if l_val s =? 0 then Some (mklstate 1 (upd (l_pc s) t PHeld), LTry 0)
      else Some (goto PIdle, LTry (-1))
  | PStore, Go => Some (mklstate 0 (upd (l_pc s) t PIdle), LUnlocked)
  | _, _ => None
  end.

(** SPINLOCK_UNLOCKED, spinlock.h 42 *)
Definition lock_init : lstate := mklstate 0 (fun _ => PIdle).

(** A schedule of steps; impossible steps are skipped. *)
Fixpoint lock_run (s : lstate) (sch : list (Z * lcall)) : lstate * list (Z * lev) :=
  match sch with
  | [] => (s, [])
  | (t, c) :: r =>
      match lock_step s t c with
      | Some (s', e) => let '(s2, es) := lock_run s' r in (s2, (t, e) :: es)
      | None => lock_run s r
      end
  end.

(** * atomic.h 156-169 on top of load_linked and store_conditional *)

Inductive cpc :=
| CIdle
| CLoad (old new : Z)               (* before load_linked *)
| CCond (old new prev : Z)          (* prev == old, before store_conditional *)
| CDone (prev : Z).                 (* the loop is left *)

(** One memory word; [m_res t]: thread t's processor holds a reservation on it. *)
Record cstate := mkcstate { m_val : Z; m_res : Z -> bool; m_pc : Z -> cpc }.

Inductive cact :=
| ActCall (old new : Z)     (* call compare_and_swap(ptr, old, new) *)
| ActGo (spurious : bool)   (* next access; a store-conditional may fail spuriously *)
| ActRet                    (* return *)
| ActStore (v : Z)          (* an ordinary store to the word (e.g. unlock) *)
| ActLose.                  (* the reservation is lost (cache, interrupt, signal) *)

(** External events, and the mark [VLin] used only in specifications. *)
Inductive cev :=
| VCall (t old new : Z) | VRet (t ret : Z) | VStore (t v : Z) | VLin (t old new ret : Z).

Definition no_res : Z -> bool := fun _ => false.

Definition cas_step (s : cstate) (t : Z) (a : cact) : option (cstate * list cev) :=
  match m_pc s t, a with
  | CIdle, ActCall old new =>
      Some (mkcstate (m_val s) (m_res s) (upd (m_pc s) t (CLoad old new)), [VCall t old new])
  | CIdle, ActStore v => Some (mkcstate v no_res (m_pc s), [VStore t v])
  | CLoad old new, ActGo _ =>
      (* prev = load_linked(ptr); if (prev != old || ... *)
      let prev := m_val s in
      Some (mkcstate (m_val s) (upd (m_res s) t true)
              (upd (m_pc s) t (if prev =? old then CCond old new prev else CDone prev)), [])
  | CCond old new prev, ActGo spurious =>
      (* store_conditional(ptr, new) *)
      if m_res s t && negb spurious
      then Some (mkcstate new no_res (upd (m_pc s) t (CDone prev)), [])
      else Some (mkcstate (m_val s) (upd (m_res s) t false) (upd (m_pc s) t (CLoad old new)), [])
  | CDone prev, ActRet =>
      Some (mkcstate (m_val s) (m_res s) (upd (m_pc s) t CIdle), [VRet t prev])
  | _, ActLose => Some (mkcstate (m_val s) (upd (m_res s) t false) (m_pc s), [])
  | _, _ => None
  end.

Definition cas_init (v : Z) : cstate := mkcstate v no_res (fun _ => CIdle).

Fixpoint cas_run (s : cstate) (sch : list (Z * cact)) : cstate * list cev :=
  match sch with
  | [] => (s, [])
  | (t, a) :: r =>
      match cas_step s t a with
      | Some (s', e) => let '(s2, es) := cas_run s' r in (s2, e ++ es)
      | None => cas_run s r
      end
  end.
