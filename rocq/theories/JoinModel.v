(** * What a thread ends with

    Models: src/pthread.c 366-400 (monitor_make_thread_node), 407-439 (linking and
    unlinking), 442-475 (the shootdown handler, as one step), 803-828 (block and unblock),
    904-935 (monitor_pthread_cleanup_routine), 942-998 (monitor_begin_thread), 1059-1177
    (pthread_create) and 1185-1200 (pthread_exit), with what pthreads does around them:
    the value a thread ends with, pthread_join, pthread_cleanup_push and pop,
    pthread_cancel with deferred cancellation, pthread_setcancelstate.

    The Life machine has the callbacks, the locks and the exit of the process in detail
    but forgets the values threads end with; this machine has the values.  Simplifications:
    the functions under the lock are one step; signal handlers of the application and
    forks are left out; the stack size is AttrModel; the exit of the process is two flags;
    callbacks do not call pthread functions; thread-specific-data destructors are left
    out; a return or jump out of a pthread_cleanup_push block is left out (undefined). *)
From Verif Require Export Base.
From Coq Require Export ZArith List Bool.
Export ListNotations.
Local Open Scope Z_scope.

Definition MAIN : Z := 1.
(** PTHREAD_CANCELED of pthread.h, and what pre_create returns to have a thread ignored
    (monitor.h 47). *)
Definition CANCELED : Z := -1.
Definition IGNORE : Z := -1.

(** The thread node: the fields that matter here.  pthread_h.h 54-73 and pthread.c
    1138-1140. *)
Record node := mknode { n_rtn : Z; n_arg : Z; n_started : bool; n_fini : bool; n_block : bool }.
Definition blank : node := mknode 0 0 false false false.

(** Where a thread is.  [r a]: start routine and argument. *)
Inductive pc :=
  | PNone | PDone (v : Z) | PJoined        (* not made; ended with v; joined *)
  | PApp                                   (* in the application *)
  | PPre (r a : Z)                         (* pthread_create: in pre_create, 1127 *)
  | PMake (r a : Z)                        (* 1137 *)
  | PFill (n r a : Z)                      (* 1138-1140 *)
  | PReal (n : Z)                          (* 1153 *)
  | PRealIgn (r a : Z)                     (* 1107 and 1134 *)
  | PPost (e u : Z)                        (* in post_create, 1169; e is ret, u is *thread *)
  | PBack (e u : Z)                        (* 1176, and the return of 1107 and 1134 *)
  | PNew (r a : Z)                         (* an ignored thread before its routine *)
  | BLink (n : Z)                          (* monitor_begin_thread, 975 *)
  | BInit (n : Z)                          (* in init_thread, 987 *)
  | BMark (n : Z)                          (* 989 *)
  | BCall (n : Z)                          (* 991 *)
  | BClean (n v : Z)                       (* the cleanup routine, 904-926 *)
  | BFini (n v : Z)                        (* in fini_thread, 931 *)
  | BUnlink (n v : Z).                     (* 932-934 *)

(** A thread: where it is; the cleanup handlers the application has pushed; a
    cancellation asked for; cancellation disabled; the value it is ending with while its
    handlers run; the node whose cleanup routine monitor_begin_thread has pushed below
    the application's (981). *)
Record thr := mkthr { t_pc : pc; t_hs : list Z; t_pend : bool; t_dis : bool; t_unw : option Z; t_bot : option Z }.

Definition set_pc p x := mkthr p (t_hs x) (t_pend x) (t_dis x) (t_unw x) (t_bot x).
Definition set_hs h x := mkthr (t_pc x) h (t_pend x) (t_dis x) (t_unw x) (t_bot x).
Definition set_pend b x := mkthr (t_pc x) (t_hs x) b (t_dis x) (t_unw x) (t_bot x).
Definition set_dis b x := mkthr (t_pc x) (t_hs x) (t_pend x) b (t_unw x) (t_bot x).
Definition set_unw v x := mkthr (t_pc x) (t_hs x) (t_pend x) (t_dis x) v (t_bot x).
Definition set_bot n x := mkthr (t_pc x) (t_hs x) (t_pend x) (t_dis x) (t_unw x) n.

(** What is seen.  The first group by the application, the second by the client. *)
Inductive event :=
  | OCall (t r a : Z)            (* t calls pthread_create *)
  | OCreate (t e u : Z)          (* it returns e, and the new thread is u *)
  | OStart (u r a : Z)           (* the start routine is entered in thread u *)
  | OReturn (u v : Z)            (* it returns v *)
  | OExit (u v : Z)              (* u calls pthread_exit (v) *)
  | OCancel (u : Z)              (* a cancellation takes effect in u *)
  | OHandler (u h : Z)           (* u runs its cleanup handler h *)
  | OJoin (t u v : Z)            (* pthread_join of u in t gives v *)
  | LPre (t d : Z) | LPost (t : Z) | LInit (u : Z) | LFini (u : Z).

Record state := mkst { s_thr : Z -> thr; s_node : Z -> node; s_free : list Z; s_pos : Z; s_next : Z;
                       s_exit : bool; s_fdone : bool; s_log : list event }.

Definition none : thr := mkthr PNone [] false false None None.

(** The main thread in main(). *)
Definition init : state :=
  mkst (upd (fun _ => none) MAIN (mkthr PApp [] false false None None)) (fun _ => blank) [] 0 2 false false [].

(** What happens next in a thread: application calls, the end of a callback, the
    answers of the system, or the next step of the library. *)
Inductive choice :=
  | CCreate (r a : Z) | CReturn (v : Z) | CExit (v : Z) | CPush (h : Z) | CPop | CJoin (u : Z)
  | CCancel (u : Z) | CDisable (b : bool)
  | CAct                          (* the thread is at a cancellation point *)
  | CRet (d : Z)                  (* the callback returns d *)
  | COk | CFail (e : Z)           (* the system makes the thread, or not *)
  | CStep
  | CBlock (b : bool)             (* the client blocks or unblocks the shootdown *)
  | CProcessExit | CFiniProcess   (* another part of the process: exit begins, fini_process begins *)
  | CShoot.                       (* the shootdown signal is handled in this thread *)

Definition set_thr (t : Z) (x : thr) (s : state) : state :=
  mkst (upd (s_thr s) t x) (s_node s) (s_free s) (s_pos s) (s_next s) (s_exit s) (s_fdone s) (s_log s).
Definition set_node (n : Z) (x : node) (s : state) : state :=
  mkst (s_thr s) (upd (s_node s) n x) (s_free s) (s_pos s) (s_next s) (s_exit s) (s_fdone s) (s_log s).
Definition set_alloc (f : list Z) (p : Z) (s : state) : state :=
  mkst (s_thr s) (s_node s) f p (s_next s) (s_exit s) (s_fdone s) (s_log s).
Definition set_next (k : Z) (s : state) : state :=
  mkst (s_thr s) (s_node s) (s_free s) (s_pos s) k (s_exit s) (s_fdone s) (s_log s).
Definition set_exit (e f : bool) (s : state) : state :=
  mkst (s_thr s) (s_node s) (s_free s) (s_pos s) (s_next s) e f (s_log s).
Definition see (e : event) (s : state) : state :=
  mkst (s_thr s) (s_node s) (s_free s) (s_pos s) (s_next s) (s_exit s) (s_fdone s) (e :: s_log s).

(** A new thread: cancellation enabled, nothing pushed. *)
Definition fresh (p : pc) : thr := mkthr p [] false false None None.

(** monitor_make_thread_node, pthread.c 366-400: the head of the free list, else the next
    of the array; the arrays that follow each other are one unbounded array here (their
    bounds are in LifeModel).  The node is cleared (394-396). *)
Definition make (s : state) : Z * state :=
  match s_free s with
  | n :: f => (n, set_node n blank (set_alloc f (s_pos s) s))
  | [] => (s_pos s, set_node (s_pos s) blank (set_alloc [] (s_pos s + 1) s))
  end.

(** monitor_unlink_thread_node, pthread.c 423-439. *)
Definition unlink (n : Z) (s : state) : state :=
  if s_exit s then s else set_node n blank (set_alloc (n :: s_free s) (s_pos s) s).

Definition mark (x : node) := mknode (n_rtn x) (n_arg x) true (n_fini x) (n_block x).
Definition fini (x : node) := mknode (n_rtn x) (n_arg x) (n_started x) true (n_block x).
Definition block (b : bool) (x : node) := mknode (n_rtn x) (n_arg x) (n_started x) (n_fini x) b.

(** May a cancellation take effect in this thread?  Not once it is ending. *)
Definition cancels (x : thr) : bool :=
  (t_pend x && negb (t_dis x) && match t_unw x with None => true | _ => false end)%bool.

(** The application is left: its handlers first, in the order last pushed first, then
    the cleanup routine of monitor_begin_thread, then the thread has ended with v. *)
Definition unwind (t v : Z) (x : thr) (s : state) : state :=
  match t_hs x with
  | h :: hs => see (OHandler t h) (set_thr t (set_hs hs x) s)
  | [] => match t_bot x with
          | Some n => set_thr t (set_pc (BClean n v) x) s
          | None => set_thr t (set_pc (PDone v) x) s
          end
  end.

(** One step of the application in thread t.  pthread_exit: pthread.c 1185-1196, which
    for main ends the process first (C80 has the callbacks). *)
Definition app (t : Z) (x : thr) (c : choice) (s : state) : option state :=
  match c with
  | CCreate r a => Some (see (OCall t r a) (set_thr t (set_pc (PPre r a) x) s))
  | CReturn v =>
      match t_unw x, t_hs x with
      | None, [] =>
          if t =? MAIN then None
          else Some (see (OReturn t v)
                 (match t_bot x with
                  | Some n => set_thr t (set_pc (BClean n v) x) s
                  | None => set_thr t (set_pc (PDone v) x) s
                  end))
      | _, _ => None
      end
  | CExit v =>
      match t_unw x with
      | None => Some (see (OExit t v) (set_thr t (set_unw (Some v) x)
                  (if t =? MAIN then set_exit true true s else s)))
      | Some _ => None
      end
  | CPush h => Some (set_thr t (set_hs (h :: t_hs x) x) s)
  | CPop => match t_hs x with _ :: hs => Some (set_thr t (set_hs hs x) s) | [] => None end
  | CJoin u =>
      match t_pc (s_thr s u) with
      | PDone v => Some (see (OJoin t u v) (set_thr u (set_pc PJoined (s_thr s u)) s))
      | _ => None
      end
  | CCancel u =>
      match t_pc (s_thr s u) with
      | PNone => None
      | _ => Some (set_thr u (set_pend true (s_thr s u)) s)
      end
  | CDisable b => Some (set_thr t (set_dis b x) s)
  | CAct => if cancels x then Some (see (OCancel t) (set_thr t (set_unw (Some CANCELED) x) s)) else None
  | CStep => match t_unw x with Some v => Some (unwind t v x s) | None => None end
  | CBlock b => match t_bot x with Some n => Some (set_node n (block b (s_node s n)) s) | None => None end
  | CProcessExit => Some (set_exit true (s_fdone s) s)
  | CFiniProcess => if s_exit s then Some (set_exit true true s) else None
  | CShoot =>
      match t_bot x with
      | Some n =>
          (* pthread.c 442-475; only while the process ends *)
          if (s_exit s && n_started (s_node s n) && negb (n_fini (s_node s n)) && negb (n_block (s_node s n)) && negb (s_fdone s))%bool
          then Some (see (LFini t) (set_node n (fini (s_node s n)) s)) else None
      | None => None
      end
  | _ => None
  end.

(** One step of thread t. *)
Definition step (s : state) (t : Z) (c : choice) : option state :=
  let x := s_thr s t in
  let go p s := Some (set_thr t (set_pc p x) s) in
  match t_pc x, c with
  | PApp, _ => app t x c s
  (* pre_create returns; 1132; and the branch 1105, an ignoring creator *)
  | PPre r a, CRet d => if d =? IGNORE then Some (see (LPre t d) (set_thr t (set_pc (PRealIgn r a) x) s))
                        else Some (see (LPre t d) (set_thr t (set_pc (PMake r a) x) s))
  | PPre r a, CStep => go (PRealIgn r a) s
  (* a cancellation point in the client's callback *)
  | PPre r a, CAct => if cancels x then Some (see (OCancel t) (set_thr t (set_unw (Some CANCELED) (set_pc PApp x)) s)) else None
  | PMake r a, CStep => let (n, s1) := make s in go (PFill n r a) s1
  | PFill n r a, CStep => go (PReal n) (set_node n (mknode r a (n_started (s_node s n)) (n_fini (s_node s n)) (n_block (s_node s n))) s)
  | PReal n, COk => go (PPost 0 (s_next s)) (set_thr (s_next s) (fresh (BLink n)) (set_next (s_next s + 1) s))
  | PReal n, CFail e => if e =? 0 then None else go (PPost e 0) s
  | PRealIgn r a, COk => go (PBack 0 (s_next s)) (set_thr (s_next s) (fresh (PNew r a)) (set_next (s_next s + 1) s))
  | PRealIgn r a, CFail e => if e =? 0 then None else go (PBack e 0) s
  | PPost e u, CRet _ => Some (see (LPost t) (set_thr t (set_pc (PBack e u) x) s))
  | PPost e u, CAct => if cancels x then Some (see (OCancel t) (set_thr t (set_unw (Some CANCELED) (set_pc PApp x)) s)) else None
  | PBack e u, CStep => Some (see (OCreate t e u) (set_thr t (set_pc PApp x) s))
  | PNew r a, CStep => Some (see (OStart t r a) (set_thr t (set_pc PApp x) s))
  (* 975-979: no new threads once exit has begun; 981: the cleanup routine is pushed *)
  | BLink n, CStep => if s_exit s then go (PDone 0) s else Some (set_thr t (set_bot (Some n) (set_pc (BInit n) x)) s)
  | BInit n, CRet _ => Some (see (LInit t) (set_thr t (set_pc (BMark n) x) s))
  | BInit n, CAct => if cancels x then Some (see (OCancel t) (set_thr t (set_unw (Some CANCELED) (set_pc (BClean n CANCELED) x)) s)) else None
  | BMark n, CStep => go (BCall n) (set_node n (mark (s_node s n)) s)
  | BCall n, CStep => Some (see (OStart t (n_rtn (s_node s n)) (n_arg (s_node s n))) (set_thr t (set_pc PApp x) s))
  (* 918-926 *)
  | BClean n v, CStep =>
      if (negb (n_started (s_node s n)) || n_fini (s_node s n) || n_block (s_node s n) || s_fdone s)%bool
      then go (PDone v) s
      else Some (see (LFini t) (set_thr t (set_pc (BFini n v) x) (set_node n (fini (s_node s n)) s)))
  | BFini n v, CRet _ => go (BUnlink n v) s
  (* the callback is not called under setcancelstate: 931 *)
  | BFini n v, CAct => if cancels x then Some (see (OCancel t) (set_thr t (set_unw (Some CANCELED) (set_pc (PDone CANCELED) x)) s)) else None
  | BUnlink n v, CStep => go (PDone v) (unlink n s)
  | _, _ => None
  end.

Fixpoint run (s : state) (l : list (Z * choice)) : option state :=
  match l with
  | [] => Some s
  | (t, c) :: l => match step s t c with Some s1 => run s1 l | None => None end
  end.
