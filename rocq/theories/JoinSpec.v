(** Threads without the library, and vocabulary for what threads end with. *)
From Verif Require Export JoinModel.
Local Open Scope Z_scope.

(** What the application sees. *)
Definition seen (e : event) : bool :=
  match e with LPre _ _ | LPost _ | LInit _ | LFini _ => false | _ => true end.

(** ** Plain pthreads: no library. *)

Inductive ppc :=
  | QNone | QDone (v : Z) | QJoined | QApp
  | QCreate (r a : Z)            (* in pthread_create *)
  | QBack (e u : Z)              (* about to return from it *)
  | QNew (r a : Z).              (* made, its routine not yet entered *)

Record pthr := mkp { q_pc : ppc; q_hs : list Z; q_pend : bool; q_dis : bool; q_unw : option Z }.
Record plain := mkplain { p_thr : Z -> pthr; p_next : Z; p_log : list event }.

Definition p_init : plain :=
  mkplain (upd (fun _ => mkp QNone [] false false None) MAIN (mkp QApp [] false false None)) 2 [].

Inductive act :=
  | ACreate (r a : Z) | AReturn (v : Z) | AExit (v : Z) | APush (h : Z) | APop | AJoin (u : Z)
  | ACancel (u : Z) | ADisable (b : bool)
  | AAct                         (* a cancellation takes effect at a cancellation point *)
  | AOk | AFail (e : Z)          (* the system makes the thread, or not *)
  | AStep.

Definition put (t : Z) (x : pthr) (e : list event) (p : plain) : plain :=
  mkplain (upd (p_thr p) t x) (p_next p) (e ++ p_log p).

Definition p_step (p : plain) (t : Z) (c : act) : option plain :=
  let x := p_thr p t in
  let at_ q := mkp q (q_hs x) (q_pend x) (q_dis x) (q_unw x) in
  match q_pc x, c with
  | QApp, ACreate r a => Some (put t (at_ (QCreate r a)) [OCall t r a] p)
  | QApp, AReturn v =>
      match q_unw x, q_hs x with
      | None, [] => if t =? MAIN then None else Some (put t (at_ (QDone v)) [OReturn t v] p)
      | _, _ => None
      end
  | QApp, AExit v =>
      match q_unw x with
      | None => Some (put t (mkp QApp (q_hs x) (q_pend x) (q_dis x) (Some v)) [OExit t v] p)
      | Some _ => None
      end
  | QApp, APush h => Some (put t (mkp QApp (h :: q_hs x) (q_pend x) (q_dis x) (q_unw x)) [] p)
  | QApp, APop =>
      match q_hs x with
      | _ :: hs => Some (put t (mkp QApp hs (q_pend x) (q_dis x) (q_unw x)) [] p)
      | [] => None
      end
  | QApp, AJoin u =>
      let y := p_thr p u in
      match q_pc y with
      | QDone v => Some (put u (mkp QJoined (q_hs y) (q_pend y) (q_dis y) (q_unw y)) [OJoin t u v] p)
      | _ => None
      end
  | QApp, ACancel u =>
      let y := p_thr p u in
      match q_pc y with
      | QNone => None
      | _ => Some (put u (mkp (q_pc y) (q_hs y) true (q_dis y) (q_unw y)) [] p)
      end
  | QApp, ADisable b => Some (put t (mkp QApp (q_hs x) (q_pend x) b (q_unw x)) [] p)
  | QApp, AAct =>
      match q_pend x, q_dis x, q_unw x with
      | true, false, None => Some (put t (mkp QApp (q_hs x) true false (Some CANCELED)) [OCancel t] p)
      | _, _, _ => None
      end
  (* ending: the handlers, last pushed first; then the thread has ended *)
  | QApp, AStep =>
      match q_unw x, q_hs x with
      | Some v, h :: hs => Some (put t (mkp QApp hs (q_pend x) (q_dis x) (Some v)) [OHandler t h] p)
      | Some v, [] => Some (put t (at_ (QDone v)) [] p)
      | None, _ => None
      end
  | QCreate r a, AOk =>
      Some (mkplain (upd (upd (p_thr p) (p_next p) (mkp (QNew r a) [] false false None)) t (at_ (QBack 0 (p_next p))))
                    (p_next p + 1) (p_log p))
  | QCreate r a, AFail e => if e =? 0 then None else Some (put t (at_ (QBack e 0)) [] p)
  | QBack e u, AStep => Some (put t (at_ QApp) [OCreate t e u] p)
  | QNew r a, AStep => Some (put t (at_ QApp) [OStart t r a] p)
  | _, _ => None
  end.

Fixpoint p_run (p : plain) (l : list (Z * act)) : option plain :=
  match l with
  | [] => Some p
  | (t, c) :: l => match p_step p t c with Some p1 => p_run p1 l | None => None end
  end.

(** ** Reachable states, and what is asked of an execution *)

Inductive reach (ok : state -> Z -> choice -> Prop) : state -> Prop :=
  | r_init : reach ok init
  | r_step s t c s1 : reach ok s -> ok s t c -> step s t c = Some s1 -> reach ok s1.

Definition any (s : state) (t : Z) (c : choice) : Prop := True.

(** No cancellation takes effect inside a callback of the client; no created thread
    comes to begin after the process has started to exit. *)
Definition quiet (s : state) (t : Z) (c : choice) : Prop :=
  (c = CAct -> t_pc (s_thr s t) = PApp) /\
  (forall n, t_pc (s_thr s t) = BLink n -> s_exit s = false).

(** No cancellation inside fini_thread. *)
Definition fini_quiet (s : state) (t : Z) (c : choice) : Prop :=
  forall n v, t_pc (s_thr s t) = BFini n v -> c <> CAct.
Definition no_late (s : state) (t : Z) (c : choice) : Prop :=
  forall n, t_pc (s_thr s t) = BLink n -> s_exit s = false.

(** How thread u can come to end with v: its routine returned v, or it called
    pthread_exit (v), or it was cancelled. *)
Definition ended_with (u v : Z) (e : event) : Prop :=
  e = OReturn u v \/ e = OExit u v \/ (e = OCancel u /\ v = CANCELED).

(** The shootdown signal does not come. *)
Definition no_shoot (s : state) (t : Z) (c : choice) : Prop := c <> CShoot.

(** What thread u does itself: it creates a thread, its start routine begins or returns,
    it exits, runs a cleanup handler, joins a thread, gets init_thread or fini_thread. *)
Definition does (u : Z) (e : event) : bool :=
  match e with
  | OCall w _ _ | OCreate w _ _ | OStart w _ _ | OReturn w _ | OExit w _ | OHandler w _ | OJoin w _ _
  | LPre w _ | LPost w | LInit w | LFini w => w =? u
  | OCancel _ => false
  end.
