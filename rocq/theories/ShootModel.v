(** Model of the waiting loop of monitor_thread_shootdown, src/pthread.c 549-632:
    one pass over the thread list, the progress and timeout test, and the fini_thread
    of the exiting thread.  Here each pass is given the thread list as it is read
    during that pass (threads change it between reads; the interleavings are in
    LifeModel.v); the clock readings are arbitrary. *)
From Verif Require Export Base.

(** The fields of a thread node the pass reads.  [n_self]: tn_self. *)
Record tnode := mktnode {
  n_self : Z; n_appl : bool; n_fstart : bool; n_fdone : bool }.

(** What one pass computes, 577-601: the counters, the threads signalled, and whether
    the exiting thread's own node was met. *)
Record counts := mkcounts {
  c_started : Z; c_unstarted : Z; c_finished : Z; c_unfinished : Z;
  c_killed : list Z; c_mine : bool }.

(** The body of the for loop, 581-600. *)
Definition scan_node (self : Z) (c : counts) (n : tnode) : counts :=
  if n_self n =? self then
    mkcounts (c_started c) (c_unstarted c) (c_finished c) (c_unfinished c) (c_killed c) true
  else if n_appl n then
    let '(st, un, ki) :=
      if n_fstart n then (c_started c + 1, c_unstarted c, c_killed c)
      else (c_started c, c_unstarted c + 1, c_killed c ++ [n_self n]) in
    if n_fdone n
    then mkcounts st un (c_finished c + 1) (c_unfinished c) ki (c_mine c)
    else mkcounts st un (c_finished c) (c_unfinished c + 1) ki (c_mine c)
  else c.

Definition scan (self : Z) (mine : bool) (l : list tnode) : counts :=
  fold_left (scan_node self) l (mkcounts 0 0 0 0 [] mine).

(** struct timeval: seconds and microseconds; only tv_sec is compared. *)
Record timeval := mktime { tv_sec : Z; tv_usec : Z }.

(** pthread.c 87 *)
Definition SHOOTDOWN_TIMEOUT : Z := 10.

Inductive shoot_end := AllDone | GaveUp | StillWaiting.

(** The endless loop, 572-620, over the passes made: the list read and the clock read
    after it.  Result: how it ended, how many passes were made, the signals sent in
    each, whether my_tn was set. *)
Fixpoint shoot_loop (self : Z) (mine : bool) (last : timeval) (last_started : Z)
  (passes : list (list tnode * timeval)) : shoot_end * nat * list (list Z) * bool :=
  match passes with
  | [] => (StillWaiting, O, [], mine)
  | (l, now) :: r =>
      let c := scan self mine l in
      if c_unfinished c =? 0 then (AllDone, 1%nat, [c_killed c], c_mine c)
      else
        let go last' ls' :=
          let '(e, n, k, m) := shoot_loop self (c_mine c) last' ls' r in
          (e, S n, c_killed c :: k, m) in
        if c_started c >? last_started then go now (c_started c)
        else if (tv_sec now >? tv_sec last + SHOOTDOWN_TIMEOUT) && (c_unstarted c >? 0)
        then (GaveUp, 1%nat, [c_killed c], c_mine c)
        else go last last_started
  end.

(** 570-572: my_tn = NULL, last = now, last_started = 0. *)
Definition shootdown_wait (self : Z) (start : timeval) (passes : list (list tnode * timeval)) :=
  shoot_loop self false start 0 passes.
