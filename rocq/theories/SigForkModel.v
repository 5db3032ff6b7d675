(** Model of the signal layer across fork (src/fork.c 307-333).  The child has a
    copy of the parent's memory, so of monitor_signal_array, and of the kernel's
    actions, and only the thread that forked.  Its monitor_begin_process_fcn
    (src/main.c 256-285) calls monitor_normal_init, which has already run, and
    neither writes the table nor the kernel's actions.

    Simplified: the fork itself is one step; threads of the child other than the
    forking one carry names that no thread inside a call had at the fork; a handler
    that interrupted sigaction may fork but makes no such call itself. *)
From Verif Require Export SigRaceModel.

(** The child of a fork made in state s, with an empty history of its own
    (fork.c 316, 326-330). *)
Definition child (s : rstate) : rstate :=
  mkrstate (r_st s) (fun _ => mkthread PIdle (OpMask 0 None) act0) [].

(** The same when thread f forks, perhaps from a handler that interrupted its own
    call of sigaction: in the child that call goes on. *)
Definition child_of (f : Z) (s : rstate) : rstate :=
  mkrstate (r_st s) (fun t => if t =? f then r_th s f else mkthread PIdle (OpMask 0 None) act0) [].
