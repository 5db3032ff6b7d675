(** Model of the time sigtimedwait() takes, src/pthread.c 1352-1381: the restart loop
    of SigwaitModel.v with the time each kernel call takes.  Every turn hands the
    application's timeout to the kernel again (1374), so the kernel may wait that long
    on each turn.  The time spent in monitor and in client handlers is left out. *)
From Verif Require Import SignalModel SigwaitModel.

(** <errno.h>: the kernel's answer when the time is over. *)
Definition EAGAIN : Z := 11.

(** One turn and how long the kernel waited. *)
Record tturn := mktturn { t_turn : turn; t_took : Z }.

(** sigtimedwait(2): it waits at most the timeout; if it reports a timeout it has
    waited that long. *)
Definition kernel_waits (timeout : Z) (x : tturn) : Prop :=
  0 <= t_took x <= timeout /\
  (w_ret (t_turn x) < 0 -> w_errno (t_turn x) = EAGAIN -> t_took x = timeout).

(** The do-while loop, 1373-1377: the time so far, the restarts so far, and the answer
    that ends the call (None: still waiting). *)
Fixpoint timed_loop (clients : Z -> option N) (set : sigset) (l : list tturn) (fs : bool)
  : Z * nat * option turn :=
  match l with
  | [] => (0, 0%nat, None)
  | x :: r =>
      let '(_, fs', again) := helper clients set (t_turn x) fs in
      if again then let '(d, n, out) := timed_loop clients set r fs' in (t_took x + d, S n, out)
      else (t_took x, 0%nat, Some (t_turn x))
  end.
