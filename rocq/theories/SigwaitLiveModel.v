(** Model of sigwait(), sigwaitinfo() and sigtimedwait() in a running program,
    src/pthread.c 1237-1381 with src/signal.c 169-190: SigwaitModel.v's loop on the
    signal table of SignalModel.v, which other threads and handlers go on changing
    during the wait. *)
From Verif Require Import SignalModel SigwaitModel.

(** What is left of the events of monitor_sigwait_handler. *)
Definition waited (l : list event) : list wevent :=
  flat_map (fun e => match e with EvClient h s => [WClient h s] | _ => [] end) l.

(** monitor_sigwait_helper, pthread.c 1237-1294, in state [st]: (events, new
    tn_fini_started, restart?, state). *)
Definition live_helper (c : config) (set : sigset) (st : state) (t : turn) (fs0 : bool)
  : list wevent * bool * bool * state :=
  let fs := fs0 || w_fini t in
  if w_ret t <? 0 then ([], fs, w_errno t =? EINTR, st)             (* 1248-1250 *)
  else if is_shootdown t fs then ([WFini], true, true, st)          (* 1255-1273 *)
  else
    let '(evs, taken) := sigwait_handler c st (w_ret t) (w_client t) in  (* 1279-1281 *)
    let st1 := signal_init c st in
    if taken then (waited evs, fs, true, st1)
    else if sigismember set (w_ret t) =? 0 then (waited evs, fs, true, st1)   (* 1286-1288 *)
    else (waited evs, fs, false, st1).

(** The do-while loops, 1311-1315, 1342-1346, 1373-1377.  Each turn comes with the
    calls made in the process since the turn before, by any thread, in the order
    they took effect (those of the client's handler included). *)
Fixpoint live_loop (c : config) (set : sigset) (st : state) (l : list (list op * turn))
  (fs : bool) : list wevent * option turn :=
  match l with
  | [] => ([], None)
  | (ops, t) :: r =>
      let '(evs, fs', again, st1) := live_helper c set (fst (run c st ops)) t fs in
      if again then let '(evs', out) := live_loop c set st1 r fs' in (evs ++ evs', out)
      else (evs, Some t)
  end.
