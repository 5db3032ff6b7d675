(** Model of sigwait(), sigwaitinfo(), sigtimedwait(), src/pthread.c 1237-1381,
    for one calling thread.

    The kernel's answers come one per turn of the restart loop; each comes with
    the shared state as read at that turn (another thread may change it), and
    with the client handler's return code should it be called.  Debug output,
    getcontext and the siginfo contents are left out. *)
From Verif Require Import SignalModel.

(** One turn: what real_sigwaitinfo returned and what the helper reads. *)
Record turn := mkturn {
  w_ret : Z;            (* signal number, or negative on error *)
  w_errno : Z;
  w_exiting : bool;     (* monitor_in_exit_cleanup *)
  w_done : bool;        (* monitor_fini_thread_done *)
  w_sd : Z;             (* pthread.c's shootdown_signal *)
  w_node : bool;        (* monitor_get_tn() != NULL *)
  w_started : bool;     (* tn_appl_started *)
  w_fini : bool;        (* tn_fini_started set meanwhile by someone else *)
  w_block : bool;       (* tn_block_shootdown *)
  w_client : Z }.       (* client handler's return code *)

Inductive wevent :=
| WFini                        (* monitor_fini_thread callback *)
| WClient (h : N) (sig : Z).   (* client signal handler *)

(** sigismember, glibc: -1 outside the valid range. *)
Definition sigismember (set : sigset) (sig : Z) : Z :=
  if in_range sig then (if mem sig set then 1 else 0) else -1.

(** monitor_sigwait_handler, signal.c 169-190, on the client handler table. *)
Definition offer_client (clients : Z -> option N) (sig cret : Z) : list wevent * bool :=
  if (sig <=? 0) || (NSIG <=? sig) then ([], false)
  else match clients sig with
       | Some h => ([WClient h sig], cret =? 0)
       | None => ([], false)
       end.

(** The test at pthread.c 1256-1262; [fs] is this thread's tn_fini_started. *)
Definition is_shootdown (t : turn) (fs : bool) : bool :=
  (w_ret t =? w_sd t) && w_exiting t && negb (w_done t) && w_node t &&
  w_started t && negb fs && negb (w_block t).

(** monitor_sigwait_helper, 1237-1294: (events, new tn_fini_started, restart?). *)
Definition helper (clients : Z -> option N) (set : sigset) (t : turn) (fs0 : bool)
  : list wevent * bool * bool :=
  let fs := fs0 || w_fini t in
  if w_ret t <? 0 then ([], fs, w_errno t =? EINTR)
  else if is_shootdown t fs then ([WFini], true, true)
  else
    let '(evs, taken) := offer_client clients (w_ret t) (w_client t) in
    if taken then (evs, fs, true)
    else if sigismember set (w_ret t) =? 0 then (evs, fs, true)
    else (evs, fs, false).

(** The do-while loops: the turn that ends the wait, and all events.  None: the
    supplied answers are used up and the call is still waiting. *)
Fixpoint wait_loop (clients : Z -> option N) (set : sigset) (ts : list turn) (fs : bool)
  : list wevent * option turn :=
  match ts with
  | [] => ([], None)
  | t :: r =>
      let '(evs, fs', again) := helper clients set t fs in
      if again then let '(evs', out) := wait_loop clients set r fs' in (evs ++ evs', out)
      else (evs, Some t)
  end.

(** What the three functions return: return value, *sig if stored, errno if set. *)
Record wret := mkwret { v_ret : Z; v_sig : option Z; v_errno : option Z }.

(** sigwait, 1296-1324; [want] is sig != NULL. *)
Definition sigwait_result (want : bool) (t : turn) : wret :=
  if w_ret t <? 0 then mkwret (w_errno t) None None
  else mkwret 0 (if want then Some (w_ret t) else None) None.

(** sigwaitinfo, 1326-1350, and sigtimedwait, 1352-1381 (same loop; the timeout is
    handed to the kernel again on every turn). *)
Definition sigwaitinfo_result (t : turn) : wret :=
  mkwret (w_ret t) None (Some (w_errno t)).

Definition sigwait (clients : Z -> option N) (set : sigset) (want : bool)
  (ts : list turn) (fs : bool) : list wevent * option wret :=
  let '(evs, out) := wait_loop clients set ts fs in
  (evs, option_map (sigwait_result want) out).

Definition sigwaitinfo (clients : Z -> option N) (set : sigset)
  (ts : list turn) (fs : bool) : list wevent * option wret :=
  let '(evs, out) := wait_loop clients set ts fs in
  (evs, option_map sigwaitinfo_result out).
