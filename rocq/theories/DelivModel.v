(** Model of signals that arrive while threads change actions: monitor_signal_handler
    (src/signal.c 196-276) running beside the calls of SigRaceModel.v.  Every read the
    handler makes of a field of the shared table is one step.

    A thread number stands for a thread, or for a piece of code that interrupts one
    (code inside a handler is another number whose steps come in between); every
    interleaving is allowed.  A thread that is interrupted inside a call goes on with
    the call when the handler is over.  The end of a delivery is recorded as an event;
    what the application's handler, the exit callbacks (251-255) and raise() do then is
    in SignalModel.v.  A client handler does nothing here but return. *)
From Verif Require Export SigRaceModel.

(** Where a delivery of signal g is. *)
Inductive dpc :=
| DNone
| DCheck (g : Z)                 (* 203-209 *)
| DTest (g : Z)                  (* 217: mse_client_handler != NULL *)
| DLoad (g : Z)                  (* 218: the call through mse_client_handler *)
| DClientRuns (g : Z)
| DIgn (g : Z)                   (* 228 *)
| DDfl (g : Z)                   (* 234 *)
| DFlags (g : Z)                 (* 270 *)
| DCall (g : Z) (three : bool).  (* 271, 273: the call through sa_handler *)

Inductive result :=
| Refused | Taken | Ignored | NoAction | Stopped | Terminated
| Ran (h : handler) (three : bool)
| Crashed.                       (* a call through SIG_DFL, SIG_IGN or NULL *)

Inductive devent :=
| DEv (e : event)                    (* a call or a return, as in SigRaceModel.v *)
| DArrive (t g : Z)
| DClient (t g : Z) (f : N)          (* the client's handler is called *)
| DClientRet (t r : Z)               (* and returns r *)
| DDone (t g : Z) (r : result).

Record dstate := mkdstate { d_r : rstate; d_pc : Z -> dpc; d_tr : list devent }.

(** What happens next to thread t. *)
Inductive dchoice := Api (ch : choice) | Arrives (g : Z) | Goes (r : Z).

(** The event of a call step. *)
Definition api_event (c : config) (s : rstate) (t : Z) (ch : choice) : list devent :=
  match ch with
  | ChCall o => [DEv (ECall t o)]
  | ChStep => match exec c (r_st s) (r_th s t) with
              | (_, inr r) => [DEv (ERet t (t_op (r_th s t)) r)]
              | _ => []
              end
  end.

(** One step of monitor_signal_handler: next position and events.  [r]: what the client's
    handler returns. *)
Definition handler_step (st : state) (t r : Z) (p : dpc) : dpc * list devent :=
  match p with
  | DNone => (DNone, [])
  | DCheck g =>
      if negb (in_range g) || avoid (tab st g) || invalid (tab st g)
      then (DNone, [DDone t g Refused]) else (DTest g, [])
  | DTest g => match client_handler (tab st g) with
               | Some _ => (DLoad g, []) | None => (DIgn g, []) end
  | DLoad g => match client_handler (tab st g) with
               | Some f => (DClientRuns g, [DClient t g f])
               | None => (DNone, [DDone t g Crashed])
               end
  | DClientRuns g => if r =? 0 then (DNone, [DDone t g Taken; DClientRet t r])
                     else (DIgn g, [DClientRet t r])                              (* 219-221 *)
  | DIgn g => match sa_handler (appl_act (tab st g)) with
              | HIgn => (DNone, [DDone t g Ignored])
              | _ => (DDfl g, []) end
  | DDfl g => match sa_handler (appl_act (tab st g)) with
              | HDfl => (DNone, [DDone t g (if noterm (tab st g) then NoAction      (* 243 *)
                                            else if stop (tab st g) then Stopped    (* 246 *)
                                            else Terminated)])                      (* 251-264 *)
              | _ => (DFlags g, []) end
  | DFlags g => (DCall g (N.testbit (sa_flags (appl_act (tab st g))) 2), [])
  | DCall g b => (DNone, [DDone t g (match sa_handler (appl_act (tab st g)) with
                                     | HDfl | HIgn => Crashed
                                     | h => Ran h b
                                     end)])
  end.

Definition dstep (c : config) (s : dstate) (t : Z) (ch : dchoice) : option dstate :=
  match ch, d_pc s t with
  | Api a, DNone =>
      match rstep c (d_r s) t a with
      | Some r' => Some (mkdstate r' (d_pc s) (api_event c (d_r s) t a ++ d_tr s))
      | None => None
      end
  | Arrives g, DNone =>
      match sa_handler (k_act (kn (r_st (d_r s))) g) with
      | HMon => Some (mkdstate (d_r s) (upd (d_pc s) t (DCheck g)) (DArrive t g :: d_tr s))
      | _ => None
      end
  | Goes _, DNone => None
  | Goes r, p =>
      let '(p', ev) := handler_step (r_st (d_r s)) t r p in
      Some (mkdstate (d_r s) (upd (d_pc s) t p') (ev ++ d_tr s))
  | _, _ => None
  end.

Definition dstart (c : config) (k0 : kern) : dstate :=
  mkdstate (rstart c k0) (fun _ => DNone) [].

Fixpoint drun (c : config) (s : dstate) (l : list (Z * dchoice)) : option dstate :=
  match l with
  | [] => Some s
  | (t, ch) :: r => match dstep c s t ch with Some s' => drun c s' r | None => None end
  end.
