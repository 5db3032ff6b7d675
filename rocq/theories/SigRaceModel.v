(** Model of concurrent sigaction calls: monitor_appl_sigaction (src/signal.c
    809-862), signal() (871-886) and monitor_sigaction (746-773), made by any
    number of threads without a lock.  Every read and write of a field of the
    shared table monitor_signal_array is one step; a system call is one step.

    Simplified: the table is initialised (monitor_signal_init has run, as it has
    before main); a field of struct sigaction (handler, flags, mask) is read and
    written as a whole, in the order of the struct; steps of different threads
    are interleaved in any way but each is seen by all threads at once.  The
    stores to mse_appl_hand (834) and mse_client_flags (762) are left out because
    nothing reads those fields. *)
From Verif Require Export SignalModel.

(** Where a thread is inside a call. *)
Inductive pc :=
| PIdle
| PEnter                          (* 815-823, 751-757: the tests *)
| PAvoid                          (* 828-831: the system's sigaction *)
| POpen | PClient                 (* 759, 761 *)
| PRdH | PRdF | PRdM              (* 844-846: *oldact = mse->mse_appl_act *)
| PWrH | PWrF | PWrM              (* 852: mse->mse_appl_act = *act *)
| PKF | PKM                       (* 853-854, 764-765 *)
| PDel (l : list Z)               (* 396-400, for the signals l: test and load *)
| PDelSt (m : sigset) (l : list Z)  (* 398: sigdelset, the store of m *)
| PAdj                            (* 856, 766: sigaddset, load *)
| PAdjSt (m : sigset)             (* store *)
| PSys                            (* 857, 767 *)
| PRet.

(** A thread: position, the call it is in, and what it has read of *oldact. *)
Record thread := mkthread { t_pc : pc; t_op : op; t_old : act }.

Inductive event := ECall (t : Z) (o : op) | ERet (t : Z) (o : op) (r : ret).

Record rstate := mkrstate {
  r_st : state; r_th : Z -> thread; r_tr : list event }.

(** The arguments of a call.  signal() passes its own struct (876-878). *)
Definition op_sig (o : op) : Z :=
  match o with
  | OpSigaction s _ _ | OpSignal s _ | OpClient s _ _ => s
  | OpMask _ _ => 0
  end.
Definition op_act (o : op) : option act :=
  match o with
  | OpSigaction _ a _ | OpClient _ _ a => a
  | OpSignal _ h => Some (mkact h 0 0)
  | OpMask _ _ => None
  end.
Definition op_want (o : op) : bool :=
  match o with OpSigaction _ _ w => w | OpSignal _ _ => true | _ => false end.
Definition is_client (o : op) : bool :=
  match o with OpClient _ _ _ => true | _ => false end.

(** The result: 858, 772, 880-885. *)
Definition result (o : op) (old : act) : ret :=
  match o with
  | OpSigaction _ _ w => mkret 0 None (if w then Some old else None) None None
  | OpSignal _ _ => mkret 0 None None None (Some (sa_handler old))
  | _ => ret_int 0
  end.
Definition failure (o : op) : ret :=
  match o with
  | OpSigaction _ _ _ => ret_fail
  | OpSignal _ _ => mkret 0 (Some EINVAL) None None (Some HErr)
  | _ => ret_int (-1)
  end.

Definition set_tab (f : entry -> entry) (s : Z) (st : state) : state :=
  mkstate (inited st) (upd (tab st) s (f (tab st s))) (shoot st) (sdlist st) (kn st).
Definition set_kn (k : kern) (st : state) : state :=
  mkstate (inited st) (tab st) (shoot st) (sdlist st) k.
Definition set_h (h : handler) (a : act) := mkact h (sa_flags a) (sa_mask a).
Definition set_f (f : N) (a : act) := mkact (sa_handler a) f (sa_mask a).
Definition set_m (m : sigset) (a : act) := mkact (sa_handler a) (sa_flags a) m.

(** After *oldact: 848. *)
Definition after_read (o : op) : pc :=
  match op_act o with None => PRet | Some _ => PWrH end.
(** After 761: 763. *)
Definition after_client (o : op) : pc :=
  match op_act o with None => PRet | Some _ => PKF end.
Definition the_act (o : op) : act :=
  match op_act o with Some a => a | None => act0 end.

(** One step of a thread inside a call: the new shared state, position and
    *oldact, or the result when the call returns. *)
Definition exec (c : config) (st : state) (th : thread)
  : state * (thread + ret) :=
  let o := t_op th in
  let s := op_sig o in
  let e := tab st s in
  let a := the_act o in
  let go p := inl (mkthread p o (t_old th)) in
  let old x p := (st, inl (mkthread p o x)) in
  let ap f p := (set_tab (fun e => set_appl (f (appl_act e)) e) s st, go p) in
  let kp f p := (set_tab (fun e => set_kern (f (kern_act e)) e) s st, go p) in
  match t_pc th with
  | PIdle => (st, go PIdle)
  | PEnter =>
      if is_client o then
        if negb (in_range s) || avoid e || invalid e then (st, inr (failure o))
        else (st, go POpen)
      else
        if negb (in_range s) || invalid e then (st, inr (failure o))
        else if avoid e then (st, go PAvoid)
        else (st, go (if op_want o then PRdH else after_read o))
  | PAvoid =>
      match real_sigaction (c_os c) (kn st) s (op_act o) with
      | (k', Some x) => (set_kn k' st, inr (result o x))
      | (k', None) => (set_kn k' st, inr (failure o))
      end
  | POpen => (set_tab set_open s st, go PClient)
  | PClient =>
      (set_tab (set_client (match o with OpClient _ h _ => h | _ => None end)) s st,
       go (after_client o))
  | PRdH => old (set_h (sa_handler (appl_act e)) (t_old th)) PRdF
  | PRdF => old (set_f (sa_flags (appl_act e)) (t_old th)) PRdM
  | PRdM => old (set_m (sa_mask (appl_act e)) (t_old th)) (after_read o)
  | PWrH => ap (set_h (sa_handler a)) PWrF
  | PWrF => ap (set_f (sa_flags a)) PWrM
  | PWrM => ap (set_m (sa_mask a)) PKF
  | PKF => kp (set_f (adjust_saflags (sa_flags a))) PKM
  | PKM => kp (set_m (sa_mask a)) (if is_client o then PAdj else PDel all_sigs)
  | PDel [] => (st, go PAdj)
  | PDel (g :: l) =>
      if kept_open (tab st) g
      then (st, go (PDelSt (sdel g (sa_mask (kern_act e))) l))
      else (st, go (PDel l))
  | PDelSt m l => kp (set_m m) (PDel l)
  | PAdj => (st, go (PAdjSt (adjust_samask (shoot st) (sa_mask (kern_act e)))))
  | PAdjSt m => kp (set_m m) PSys
  | PSys =>
      let '(k', _) := real_sigaction (c_os c) (kn st) s (Some (kern_act e)) in
      (set_kn k' st, go PRet)
  | PRet => (st, inr (result o (t_old th)))
  end.

(** The scheduler's choices: a thread that is not in a call makes one, or a
    thread inside a call does one step.  Masks are per thread and do not touch
    the table, so OpMask is not a choice here. *)
Inductive choice := ChCall (o : op) | ChStep.

Definition idle (th : thread) : bool :=
  match t_pc th with PIdle => true | _ => false end.

Definition is_mask (o : op) : bool :=
  match o with OpMask _ _ => true | _ => false end.

Definition rstep (c : config) (s : rstate) (t : Z) (ch : choice) : option rstate :=
  let th := r_th s t in
  match ch with
  | ChCall o =>
      if idle th && negb (is_mask o)
      then Some (mkrstate (r_st s) (upd (r_th s) t (mkthread PEnter o act0))
                          (ECall t o :: r_tr s))
      else None
  | ChStep =>
      if idle th then None
      else
        match exec c (r_st s) th with
        | (st', inl th') => Some (mkrstate st' (upd (r_th s) t th') (r_tr s))
        | (st', inr r) =>
            Some (mkrstate st' (upd (r_th s) t (mkthread PIdle (t_op th) act0))
                           (ERet t (t_op th) r :: r_tr s))
        end
  end.

(** The process after monitor_signal_init, nobody in a call. *)
Definition rstart (c : config) (k0 : kern) : rstate :=
  mkrstate (signal_init c (start k0)) (fun _ => mkthread PIdle (OpMask 0 None) act0) [].

Fixpoint rrun (c : config) (s : rstate) (l : list (Z * choice)) : option rstate :=
  match l with
  | [] => Some s
  | (t, ch) :: r => match rstep c s t ch with Some s' => rrun c s' r | None => None end
  end.
