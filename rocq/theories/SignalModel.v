(** Model of src/signal.c (and pthread_sigmask of src/pthread.c).

    Not modelled: MONITOR_DEBUG output, siginfo and ucontext contents, the
    [#if 0] code at 544-708 and the fields only it uses (mse_blocked,
    mse_appl_hand, monitor_signal_lock).  One process; calls are sequential
    here (concurrent sigaction calls are in SigRaceModel.v). *)
From Verif Require Export Base.
From Coq Require Export String Ascii.
From Coq Require Export List. Export ListNotations.
Close Scope string_scope.

(** ** Types *)

(** sa_handler / sa_sigaction share storage, so one value stands for both.
    [HMon] is &monitor_signal_handler (signal.c 197), [HFun a] any other code
    address, which the application or client may pass. *)
Inductive handler := HDfl | HIgn | HErr | HMon | HFun (addr : N).

(** struct sigaction. *)
Record act := mkact { sa_handler : handler; sa_flags : N; sa_mask : sigset }.

(** The operating system: what sigaction and sigprocmask do to one process with
    one calling thread.
    [k_reject]: signal numbers in 1..NSIG-1 that sigaction refuses with EINVAL
    (the C library reserves 32 and 33 on Linux).
    [k_noblock]: signals the system never lets a mask contain (SIGKILL,
    SIGSTOP, and the C library's own). *)
Record os := mkos { k_reject : Z -> bool; k_noblock : sigset }.
Record kern := mkkern { k_act : Z -> act; k_mask : sigset }.

(** sigaction(2): returns None for -1/EINVAL, else the old action.  The kernel
    drops the unblockable signals from the stored mask. *)
Definition real_sigaction (o : os) (k : kern) (sig : Z) (a : option act)
  : kern * option act :=
  if negb (in_range sig) || k_reject o sig then (k, None)
  else match a with
       | None => (k, Some (k_act k sig))
       | Some x =>
           if (sig =? SIGKILL) || (sig =? SIGSTOP) then (k, None)
           else (mkkern (upd (k_act k) sig
                             (mkact (sa_handler x) (sa_flags x)
                                    (N.ldiff (sa_mask x) (k_noblock o))))
                        (k_mask k),
                 Some (k_act k sig))
       end.

(** <signal.h> SIG_BLOCK = 0, SIG_UNBLOCK = 1, SIG_SETMASK = 2. *)
Definition SIG_BLOCK : Z := 0.
Definition SIG_UNBLOCK : Z := 1.
Definition SIG_SETMASK : Z := 2.

(** sigprocmask(2) / pthread_sigmask(3): (ok?, old mask). *)
Definition real_sigprocmask (o : os) (k : kern) (how : Z) (set : option sigset)
  : kern * (bool * sigset) :=
  match set with
  | None => (k, (true, k_mask k))
  | Some s =>
      let put m := (mkkern (k_act k) (N.ldiff m (k_noblock o)), (true, k_mask k)) in
      if how =? SIG_BLOCK then put (N.lor (k_mask k) s)
      else if how =? SIG_UNBLOCK then put (N.ldiff (k_mask k) s)
      else if how =? SIG_SETMASK then put s
      else (k, (false, k_mask k))
  end.

(** struct monitor_signal_entry, signal.c 80-93 (mse_client_flags is stored and
    never read; mse_blocked and mse_appl_hand are only used by #if 0 code). *)
Record entry := mkentry {
  appl_act : act;
  kern_act : act;
  client_handler : option N;
  avoid : bool; invalid : bool; noterm : bool; noraise : bool; stop : bool;
  keep_open : bool }.

(** memset(..., 0, ...) at signal.c 295: SIG_DFL is 0. *)
Definition act0 : act := mkact HDfl 0 0.
Definition entry0 : entry := mkentry act0 act0 None false false false false false false.

Definition set_appl (a : act) (e : entry) := mkentry a (kern_act e) (client_handler e)
  (avoid e) (invalid e) (noterm e) (noraise e) (stop e) (keep_open e).
Definition set_kern (a : act) (e : entry) := mkentry (appl_act e) a (client_handler e)
  (avoid e) (invalid e) (noterm e) (noraise e) (stop e) (keep_open e).
Definition set_client (c : option N) (e : entry) := mkentry (appl_act e) (kern_act e) c
  (avoid e) (invalid e) (noterm e) (noraise e) (stop e) (keep_open e).
Definition set_avoid (e : entry) := mkentry (appl_act e) (kern_act e) (client_handler e)
  true (invalid e) (noterm e) (noraise e) (stop e) (keep_open e).
Definition set_invalid (e : entry) := mkentry (appl_act e) (kern_act e) (client_handler e)
  (avoid e) true (noterm e) (noraise e) (stop e) (keep_open e).
Definition set_noterm (e : entry) := mkentry (appl_act e) (kern_act e) (client_handler e)
  (avoid e) (invalid e) true (noraise e) (stop e) (keep_open e).
Definition set_noraise (e : entry) := mkentry (appl_act e) (kern_act e) (client_handler e)
  (avoid e) (invalid e) (noterm e) true (stop e) (keep_open e).
Definition set_stop (e : entry) := mkentry (appl_act e) (kern_act e) (client_handler e)
  (avoid e) (invalid e) (noterm e) (noraise e) true (keep_open e).
Definition set_open (e : entry) := mkentry (appl_act e) (kern_act e) (client_handler e)
  (avoid e) (invalid e) (noterm e) (noraise e) (stop e) true.

Definition table := Z -> entry.

(** The file's static state: the RUN_ONCE flag of monitor_signal_init,
    monitor_signal_array (95-96), shootdown_signal (152), monitor_shootdown_list
    (138) and the kernel. *)
Record state := mkstate {
  inited : bool; tab : table; shoot : Z; sdlist : list Z; kn : kern }.

(** What does not change while the process runs: the OS, the configure-time
    client list and shootdown signal, the MONITOR_SHOOTDOWN_SIGNAL environment
    value, SIGRTMIN and SIGRTMAX (run-time values in the C library). *)
Record config := mkconfig {
  c_os : os; c_open : list Z; c_shoot : Z; c_env : option string;
  c_rtmin : Z; c_rtmax : Z }.

(** ** Constants *)

(** signal.c 64-65. *)
Definition SAFLAGS_REQUIRED : N := N.lor SA_SIGINFO SA_RESTART.
Definition SAFLAGS_FORBIDDEN : N := N.lor SA_RESETHAND SA_ONSTACK.

(** signal.c 100-126, 140-142 (Linux, not Blue Gene/Q). *)
Definition avoid_list : list Z := [SIGKILL; SIGSTOP; -1].
Definition noterm_list : list Z := [SIGCHLD; SIGCONT; SIGURG; SIGWINCH; -1].
Definition noraise_list : list Z := [SIGSEGV; SIGBUS; SIGILL; -1].
Definition stop_list : list Z := [SIGTSTP; SIGTTIN; SIGTTOU; -1].
Definition extra_list : list Z := [SIGUSR2; SIGUSR1; SIGPWR; SIGURG; SIGPIPE; -1].

(** signal.c 151. *)
Definition last_resort_signal : Z := SIGWINCH.

(** The loop shape [for (i = 0; list[i] > 0; i++)] visits the entries before the
    first non-positive one. *)
Fixpoint upto_end (l : list Z) : list Z :=
  match l with
  | [] => []
  | x :: r => if x >? 0 then x :: upto_end r else []
  end.

(** ** sscanf(str, "%d", &sig), glibc: skip white space, optional sign, decimal
    digits; the value saturates to a 64-bit long and is truncated to int.
    None if there is no digit (return value other than 1). *)
Definition is_space (c : ascii) : bool :=
  let n := nat_of_ascii c in
  (n =? 32)%nat || ((9 <=? n)%nat && (n <=? 13)%nat).
Definition is_digit (c : ascii) : bool :=
  let n := nat_of_ascii c in (48 <=? n)%nat && (n <=? 57)%nat.
Definition digit_val (c : ascii) : Z := Z.of_nat (nat_of_ascii c) - 48.

Fixpoint skip_space (s : string) : string :=
  match s with
  | String c r => if is_space c then skip_space r else s
  | EmptyString => EmptyString
  end.

Fixpoint digits (s : string) (acc : Z) : Z :=
  match s with
  | String c r => if is_digit c then digits r (10 * acc + digit_val c) else acc
  | EmptyString => acc
  end.

Definition LONG_MAX : Z := 9223372036854775807.
Definition LONG_MIN : Z := -9223372036854775808.
Definition to_int32 (z : Z) : Z := (z + 2147483648) mod 4294967296 - 2147483648.
Definition clamp_long (z : Z) : Z := Z.max LONG_MIN (Z.min LONG_MAX z).

Definition scan_unsigned (neg : bool) (s : string) : option Z :=
  match s with
  | String c _ =>
      if is_digit c
      then let v := digits s 0 in
           Some (to_int32 (clamp_long (if neg then - v else v)))
      else None
  | EmptyString => None
  end.

Definition sscanf_d (s : string) : option Z :=
  match skip_space s with
  | String c r =>
      if Ascii.eqb c "-"%char then scan_unsigned true r
      else if Ascii.eqb c "+"%char then scan_unsigned false r
      else scan_unsigned false (skip_space s)
  | EmptyString => None
  end.

(** ** monitor_choose_shootdown_early, signal.c 438-527 *)

(** The test at 459-460 and 470-471. *)
Definition sd_candidate (t : table) (sig : Z) : bool :=
  negb (avoid (t sig)) && negb (invalid (t sig)) &&
  negb (stop (t sig)) && negb (keep_open (t sig)).

(** for (sig = SIGRTMIN + 8; sig <= SIGRTMAX - 8; sig++), 456. *)
Definition rt_sigs (rtmin rtmax : Z) : list Z :=
  map (fun i => rtmin + 8 + Z.of_nat i)
      (seq 0 (Z.to_nat (rtmax - 8 - (rtmin + 8) + 1))).

(** 454-478: the list that is stored in monitor_shootdown_list. *)
Definition build_sdlist (t : table) (rtmin rtmax : Z) : list Z :=
  filter (fun s => (s <? NSIG) && sd_candidate t s) (rt_sigs rtmin rtmax) ++
  filter (sd_candidate t) (upto_end extra_list) ++
  [last_resort_signal; -1].

(** The test at 487-490 and 502-505. *)
Definition sd_valid (t : table) (sig : Z) : bool :=
  (sig >? 0) && (sig <? NSIG) && negb (avoid (t sig)) &&
  negb (invalid (t sig)) && negb (stop (t sig)).

(** 484-496: a valid environment value. *)
Definition env_choice (t : table) (env : option string) : option Z :=
  match env with
  | None => None
  | Some str =>
      match sscanf_d str with
      | Some sig => if sd_valid t sig then Some sig else None
      | None => None
      end
  end.

(** 515-526: first entry of the list that is not kept open, else last resort. *)
Definition list_choice (t : table) (l : list Z) : Z :=
  match find (fun s => negb (keep_open (t s))) (upto_end l) with
  | Some s => s
  | None => last_resort_signal
  end.

(** Returns the new (shootdown_signal, monitor_shootdown_list). *)
Definition choose_shootdown_early (c : config) (t : table) (cur : Z) (l : list Z)
  : Z * list Z :=
  if cur >? 0 then (cur, l)                                       (* 445-447 *)
  else
    let l' := build_sdlist t (c_rtmin c) (c_rtmax c) in
    match env_choice t (c_env c) with
    | Some s => (s, l')
    | None =>
        if sd_valid t (c_shoot c) then (c_shoot c, l')            (* 501-510 *)
        else (list_choice t l', l')
    end.

(** ** monitor_adjust_saflags / monitor_adjust_samask, signal.c 720-738 *)
Definition adjust_saflags (f : N) : N :=
  N.ldiff (N.lor f SAFLAGS_REQUIRED) SAFLAGS_FORBIDDEN.
Definition adjust_samask (sd : Z) (m : sigset) : sigset := sadd sd m.

(** ** monitor_signal_init, signal.c 282-357 *)

(** The marking loops 296-307. *)
Definition mark (f : entry -> entry) (t : table) (l : list Z) : table :=
  fold_left (fun t s => upd t s (f (t s))) (upto_end l) t.

(** 308-313, with the range test. *)
Definition mark_open (t : table) (l : list Z) : table :=
  fold_left (fun t s => if in_range s then upd t s (set_open (t s)) else t)
            (upto_end l) t.

(** 295-313. *)
Definition init_marks (c : config) : table :=
  mark_open
    (mark set_stop
      (mark set_noraise
        (mark set_noterm
          (mark set_avoid (fun _ => entry0) avoid_list)
          noterm_list)
        noraise_list)
      stop_list)
    (c_open c).

(** One iteration of the loop 324-342.  sa_sigaction, the emptied and adjusted
    mask, and the required flags go to the kernel; the old kernel action becomes
    the application's.  On failure *oldact is not written. *)
Definition install_one (o : os) (sd : Z) (tk : table * kern) (sig : Z) : table * kern :=
  let '(t, k) := tk in
  let e := t sig in
  if avoid e then (t, k)
  else
    let a := mkact HMon SAFLAGS_REQUIRED (adjust_samask sd 0) in
    match real_sigaction o k sig (Some a) with
    | (k', Some old) => (upd t sig (set_appl old (set_kern a e)), k')
    | (k', None) => (upd t sig (set_invalid (set_kern a e)), k')
    end.

(** MONITOR_RUN_ONCE(signal_init) at 291 is common.h 161-164. *)
Definition signal_init (c : config) (st : state) : state :=
  if inited st then st
  else
    let t := init_marks c in
    let '(sd, l) := choose_shootdown_early c t (shoot st) (sdlist st) in
    let t1 := upd t sd (set_open (t sd)) in                        (* 316 *)
    let '(t2, k2) := fold_left (install_one (c_os c) sd) all_sigs (t1, kn st) in
    mkstate true t2 sd l k2.

(** monitor_shootdown_signal, 532-542. *)
Definition shootdown_signal (c : config) (st : state) : state * Z :=
  if shoot st >? 0 then (st, shoot st)
  else
    let st1 := signal_init c st in
    let '(sd, l) := choose_shootdown_early c (tab st1) (shoot st1) (sdlist st1) in
    (mkstate (inited st1) (tab st1) sd l (kn st1), sd).

(** ** monitor_remove_client_signals, signal.c 369-431 *)

(** The test at 397 and 417. *)
Definition kept_open (t : table) (sig : Z) : bool :=
  negb (avoid (t sig)) && negb (invalid (t sig)) && keep_open (t sig).

Definition remove_client_signals (t : table) (cur : sigset) (s : sigset) (how : Z)
  : sigset :=
  if (how =? SIG_BLOCK) || (how =? SIG_UNBLOCK) then
    fold_left (fun s g => if kept_open t g then sdel g s else s) all_sigs s
  else
    fold_left (fun s g => if kept_open t g
                          then (if mem g cur then sadd g s else sdel g s)
                          else s) all_sigs s.

(** ** The calls *)

(** What a call returns: C value, errno if set, *oldact / *oldset if written,
    and for signal() the handler. *)
Record ret := mkret { r_val : Z; r_errno : option Z; r_old : option act;
                      r_set : option sigset; r_hand : option handler }.
Definition ret_int v := mkret v None None None None.
Definition ret_fail := mkret (-1) (Some EINVAL) None None None.

(** monitor_appl_sigaction, 809-862.  [want] says oldact != NULL.  act and oldact
    do not alias (POSIX restrict). *)
Definition appl_sigaction (c : config) (st0 : state) (sig : Z) (a : option act)
  (want : bool) : state * ret :=
  let st := signal_init c st0 in
  if negb (in_range sig) || invalid (tab st sig) then (st, ret_fail)
  else
    let e := tab st sig in
    if avoid e then
      match real_sigaction (c_os c) (kn st) sig a with
      | (k', Some old) =>
          (mkstate (inited st) (tab st) (shoot st) (sdlist st) k',
           mkret 0 None (if want then Some old else None) None None)
      | (k', None) =>
          (mkstate (inited st) (tab st) (shoot st) (sdlist st) k', ret_fail)
      end
    else
      let r := mkret 0 None (if want then Some (appl_act e) else None) None None in
      match a with
      | None => (st, r)
      | Some x =>
          let ka := mkact (sa_handler (kern_act e)) (adjust_saflags (sa_flags x))
                      (adjust_samask (shoot st)
                         (remove_client_signals (tab st) (k_mask (kn st))
                                                (sa_mask x) SIG_BLOCK)) in
          let t' := upd (tab st) sig (set_kern ka (set_appl x e)) in
          let '(k', _) := real_sigaction (c_os c) (kn st) sig (Some ka) in
          (mkstate (inited st) t' (shoot st) (sdlist st) k', r)
      end.

(** signal(), 871-886. *)
Definition appl_signal (c : config) (st : state) (sig : Z) (h : handler)
  : state * ret :=
  match appl_sigaction c st sig (Some (mkact h 0 0)) true with
  | (st', mkret 0 _ (Some old) _ _) =>
      (st', mkret 0 None None None (Some (sa_handler old)))
  | (st', _) => (st', mkret 0 (Some EINVAL) None None (Some HErr))
  end.

(** monitor_sigaction, 746-773 (the client's call). *)
Definition client_sigaction (c : config) (st0 : state) (sig : Z) (h : option N)
  (a : option act) : state * ret :=
  let st := signal_init c st0 in
  if negb (in_range sig) || avoid (tab st sig) || invalid (tab st sig)
  then (st, ret_int (-1))
  else
    let e := set_client h (set_open (tab st sig)) in
    match a with
    | None =>
        (mkstate (inited st) (upd (tab st) sig e) (shoot st) (sdlist st) (kn st),
         ret_int 0)
    | Some x =>
        let ka := mkact (sa_handler (kern_act e)) (adjust_saflags (sa_flags x))
                        (adjust_samask (shoot st) (sa_mask x)) in
        let '(k', _) := real_sigaction (c_os c) (kn st) sig (Some ka) in
        (mkstate (inited st) (upd (tab st) sig (set_kern ka e)) (shoot st)
                 (sdlist st) k', ret_int 0)
    end.

(** sigprocmask(), 892-908, and pthread_sigmask(), pthread.c 1208-1225.  They
    differ only in how failure is reported: -1 with errno, or the error number;
    [r_val] is 0 or -1 here and [r_errno] holds the error number. *)
Definition appl_sigprocmask (c : config) (st0 : state) (how : Z)
  (set : option sigset) : state * ret :=
  let st := signal_init c st0 in
  let set' := match set with
              | None => None
              | Some s => Some (remove_client_signals (tab st) (k_mask (kn st)) s how)
              end in
  let '(k', (ok, old)) := real_sigprocmask (c_os c) (kn st) how set' in
  (mkstate (inited st) (tab st) (shoot st) (sdlist st) k',
   if ok then mkret 0 None None (Some old) None else ret_fail).

(** ** Histories of calls *)
Inductive op :=
| OpSigaction (sig : Z) (a : option act) (want : bool)     (* application *)
| OpSignal (sig : Z) (h : handler)                         (* application *)
| OpClient (sig : Z) (h : option N) (a : option act)       (* client *)
| OpMask (how : Z) (set : option sigset).                  (* application *)

Definition do_op (c : config) (st : state) (o : op) : state * ret :=
  match o with
  | OpSigaction sig a want => appl_sigaction c st sig a want
  | OpSignal sig h => appl_signal c st sig h
  | OpClient sig h a => client_sigaction c st sig h a
  | OpMask how set => appl_sigprocmask c st how set
  end.

Fixpoint run (c : config) (st : state) (h : list op) : state * list ret :=
  match h with
  | [] => (st, [])
  | o :: r => let '(st1, x) := do_op c st o in
              let '(st2, xs) := run c st1 r in (st2, x :: xs)
  end.

(** Program start: nothing initialised, the kernel in any state. *)
Definition start (k : kern) : state := mkstate false (fun _ => entry0) (-1) [] k.

(** ** monitor_signal_handler, signal.c 196-276 *)

(** Observable events of one delivery.  Client handlers, application handlers
    and exit callbacks may themselves make any calls; the calls made by the
    client handler and by the exit callbacks are parameters below. *)
Inductive event :=
| EvClient (h : N) (sig : Z)          (* client handler called *)
| EvApp1 (h : handler) (sig : Z)      (* application handler called as h(sig) *)
| EvApp3 (h : handler) (sig : Z)      (* application handler called as h(sig,info,ctx) *)
| EvEndProcess                        (* monitor_end_process_fcn(EXIT_SIGNAL) *)
| EvEndLibrary                        (* monitor_end_library_fcn() *)
| EvSetDefault (sig : Z)              (* kernel action of sig := SIG_DFL *)
| EvClearMask                         (* signal mask emptied *)
| EvRaise (sig : Z).                  (* raise(sig) *)

(** The application's part, 224-275.  [dyn]: MONITOR_DYNAMIC.  [eops]: the calls
    the exit callbacks make. *)
Definition apply_appl (c : config) (dyn : bool) (st : state) (sig : Z)
  (eops : list op) : state * list event :=
  let e := tab st sig in
  match sa_handler (appl_act e) with
  | HIgn => (st, [])                                              (* 228-233 *)
  | HDfl =>
      if noterm e then (st, [])                                   (* 243-244 *)
      else if stop e then (st, [EvRaise SIGSTOP])                 (* 246-249 *)
      else
        let st2 := fst (run c st eops) in                         (* 251 *)
        let '(k3, _) := real_sigaction (c_os c) (kn st2) sig (Some act0) in
        let '(k4, _) := real_sigprocmask (c_os c) k3 SIG_SETMASK (Some 0%N) in
        (mkstate (inited st2) (tab st2) (shoot st2) (sdlist st2) k4,
         [EvEndProcess] ++ (if dyn then [EvEndLibrary] else []) ++
         [EvSetDefault sig; EvClearMask] ++
         (if noraise e then [] else [EvRaise sig]))               (* 260-264 *)
  | h => (st, [if N.testbit (sa_flags (appl_act e)) 2
               then EvApp3 h sig else EvApp1 h sig])              (* 270-274 *)
  end.

(** [cops], [cret]: the calls the client handler makes and its return value. *)
Definition signal_handler (c : config) (dyn : bool) (st : state) (sig : Z)
  (cops : list op) (cret : Z) (eops : list op) : state * list event :=
  if negb (in_range sig) || avoid (tab st sig) || invalid (tab st sig)
  then (st, [])                                                   (* 203-209 *)
  else
    match client_handler (tab st sig) with                        (* 216-222 *)
    | Some h =>
        let st1 := fst (run c st cops) in
        if cret =? 0 then (st1, [EvClient h sig])
        else let '(st2, tr) := apply_appl c dyn st1 sig eops in
             (st2, EvClient h sig :: tr)
    | None => apply_appl c dyn st sig eops
    end.

(** monitor_sigwait_handler, 169-190: (client events, accepted?). *)
Definition sigwait_handler (c : config) (st0 : state) (sig : Z) (cret : Z)
  : list event * bool :=
  let st := signal_init c st0 in
  if (sig <=? 0) || (NSIG <=? sig) then ([], false)
  else match client_handler (tab st sig) with
       | Some h => ([EvClient h sig], cret =? 0)
       | None => ([], false)
       end.

(** monitor_real_abort, 779-796: (final kernel state, events). *)
Definition real_abort (c : config) (st : state) : kern * list event :=
  let '(k1, _) := real_sigaction (c_os c) (kn st) SIGABRT (Some act0) in
  let '(k2, _) := real_sigprocmask (c_os c) k1 SIG_SETMASK (Some 0%N) in
  (k2, [EvSetDefault SIGABRT; EvClearMask; EvRaise SIGABRT]).
