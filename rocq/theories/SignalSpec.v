(** What the signal properties say, in terms of the calls made and their
    results.  Nothing here looks at monitor's table; a history is the list of
    calls so far, oldest first. *)
From Verif Require Import SignalModel.

(** Signals that monitor manages: real signal numbers that are not SIGKILL or
    SIGSTOP and that the system accepts. *)
Definition managed (c : config) (s : Z) : Prop :=
  1 <= s < 65 /\ s <> SIGKILL /\ s <> SIGSTOP /\ k_reject (c_os c) s = false.

Definition managedb (c : config) (s : Z) : bool :=
  (1 <=? s) && (s <? 65) && negb (s =? 9) && negb (s =? 19) &&
  negb (k_reject (c_os c) s).

(** The action an application call asks for. *)
Definition app_request (o : op) (s : Z) : option act :=
  match o with
  | OpSigaction g (Some a) _ => if g =? s then Some a else None
  | OpSignal g h => if g =? s then Some (mkact h 0 0) else None
  | _ => None
  end.

(** The application's most recent action for s; [dflt] if it made none. *)
Fixpoint last_app (h : list op) (s : Z) (dflt : act) : act :=
  match h with
  | [] => dflt
  | o :: r => last_app r s (match app_request o s with Some a => a | None => dflt end)
  end.

(** The client's most recent handler for s. *)
Fixpoint last_client (h : list op) (s : Z) (dflt : option N) : option N :=
  match h with
  | [] => dflt
  | OpClient g x _ :: r => last_client r s (if g =? s then x else dflt)
  | _ :: r => last_client r s dflt
  end.

(** ** The shootdown signal *)

(** 1..64, not SIGKILL/SIGSTOP, not a job-control stop signal. *)
Definition sd_ok (s : Z) : bool :=
  (1 <=? s) && (s <? 65) && negb (existsb (Z.eqb s) [9; 19; 20; 21; 22]).

(** A decimal number at the start of a text: white space, an optional sign, at least one
    digit, then anything that does not go on with a digit. *)
Definition white (c : ascii) : Prop := In (nat_of_ascii c) [32; 9; 10; 11; 12; 13]%nat.
Definition digit_char (d : Z) (c : ascii) : Prop := 0 <= d <= 9 /\ Z.of_nat (nat_of_ascii c) = 48 + d.
Fixpoint dec_value (ds : list Z) : Z :=
  match ds with [] => 0 | d :: r => d * 10 ^ Z.of_nat (length r) + dec_value r end.
Definition no_digit_first (l : list ascii) : Prop :=
  match l with [] => True | c :: _ => forall d, ~ digit_char d c end.
Inductive reads_number : list ascii -> Z -> Prop :=
| RN : forall ws sg (neg : bool) ds cs rest,
    Forall white ws ->
    (sg = [] /\ neg = false \/ sg = ["+"%char] /\ neg = false \/ sg = ["-"%char] /\ neg = true) ->
    cs <> [] -> Forall2 digit_char ds cs -> no_digit_first rest ->
    reads_number (ws ++ sg ++ cs ++ rest) (if neg then - dec_value ds else dec_value ds).

(** The configured client list: entries before the first non-positive number. *)
Fixpoint positive_prefix (l : list Z) : list Z :=
  match l with x :: r => if 0 <? x then x :: positive_prefix r else [] | [] => [] end.

Definition reserved (c : config) (s : Z) : bool :=
  existsb (Z.eqb s) (positive_prefix (c_open c)).

(** lo, lo+1, ..., n numbers. *)
Fixpoint ascending (lo : Z) (n : nat) : list Z :=
  match n with O => [] | S m => lo :: ascending (lo + 1) m end.

Definition candidates (c : config) : list Z :=
  ascending (c_rtmin c + 8) (Z.to_nat (c_rtmax c - c_rtmin c - 15)) ++
  [SIGUSR2; SIGUSR1; SIGPWR; SIGURG; SIGPIPE].

(** environment, else configure, else first free candidate, else SIGWINCH. *)
Definition spec_shoot (c : config) : Z :=
  let from_env := match c_env c with None => None | Some e => sscanf_d e end in
  match from_env with
  | Some s => if sd_ok s then s else
      if sd_ok (c_shoot c) then c_shoot c else
      match find (fun s => sd_ok s && negb (reserved c s)) (candidates c) with
      | Some s => s | None => SIGWINCH end
  | None =>
      if sd_ok (c_shoot c) then c_shoot c else
      match find (fun s => sd_ok s && negb (reserved c s)) (candidates c) with
      | Some s => s | None => SIGWINCH end
  end.

(** ** Kept-open signals: managed, and reserved at configure time, or the
    shootdown signal, or registered by the client in the history. *)
Definition registers (s : Z) (o : op) : bool :=
  match o with OpClient g _ _ => g =? s | _ => false end.

Definition open_after (c : config) (h : list op) (s : Z) : bool :=
  managedb c s &&
  (reserved c s || (s =? spec_shoot c) || existsb (registers s) h).

(** ** Results the application must see *)
Definition spec_sigaction (c : config) (k0 : kern) (h : list op)
  (sig : Z) (a : option act) (want : bool) : ret :=
  let ok old := mkret 0 None (if want then Some old else None) None None in
  let einval := mkret (-1) (Some EINVAL) None None None in
  if negb ((1 <=? sig) && (sig <? 65)) then einval
  else if (sig =? SIGKILL) || (sig =? SIGSTOP) then
    (* handed to the system: only a query is allowed *)
    if k_reject (c_os c) sig then einval
    else match a with Some _ => einval | None => ok (k_act k0 sig) end
  else if k_reject (c_os c) sig then einval
  else ok (last_app h sig (k_act k0 sig)).

Definition spec_signal (c : config) (k0 : kern) (h : list op) (sig : Z) : ret :=
  if managedb c sig
  then mkret 0 None None None (Some (sa_handler (last_app h sig (k_act k0 sig))))
  else mkret 0 (Some EINVAL) None None (Some HErr).

(** ** Most recent request for s by anyone, with the calls made before it.
    [rh] is the history, most recent call first. *)
Definition request (o : op) (s : Z) : option (bool * act) :=
  match o with
  | OpSigaction g (Some a) _ => if g =? s then Some (false, a) else None
  | OpSignal g h => if g =? s then Some (false, mkact h 0 0) else None
  | OpClient g _ (Some a) => if g =? s then Some (true, a) else None
  | _ => None
  end.

Fixpoint last_request (rh : list op) (s : Z) : option (bool * act * list op) :=
  match rh with
  | [] => None
  | o :: before => match request o s with
                   | Some (client, a) => Some (client, a, before)
                   | None => last_request before s
                   end
  end.

(** The requested flags, and which signals the request's mask may block. *)
Definition req_flags (c : config) (h : list op) (s : Z) : N :=
  match last_request (rev h) s with None => 0%N | Some (_, a, _) => sa_flags a end.

Definition req_mask (c : config) (h : list op) (s g : Z) : bool :=
  match last_request (rev h) s with
  | None => false
  | Some (true, a, _) => mem g (sa_mask a)
  | Some (false, a, before) => mem g (sa_mask a) && negb (open_after c (rev before) g)
  end.

(** ** Dispatch of a delivered signal *)
Inductive disposition := DIgnore | DHandler (h : handler) (siginfo : bool)
                       | DNothing | DStop | DTerminate.

(** What POSIX and the application's action say should happen. *)
Definition disposition_of (a : act) (s : Z) : disposition :=
  match sa_handler a with
  | HIgn => DIgnore
  | HDfl => if existsb (Z.eqb s) [SIGCHLD; SIGCONT; SIGURG; SIGWINCH] then DNothing
            else if existsb (Z.eqb s) [SIGTSTP; SIGTTIN; SIGTTOU] then DStop
            else DTerminate
  | h => DHandler h (N.testbit (sa_flags a) 2)
  end.

(** The events of the application's part of a delivery. *)
Definition app_events (dyn : bool) (s : Z) (d : disposition) : list event :=
  match d with
  | DIgnore | DNothing => []
  | DHandler h true => [EvApp3 h s]
  | DHandler h false => [EvApp1 h s]
  | DStop => [EvRaise SIGSTOP]
  | DTerminate =>
      [EvEndProcess] ++ (if dyn then [EvEndLibrary] else []) ++
      [EvSetDefault s; EvClearMask] ++
      (if existsb (Z.eqb s) [SIGSEGV; SIGBUS; SIGILL] then [] else [EvRaise s])
  end.

(** Calls made by the application (not the client). *)
Definition is_app (o : op) : bool :=
  match o with OpSigaction _ _ _ | OpSignal _ _ => true | _ => false end.
