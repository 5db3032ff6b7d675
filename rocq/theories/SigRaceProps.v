(** Property C57: sigaction, signal and monitor_sigaction called by several threads
    at once.  [reached c k0 s]: some interleaving of the threads' steps leads to s;
    [r_tr s] is the history of calls and returns, newest first; see SigRaceSpec.v. *)
From Verif Require Import SignalModel SignalSpec SignalProofs SignalProofs2 SignalProps.
From Verif Require Import SigRaceModel SigRaceSpec SigRaceProofs SigRaceSeq SigRaceKern.

(** ** Every interleaving *)

(** The kernel has monitor's handler and the required flags at every moment. *)
Theorem C57_control : forall c k0 s g,
  0 <= c_rtmin c -> managed c g -> reached c k0 s ->
  let a := k_act (kn (r_st s)) g in
  sa_handler a = HMon /\
  N.testbit (sa_flags a) 2 = true /\ N.testbit (sa_flags a) 28 = true /\
  N.testbit (sa_flags a) 27 = false /\ N.testbit (sa_flags a) 31 = false.
Proof.
  intros c k0 s g Hrt Hg R. apply managedb_spec in Hg. pose proof (control_reach c k0 s Hrt R) as C.
  cbv zeta. split; [now apply (C_kh _ _ C)|].
  destruct (C_kf _ _ C g Hg) as [r ->]. rewrite !adjust_bits. auto.
Qed.
Print Assumptions C57_control.

(** Whenever nobody is inside a call for g, its handler runs with the shootdown
    signal blocked, whatever happened before. *)
Theorem C57_shootdown_blocked : forall c k0 s g,
  0 <= c_rtmin c -> managed c g -> reached c k0 s -> quiet (r_tr s) g ->
  mem (spec_shoot c) (sa_mask (k_act (kn (r_st s)) g)) =
  negb (mem (spec_shoot c) (k_noblock (c_os c))).
Proof.
  intros c k0 s g Hrt Hg R Q. apply managedb_spec in Hg.
  destruct (masked_reach c k0 s Hrt R g Hg) as (_ & _ & [H|[t [H1 H2]]]); [exact H|exfalso].
  destruct (linked_reach c k0 s R t) as [_ L]. specialize (Q t).
  rewrite (proj2 (proj2 (L ltac:(intros E; rewrite E in H2; exact H2)))), H1, Z.eqb_refl in Q. discriminate.
Qed.
Print Assumptions C57_shootdown_blocked.

(** An action reported to the application consists of parts of actions that the
    application asked for, or of the one at program start. *)
Theorem C57_nothing_invented : forall c k0 s t o r x,
  0 <= c_rtmin c -> reached c k0 s -> In (ERet t o r) (r_tr s) -> managed c (op_sig o) ->
  r_old r = Some x ->
  exists a1 a2 a3,
    asked k0 (calls (r_tr s)) (op_sig o) a1 /\ asked k0 (calls (r_tr s)) (op_sig o) a2 /\
    asked k0 (calls (r_tr s)) (op_sig o) a3 /\
    x = mkact (sa_handler a1) (sa_flags a2) (sa_mask a3).
Proof.
  intros c k0 s t o r x Hrt R Hin Hm Hx. apply managedb_spec in Hm.
  destruct (P_told _ _ _ (parts_reach c k0 s Hrt R) _ Hin Hm) as [T _].
  destruct (T x Hx) as ((a1 & A1 & B1) & (a2 & A2 & B2) & (a3 & A3 & B3)).
  exists a1, a2, a3. repeat split; auto. destruct x; cbn in *; congruence.
Qed.
Print Assumptions C57_nothing_invented.

Theorem C57_handler_not_invented : forall c k0 s t o r x,
  0 <= c_rtmin c -> reached c k0 s -> In (ERet t o r) (r_tr s) -> managed c (op_sig o) ->
  r_hand r = Some x ->
  exists a, asked k0 (calls (r_tr s)) (op_sig o) a /\ x = sa_handler a.
Proof.
  intros c k0 s t o r x Hrt R Hin Hm Hx. apply managedb_spec in Hm.
  destruct (P_told _ _ _ (parts_reach c k0 s Hrt R) _ Hin Hm) as [_ T]. exact (T x Hx).
Qed.
Print Assumptions C57_handler_not_invented.

(** ** Calls for a signal that do not overlap.  Calls for other signals may overlap
    with them and with each other in any way.  Missing for the full statement: the
    same when calls for one signal overlap, which is false, see below. *)

(** Every call answers as if all the calls made before it had been made one at a
    time. *)
Theorem C57_answers_partial : forall c k0 s e2 t o r m e0,
  0 <= c_rtmin c -> reached c k0 s -> apart (r_tr s) (op_sig o) ->
  r_tr s = e2 ++ ERet t o r :: m ++ ECall t o :: e0 ->
  (forall e, In e m -> by_thread t e = false) ->
  r = answer_after c k0 (calls e0) o.
Proof.
  intros c k0 s e2 t o r m e0 Hrt R A E W.
  pose proof (Q_ans _ _ _ _ (inseq_reach c k0 (op_sig o) s Hrt R A)) as Q. rewrite E in Q.
  clear -Q W. induction e2 as [|[u x|u x y] e2 IH]; cbn in Q.
  - destruct Q as [Q _]. rewrite before_away in Q by exact W. now apply Q.
  - auto.
  - apply IH. tauto.
Qed.
Print Assumptions C57_answers_partial.

(** The application's action is the last one it asked for. *)
Theorem C57_in_force_partial : forall c k0 s g,
  0 <= c_rtmin c -> managed c g -> reached c k0 s -> apart (r_tr s) g -> quiet (r_tr s) g ->
  appl_act (tab (r_st s) g) = last_app (calls (r_tr s)) g (k_act k0 g).
Proof.
  intros c k0 s g Hrt Hg R A Q. apply managedb_spec in Hg.
  exact (Q_quiet _ _ _ _ (inseq_reach c k0 g s Hrt R A) Hg Q).
Qed.
Print Assumptions C57_in_force_partial.

(** The installed flags and mask are those of the last request, adjusted as C02
    says; a signal that the client registers at some time may or may not be left
    out of a mask that asks for it. *)
Theorem C57_installed_partial : forall c k0 s g,
  0 <= c_rtmin c -> managed c g -> reached c k0 s -> apart (r_tr s) g -> quiet (r_tr s) g ->
  let a := k_act (kn (r_st s)) g in let h := calls (r_tr s) in
  sa_handler a = HMon /\
  (forall i, N.testbit (sa_flags a) i =
             if (i =? 2)%N || (i =? 28)%N then true
             else if (i =? 27)%N || (i =? 31)%N then false
             else N.testbit (req_flags c h g) i) /\
  (forall x, 1 <= x < 65 -> existsb (registers x) h = false ->
     mem x (sa_mask a) =
     ((x =? spec_shoot c) || req_mask c h g x) && negb (mem x (k_noblock (c_os c)))) /\
  (forall x, 1 <= x < 65 -> mem x (sa_mask a) = true ->
     x = spec_shoot c \/ wants_blocked h g x = true).
Proof.
  intros c k0 s g Hrt Hg R A Q a h. subst a h. apply managedb_spec in Hg.
  destruct (N_quiet _ _ _ (kerneled_reach c k0 g s Hrt Hg R A) Q) as (_ & _ & S3 & S4).
  split; [now apply (C_kh _ _ (control_reach c k0 s Hrt R))|].
  split; [intros i; rewrite S3; apply adjust_bits|].
  assert (IR : forall x, 1 <= x < 65 -> in_range x = true) by (intros x Hx; apply in_range_spec; exact Hx).
  split; intros x Hx.
  - intros Hr. exact (proj2 (S4 x (IR x Hx)) Hr).
  - intros Hm. pose proof (proj1 (S4 x (IR x Hx)) Hm) as H. unfold less, plus in H.
    apply andb_prop in H. destruct H as [H _]. apply orb_prop in H. destruct H as [H|H]; [left; lia|now right].
Qed.
Print Assumptions C57_installed_partial.

(** ** Concrete runs *)
Definition call (t : Z) (o : op) : list (Z * choice) := [(t, ChCall o)].
Definition go (t : Z) (n : nat) : list (Z * choice) := repeat (t, ChStep) n.

(** A concrete run, its history and the installed action of signal 15. *)
Definition seen (l : list (Z * choice)) : option (list event * act) :=
  option_map (fun s => (r_tr s, k_act (kn (r_st s)) 15)) (rrun cfg0 (rstart cfg0 kern0) l).
Lemma seen_run l tr a : seen l = Some (tr, a) ->
  exists s, rrun cfg0 (rstart cfg0 kern0) l = Some s /\ r_tr s = tr /\ k_act (kn (r_st s)) 15 = a.
Proof.
  unfold seen. destruct (rrun cfg0 (rstart cfg0 kern0) l) as [s|]; [|discriminate].
  intros [= <- <-]. now exists s.
Qed.
Ltac runs l :=
  let v := eval vm_compute in (seen l) in
  match v with Some (?tr, ?a) =>
    let Et := fresh "Et" in let Ek := fresh "Ek" in
    destruct (seen_run l tr a) as (s & E & Et & Ek); [vm_compute; reflexivity|];
    exists s; split; [exact E|]; rewrite ?Et, ?Ek
  end.

Definition actA : act := mkact (HFun 7) SA_SIGINFO (sadd 14 0).
Definition actB : act := mkact (HFun 8) 0 (sadd 27 0).
Definition set (a : act) : op := OpSigaction 15 (Some a) false.
Definition swap (a : act) : op := OpSigaction 15 (Some a) true.
Definition ask : op := OpSigaction 15 None true.

(** Two threads set the actions of different signals at the same time, then one
    asks: nobody overlaps on signal 15, and the theorems apply. *)
Definition run_apart : list (Z * choice) :=
  call 1 (swap actA) ++ go 1 40 ++ call 2 (OpSigaction 10 (Some actB) true) ++ go 2 30 ++
  go 1 40 ++ call 3 (OpClient 12 (Some 99%N) None) ++ go 3 2 ++ go 2 50 ++ go 3 2 ++ call 1 ask ++ go 1 5.

Example C57_case : exists s,
  rrun cfg0 (rstart cfg0 kern0) run_apart = Some s /\
  managed cfg0 15 /\ apart (r_tr s) 15 /\ quiet (r_tr s) 15 /\
  hd_error (r_tr s) = Some (ERet 1 ask (mkret 0 None (Some actA) None None)) /\
  mem 14 (sa_mask (k_act (kn (r_st s)) 15)) = true /\
  mem 42 (sa_mask (k_act (kn (r_st s)) 15)) = true.
Proof.
  runs run_apart. split; [vm_compute; intuition discriminate|].
  split; [|split].
  - cbn [apart op_sig]. repeat match goal with |- _ /\ _ => split end;
    first [exact I | intros X; discriminate X |
           intros _ u; cbn; repeat match goal with |- context [if ?b then _ else _] => destruct b end; reflexivity].
  - intros u; cbn; repeat match goal with |- context [if ?b then _ else _] => destruct b end; reflexivity.
  - vm_compute. auto.
Qed.

(** ** Calls for the same signal at the same time *)

(** Two threads exchange the action of signal 15: both are told the original one,
    so one thread's action is lost without anybody seeing it. *)
Definition run_lost : list (Z * choice) :=
  call 1 (swap actA) ++ go 1 4 ++ call 2 (swap actB) ++ go 2 4 ++ go 1 76 ++ go 2 76.
Theorem C57_lost_refuted : exists s,
  rrun cfg0 (rstart cfg0 kern0) run_lost = Some s /\
  In (ERet 1 (swap actA) (mkret 0 None (Some act0) None None)) (r_tr s) /\
  In (ERet 2 (swap actB) (mkret 0 None (Some act0) None None)) (r_tr s).
Proof.
  runs run_lost. split; vm_compute; auto 6.
Qed.
Print Assumptions C57_lost_refuted.

(** Afterwards the action in force has one thread's handler and the other thread's
    flags: a one-argument handler is called with SA_SIGINFO, or the reverse. *)
Definition run_torn : list (Z * choice) :=
  call 1 (set actA) ++ go 1 2 ++ call 2 (set actB) ++ go 2 3 ++ go 1 75 ++ go 2 74 ++ call 3 ask ++ go 3 5.
Theorem C57_torn_refuted : exists s,
  rrun cfg0 (rstart cfg0 kern0) run_torn = Some s /\
  hd_error (r_tr s) = Some (ERet 3 ask (mkret 0 None
    (Some (mkact (HFun 8) SA_SIGINFO (sadd 27 0))) None None)).
Proof.
  runs run_torn. reflexivity.
Qed.
Print Assumptions C57_torn_refuted.

(** While calls overlap, thread 1's sigaction has returned but the installed mask
    does not block the shootdown signal and does block a signal that must stay
    open. *)
Definition run_bare : list (Z * choice) :=
  call 1 (set actA) ++ go 1 75 ++ call 2 (set actB) ++ go 2 6 ++ go 1 2.
Theorem C57_bare_mask_refuted : exists s,
  rrun cfg0 (rstart cfg0 kern0) run_bare = Some s /\
  hd_error (r_tr s) = Some (ERet 1 (set actA) (ret_int 0)) /\
  spec_shoot cfg0 = 42 /\ mem 42 (sa_mask (k_act (kn (r_st s)) 15)) = false /\
  reserved cfg0 27 = true /\ mem 27 (sa_mask (k_act (kn (r_st s)) 15)) = true.
Proof.
  runs run_bare. vm_compute. auto 8.
Qed.
Print Assumptions C57_bare_mask_refuted.

(** After both calls have returned a reserved signal stays in the installed mask. *)
Definition run_open : list (Z * choice) :=
  call 1 (set actA) ++ go 1 73 ++ call 2 (set actB) ++ go 2 6 ++ go 1 1 ++ go 2 67 ++ go 1 1 ++
  go 2 4 ++ go 1 2.
Theorem C57_open_blocked_refuted : exists s,
  rrun cfg0 (rstart cfg0 kern0) run_open = Some s /\ quiet (r_tr s) 15 /\
  reserved cfg0 27 = true /\ mem 27 (sa_mask (k_act (kn (r_st s)) 15)) = true.
Proof.
  runs run_open. split; [|vm_compute; auto].
  intros u; cbn; repeat match goal with |- context [if ?b then _ else _] => destruct b end; reflexivity.
Qed.
Print Assumptions C57_open_blocked_refuted.
