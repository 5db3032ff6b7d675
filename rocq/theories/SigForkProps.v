(** Property C89: sigaction and the actions of signals in the child of a fork.
    [in_child c k0 s0 s]: the parent forked in a state s0 that its threads reached in
    some way, and some interleaving of the child's threads leads from there to s.
    [r_tr s0] is the parent's history up to the fork, [r_tr s] that of the child. *)
From Verif Require Import SignalModel SignalSpec SignalProofs SignalProofs2 SignalProps.
From Verif Require Import SigRaceModel SigRaceSpec SigRaceProofs SigRaceSeq SigRaceKern SigRaceProps.
From Verif Require Import SigForkModel SigForkSpec SigForkProofs SigForkKern.

(** ** Whatever the parent's threads were doing at the fork *)

(** Monitor's handler and the required flags are in force in the child. *)
Theorem C89_control : forall c k0 s0 s g,
  0 <= c_rtmin c -> managed c g -> in_child c k0 s0 s ->
  let a := k_act (kn (r_st s)) g in
  sa_handler a = HMon /\
  N.testbit (sa_flags a) 2 = true /\ N.testbit (sa_flags a) 28 = true /\
  N.testbit (sa_flags a) 27 = false /\ N.testbit (sa_flags a) 31 = false.
Proof.
  intros c k0 s0 s g Hrt Hg C. destruct (child_like c k0 s0 s C) as (s' & R & L & _).
  rewrite <- L. now apply (C57_control c k0 s' g).
Qed.
Print Assumptions C89_control.

(** An action reported in the child consists of parts of actions that the
    application asked for, before or after the fork, or of the one at program start. *)
Theorem C89_nothing_invented : forall c k0 s0 s t o r x,
  0 <= c_rtmin c -> in_child c k0 s0 s -> In (ERet t o r) (r_tr s) -> managed c (op_sig o) ->
  r_old r = Some x ->
  let h := calls (r_tr s0) ++ calls (r_tr s) in
  exists a1 a2 a3,
    asked k0 h (op_sig o) a1 /\ asked k0 h (op_sig o) a2 /\ asked k0 h (op_sig o) a3 /\
    x = mkact (sa_handler a1) (sa_flags a2) (sa_mask a3).
Proof.
  intros c k0 s0 s t o r x Hrt C Hin Hm Hx h. subst h.
  destruct (child_like c k0 s0 s C) as (s' & R & _ & Tr & _).
  rewrite <- calls_app, <- Tr. apply (C57_nothing_invented c k0 s' t o r x); auto.
  rewrite Tr. apply in_or_app. now left.
Qed.
Print Assumptions C89_nothing_invented.

(** If the child's calls for g do not overlap, its action is the last one asked for
    in the child, and before the first one what the child was born with.  So one
    call in the child puts right whatever the fork has torn. *)
Theorem C89_since_fork : forall c k0 s0 s g,
  0 <= c_rtmin c -> managed c g -> in_child c k0 s0 s ->
  apart (r_tr s) g -> quiet (r_tr s) g ->
  tells s g = last_app (calls (r_tr s)) g (tells s0 g).
Proof.
  intros c k0 s0 s g Hrt Hg C A Q. apply managedb_spec in Hg.
  exact (S_quiet _ _ _ _ (since_child c k0 s0 g s Hrt Hg C A) Q).
Qed.
Print Assumptions C89_since_fork.

(** And so are the answers: each call reports the last action asked for in the child
    before it, or what the child was born with. *)
Theorem C89_answers_since_fork : forall c k0 s0 s e2 t o r m e0,
  0 <= c_rtmin c -> managed c (op_sig o) -> in_child c k0 s0 s -> apart (r_tr s) (op_sig o) ->
  r_tr s = e2 ++ ERet t o r :: m ++ ECall t o :: e0 ->
  (forall e, In e m -> by_thread t e = false) ->
  let old := last_app (calls e0) (op_sig o) (tells s0 (op_sig o)) in
  (forall x, r_old r = Some x -> x = old) /\
  (forall x, r_hand r = Some x -> x = sa_handler old).
Proof.
  intros c k0 s0 s e2 t o r m e0 Hrt Hg C A E W old. subst old. apply managedb_spec in Hg.
  pose proof (S_told _ _ _ _ (since_child c k0 s0 _ s Hrt Hg C A)) as Q. rewrite E in Q.
  clear -Q W. induction e2 as [|[u x|u x y] e2 IH]; cbn in Q.
  - destruct Q as [Q _]. rewrite before_away in Q by exact W. now apply Q.
  - auto.
  - apply IH. tauto.
Qed.
Print Assumptions C89_answers_since_fork.

(** After a request for g in the child the kernel has the flags of the child's last
    one, blocks the shootdown signal while its handler runs, and otherwise blocks only
    signals that this request asks for. *)
Theorem C89_installed_since_fork : forall c k0 s0 s g,
  0 <= c_rtmin c -> managed c g -> in_child c k0 s0 s ->
  apart (r_tr s) g -> quiet (r_tr s) g ->
  (exists o, In o (calls (r_tr s)) /\ request o g <> None) ->
  let a := k_act (kn (r_st s)) g in let h := calls (r_tr s) in
  sa_handler a = HMon /\
  (forall i, N.testbit (sa_flags a) i =
             if (i =? 2)%N || (i =? 28)%N then true
             else if (i =? 27)%N || (i =? 31)%N then false
             else N.testbit (req_flags c h g) i) /\
  mem (spec_shoot c) (sa_mask a) = negb (mem (spec_shoot c) (k_noblock (c_os c))) /\
  (forall x, 1 <= x < 65 -> mem x (sa_mask a) = true -> x = spec_shoot c \/ wants_blocked h g x = true).
Proof.
  intros c k0 s0 s g Hrt Hg C A Q (o & Ho & Hr) a h. subst a h.
  split; [now apply (C89_control c k0 s0 s g)|]. apply managedb_spec in Hg.
  destruct (K_quiet _ _ _ (kchild_child c k0 s0 g s Hrt Hg C A) Q) as (G1 & G2 & G3).
  { apply existsb_exists. exists o. split; [exact Ho|]. unfold sets. destruct (request o g); [reflexivity|now destruct Hr]. }
  split; [intros i; rewrite G1; apply adjust_bits|]. split; [exact G2|].
  intros x Hx. apply G3. apply in_range_spec. exact Hx.
Qed.
Print Assumptions C89_installed_since_fork.

(** ** If no thread of the parent was inside a call for g at the fork.  Missing for the
    full statement: the same when one was, which is false, see below. *)

(** The child answers as a process in which the parent's calls and then its own were
    made one at a time. *)
Theorem C89_answers_partial : forall c k0 s0 s e2 t o r m e0,
  0 <= c_rtmin c -> in_child c k0 s0 s ->
  apart (r_tr s0) (op_sig o) -> quiet (r_tr s0) (op_sig o) -> apart (r_tr s) (op_sig o) ->
  r_tr s = e2 ++ ERet t o r :: m ++ ECall t o :: e0 ->
  (forall e, In e m -> by_thread t e = false) ->
  r = answer_after c k0 (calls (r_tr s0) ++ calls e0) o.
Proof.
  intros c k0 s0 s e2 t o r m e0 Hrt C A0 Q0 A E W.
  destruct (child_like c k0 s0 s C) as (s' & R & _ & Tr & _).
  rewrite <- calls_app.
  apply (C57_answers_partial c k0 s' e2 t o r m (e0 ++ r_tr s0)); auto.
  - rewrite Tr. now apply apart_both.
  - rewrite Tr, E. rewrite <- app_assoc. cbn. rewrite <- app_assoc. reflexivity.
Qed.
Print Assumptions C89_answers_partial.

(** The action in force is the last one that parent or child asked for, and the
    kernel's is that one adjusted as C02 says. *)
Theorem C89_in_force_partial : forall c k0 s0 s g,
  0 <= c_rtmin c -> managed c g -> in_child c k0 s0 s ->
  apart (r_tr s0) g -> quiet (r_tr s0) g -> apart (r_tr s) g -> quiet (r_tr s) g ->
  let a := k_act (kn (r_st s)) g in let h := calls (r_tr s0) ++ calls (r_tr s) in
  tells s g = last_app h g (k_act k0 g) /\
  (forall i, N.testbit (sa_flags a) i =
             if (i =? 2)%N || (i =? 28)%N then true
             else if (i =? 27)%N || (i =? 31)%N then false
             else N.testbit (req_flags c h g) i) /\
  (forall x, 1 <= x < 65 -> existsb (registers x) h = false ->
     mem x (sa_mask a) =
     ((x =? spec_shoot c) || req_mask c h g x) && negb (mem x (k_noblock (c_os c)))) /\
  mem (spec_shoot c) (sa_mask a) = negb (mem (spec_shoot c) (k_noblock (c_os c))).
Proof.
  intros c k0 s0 s g Hrt Hg C A0 Q0 A Q a h. subst a h.
  destruct (child_like c k0 s0 s C) as (s' & R & L & Tr & _).
  pose proof (apart_both _ _ g A A0 Q0) as A'. pose proof (quiet_both _ _ g Q Q0) as Q'.
  rewrite <- Tr in A', Q'. rewrite <- calls_app, <- Tr. unfold tells. rewrite <- L.
  split; [now apply (C57_in_force_partial c k0 s' g)|].
  destruct (C57_installed_partial c k0 s' g Hrt Hg R A' Q') as (_ & I2 & I3 & _).
  split; [exact I2|]. split; [exact I3|]. now apply (C57_shootdown_blocked c k0 s' g).
Qed.
Print Assumptions C89_in_force_partial.

(** ** Concrete runs *)
Definition forked (l0 l : list (Z * choice)) : option (list event * act * list event * act * act) :=
  match rrun cfg0 (rstart cfg0 kern0) l0 with
  | Some s0 =>
      option_map (fun s => (r_tr s0, tells s0 15, r_tr s, tells s 15, k_act (kn (r_st s)) 15))
                 (rrun cfg0 (child s0) l)
  | None => None
  end.
Lemma forked_run l0 l t0 a0 t1 a1 k : forked l0 l = Some (t0, a0, t1, a1, k) ->
  (forall t ch, In (t, ch) l -> forall g, inside t0 t g = false) ->
  exists s0 s, in_child cfg0 kern0 s0 s /\
    r_tr s0 = t0 /\ tells s0 15 = a0 /\ r_tr s = t1 /\ tells s 15 = a1 /\ k_act (kn (r_st s)) 15 = k.
Proof.
  unfold forked. destruct (rrun cfg0 (rstart cfg0 kern0) l0) as [s0|] eqn:E0; [|discriminate].
  destruct (rrun cfg0 (child s0) l) as [s|] eqn:E1; [|discriminate].
  cbn. intros [= <- <- <- <- <-] H. exists s0, s. repeat split; auto.
  - now exists l0.
  - exists l. auto.
Qed.
Ltac forks l0 l :=
  let v := eval vm_compute in (forked l0 l) in
  match v with Some (?t0, ?a0, ?t1, ?a1, ?k) =>
    let E0 := fresh "E0" in let E1 := fresh "E1" in
    let E2 := fresh "E2" in let E3 := fresh "E3" in let E4 := fresh "E4" in
    destruct (forked_run l0 l t0 a0 t1 a1 k) as (s0 & s & C & E0 & E1 & E2 & E3 & E4);
    [vm_compute; reflexivity
    |let t := fresh "t" in let ch := fresh "ch" in let H := fresh "H" in
     intros t ch H; assert (t = 1) as -> by
       (cbv in H; repeat (destruct H as [H|H]; [injection H as <- _; reflexivity|]); destruct H);
     intros ?; reflexivity
    |exists s0, s; split; [exact C|]; rewrite ?E0, ?E1, ?E2, ?E3, ?E4]
  end.
Ltac calm := intros u; cbn; repeat match goal with |- context [if ?b then _ else _] => destruct b end; reflexivity.

(** The parent sets signal 15, forks while another thread is setting signal 10, and the
    child asks about and sets signal 15: the theorems apply. *)
Definition before_quiet : list (Z * choice) :=
  call 1 (set actA) ++ go 1 77 ++ call 2 (OpSigaction 10 (Some actB) true) ++ go 2 30.
Definition child_swaps : list (Z * choice) := call 1 (swap actB) ++ go 1 80.
Example C89_case : exists s0 s, in_child cfg0 kern0 s0 s /\
  managed cfg0 15 /\ apart (r_tr s0) 15 /\ quiet (r_tr s0) 15 /\ inside (r_tr s0) 2 10 = true /\
  apart (r_tr s) 15 /\ quiet (r_tr s) 15 /\
  hd_error (r_tr s) = Some (ERet 1 (swap actB) (mkret 0 None (Some actA) None None)) /\
  tells s 15 = actB.
Proof.
  forks before_quiet child_swaps. split; [vm_compute; intuition discriminate|].
  split; [|split; [calm|split; [reflexivity|split; [|split; [calm|split; reflexivity]]]]];
  cbn [apart op_sig]; repeat match goal with |- _ /\ _ => split end;
  first [exact I | intros X; discriminate X | intros _; calm].
Qed.

(** ** A thread of the parent was inside a call for the signal *)

(** At the fork another thread was replacing the action of signal 15: in the child the
    action in force has the new handler with the old flags and mask, for as long as the
    child does not set it.  Nobody asked for that action. *)
Definition before_torn : list (Z * choice) :=
  call 1 (set actA) ++ go 1 77 ++ call 2 (set actB) ++ go 2 2.
Theorem C89_torn_refuted : exists s0 s, in_child cfg0 kern0 s0 s /\
  apart (r_tr s0) 15 /\
  hd_error (r_tr s) = Some (ERet 1 ask (mkret 0 None
    (Some (mkact (HFun 8) SA_SIGINFO (sadd 14 0))) None None)).
Proof.
  forks before_torn (call 1 ask ++ go 1 5). split; [|reflexivity].
  cbn [apart op_sig]; repeat match goal with |- _ /\ _ => split end;
  first [exact I | intros X; discriminate X | intros _; calm].
Qed.
Print Assumptions C89_torn_refuted.

(** A little later: the child is told that the new action is in force, but the kernel
    still blocks the signals of the old one and not those of the new one. *)
Definition before_half : list (Z * choice) :=
  call 1 (set actB) ++ go 1 77 ++ call 2 (set actA) ++ go 2 4.
Theorem C89_half_refuted : exists s0 s, in_child cfg0 kern0 s0 s /\
  apart (r_tr s0) 15 /\ apart (r_tr s) 15 /\ quiet (r_tr s) 15 /\
  hd_error (r_tr s) = Some (ERet 1 ask (mkret 0 None (Some actA) None None)) /\
  mem 14 (sa_mask actA) = true /\ mem 14 (sa_mask (k_act (kn (r_st s)) 15)) = false.
Proof.
  forks before_half (call 1 ask ++ go 1 5).
  split; [|split; [|split; [calm|vm_compute; auto]]];
  cbn [apart op_sig]; repeat match goal with |- _ /\ _ => split end;
  first [exact I | intros X; discriminate X | intros _; calm].
Qed.
Print Assumptions C89_half_refuted.

(** One call in the child puts the torn action right: the theorems on what happens
    since the fork apply. *)
Example C89_repair_case : exists s0 s, in_child cfg0 kern0 s0 s /\
  apart (r_tr s) 15 /\ quiet (r_tr s) 15 /\ inside (r_tr s0) 2 15 = true /\
  In (set actB) (calls (r_tr s)) /\ request (set actB) 15 <> None /\
  tells s0 15 = mkact (HFun 8) SA_SIGINFO (sadd 14 0) /\
  tells s 15 = mkact (HFun 8) 0 (sadd 27 0) /\
  mem 14 (sa_mask (k_act (kn (r_st s)) 15)) = false /\ mem 42 (sa_mask (k_act (kn (r_st s)) 15)) = true.
Proof.
  forks before_torn (call 1 (set actB) ++ go 1 77).
  split; [cbn [apart op_sig]; split; [intros _; calm|exact I]|]. split; [calm|]. split; [reflexivity|].
  split; [now left|]. split; [discriminate|]. repeat split; reflexivity.
Qed.

(** ** A fork from a handler that interrupted the thread's own call *)

(** Monitor stays in control in the child while the interrupted call goes on. *)
Theorem C89_handler_control : forall c k0 f s0 s g,
  0 <= c_rtmin c -> managed c g -> in_child_of c k0 f s0 s ->
  let a := k_act (kn (r_st s)) g in
  sa_handler a = HMon /\
  N.testbit (sa_flags a) 2 = true /\ N.testbit (sa_flags a) 28 = true /\
  N.testbit (sa_flags a) 27 = false /\ N.testbit (sa_flags a) 31 = false.
Proof.
  intros c k0 f s0 s g Hrt Hg C. destruct (child_of_like c k0 f s0 s C) as (s' & R & L & _).
  rewrite <- L. now apply (C57_control c k0 s' g).
Qed.
Print Assumptions C89_handler_control.

(** If no other thread of the parent was inside a call for the signal at the fork, the
    interrupted call and the child's own answer as in one process.  Missing for the
    full statement: as above. *)
Theorem C89_handler_answers_partial : forall c k0 f s0 s e2 t o r m e0,
  0 <= c_rtmin c -> in_child_of c k0 f s0 s -> apart (r_tr s ++ r_tr s0) (op_sig o) ->
  r_tr s ++ r_tr s0 = e2 ++ ERet t o r :: m ++ ECall t o :: e0 ->
  (forall e, In e m -> by_thread t e = false) ->
  r = answer_after c k0 (calls e0) o.
Proof.
  intros c k0 f s0 s e2 t o r m e0 Hrt C A E W.
  destruct (child_of_like c k0 f s0 s C) as (s' & R & _ & Tr). rewrite <- Tr in A, E.
  exact (C57_answers_partial c k0 s' e2 t o r m e0 Hrt R A E W).
Qed.
Print Assumptions C89_handler_answers_partial.

Theorem C89_handler_in_force_partial : forall c k0 f s0 s g,
  0 <= c_rtmin c -> managed c g -> in_child_of c k0 f s0 s ->
  apart (r_tr s ++ r_tr s0) g -> quiet (r_tr s ++ r_tr s0) g ->
  let a := k_act (kn (r_st s)) g in let h := calls (r_tr s0) ++ calls (r_tr s) in
  tells s g = last_app h g (k_act k0 g) /\
  (forall i, N.testbit (sa_flags a) i =
             if (i =? 2)%N || (i =? 28)%N then true
             else if (i =? 27)%N || (i =? 31)%N then false
             else N.testbit (req_flags c h g) i) /\
  mem (spec_shoot c) (sa_mask a) = negb (mem (spec_shoot c) (k_noblock (c_os c))).
Proof.
  intros c k0 f s0 s g Hrt Hg C A Q a h. subst a h.
  destruct (child_of_like c k0 f s0 s C) as (s' & R & L & Tr).
  rewrite <- Tr in A, Q. rewrite <- calls_app, <- Tr. unfold tells. rewrite <- L.
  split; [now apply (C57_in_force_partial c k0 s' g)|].
  destruct (C57_installed_partial c k0 s' g Hrt Hg R A Q) as (_ & I2 & _).
  split; [exact I2|]. now apply (C57_shootdown_blocked c k0 s' g).
Qed.
Print Assumptions C89_handler_in_force_partial.

(** Thread 1 replaces the action of signal 15, is interrupted half-way and forks in the
    handler; in the child the call goes on and takes effect. *)
Definition forked_of (f : Z) (l0 l : list (Z * choice)) : option (list event * list event * act) :=
  match rrun cfg0 (rstart cfg0 kern0) l0 with
  | Some s0 => option_map (fun s => (r_tr s0, r_tr s, tells s 15)) (rrun cfg0 (child_of f s0) l)
  | None => None
  end.
Lemma forked_of_run f l0 l t0 t1 a : forked_of f l0 l = Some (t0, t1, a) ->
  (forall t ch, In (t, ch) l -> t = f \/ forall g, inside t0 t g = false) ->
  exists s0 s, in_child_of cfg0 kern0 f s0 s /\ r_tr s0 = t0 /\ r_tr s = t1 /\ tells s 15 = a.
Proof.
  unfold forked_of. destruct (rrun cfg0 (rstart cfg0 kern0) l0) as [s0|] eqn:E0; [|discriminate].
  destruct (rrun cfg0 (child_of f s0) l) as [s|] eqn:E1; [|discriminate].
  cbn. intros [= <- <- <-] H. exists s0, s. repeat split; auto.
  - now exists l0.
  - exists l. auto.
Qed.
Definition before_half_own : list (Z * choice) :=
  call 1 (set actA) ++ go 1 77 ++ call 1 (swap actB) ++ go 1 6.
Example C89_handler_case : exists s0 s, in_child_of cfg0 kern0 1 s0 s /\
  inside (r_tr s0) 1 15 = true /\ apart (r_tr s ++ r_tr s0) 15 /\ quiet (r_tr s ++ r_tr s0) 15 /\
  r_tr s = [ERet 1 (swap actB) (mkret 0 None (Some actA) None None)] /\ tells s 15 = actB.
Proof.
  destruct (forked_of_run 1 before_half_own (go 1 74)
    [ECall 1 (swap actB); ERet 1 (set actA) (ret_int 0); ECall 1 (set actA)]
    [ERet 1 (swap actB) (mkret 0 None (Some actA) None None)] actB) as (s0 & s & C & T0 & T1 & T2).
  - vm_compute. reflexivity.
  - intros t ch H. left. apply repeat_spec in H. congruence.
  - exists s0, s. split; [exact C|]. rewrite T0, T1, T2. split; [reflexivity|]. split; [|split; [calm|auto]].
    cbn [app apart op_sig]. repeat match goal with |- _ /\ _ => split end;
    first [exact I | intros X; discriminate X | intros _; calm].
Qed.
