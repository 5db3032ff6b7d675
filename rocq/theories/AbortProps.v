(** Theorems on monitor_real_abort: C70. *)
From Verif Require Import SignalModel SignalSpec SignalProofs SignalProps SigOsModel AbortModel.

Local Open Scope Z_scope.

Lemma real_act_other o k g a s : g <> s -> k_act (fst (real_sigaction o k g a)) s = k_act k s.
Proof.
  intros N. unfold real_sigaction. destruct (negb (in_range g) || k_reject o g); [reflexivity|].
  destruct a as [x|]; [|reflexivity]. destruct ((g =? SIGKILL) || (g =? SIGSTOP)); [reflexivity|].
  cbn. unfold upd. destruct (Z.eqb_spec s g); [congruence|reflexivity].
Qed.
Lemma real_act_none o k g : fst (real_sigaction o k g None) = k.
Proof. unfold real_sigaction. now destruct (negb (in_range g) || k_reject o g). Qed.

Lemma op_keeps c st o s : inited st = true -> request o s = None ->
  inited (fst (do_op c st o)) = true /\ k_act (kn (fst (do_op c st o))) s = k_act (kn st) s.
Proof.
  intros I R.
  assert (AS : forall g a w, (a = None \/ g <> s) ->
    inited (fst (appl_sigaction c st g a w)) = true /\ k_act (kn (fst (appl_sigaction c st g a w))) s = k_act (kn st) s).
  { intros g a w D. unfold appl_sigaction. rewrite (init_idem _ _ I). cbv zeta.
    destruct (negb (in_range g) || invalid (tab st g)); [auto|]. destruct (avoid (tab st g)).
    - pose proof (real_act_other (c_os c) (kn st) g a s) as X. pose proof (real_act_none (c_os c) (kn st) g) as Y.
      destruct (real_sigaction (c_os c) (kn st) g a) as [k' [old|]] eqn:E; cbn; (split; [exact I|]);
        (destruct D as [->|D]; [rewrite E in Y; cbn in Y; now rewrite Y|now apply X]).
    - destruct a as [x|]; [|auto]. destruct D as [D|D]; [discriminate D|].
      match goal with |- context [real_sigaction ?o ?k ?g ?a] => pose proof (real_act_other o k g a s D) as X; destruct (real_sigaction o k g a) as [k' y] end.
      cbn in *. auto. }
  destruct o as [g a w|g h|g h a|how set]; cbn [do_op].
  - apply AS. cbn in R. destruct a as [x|]; [|now left]. destruct (Z.eqb_spec g s); [discriminate R|now right].
  - unfold appl_signal. cbn in R. destruct (Z.eqb_spec g s) as [|NE]; [discriminate R|].
    destruct (AS g (Some (mkact h 0 0)) true (or_intror NE)) as [A B].
    destruct (appl_sigaction c st g (Some (mkact h 0 0)) true) as [st' [v e old m hd]]. cbn in A, B.
    destruct v; [destruct old|..]; auto.
  - unfold client_sigaction. rewrite (init_idem _ _ I). cbv zeta.
    destruct (negb (in_range g) || avoid (tab st g) || invalid (tab st g)); [auto|]. destruct a as [x|]; [|auto].
    cbn in R. destruct (Z.eqb_spec g s) as [|D]; [discriminate R|].
    match goal with |- context [real_sigaction ?o ?k ?g ?a] => pose proof (real_act_other o k g a s D) as X; destruct (real_sigaction o k g a) as [k' y] end.
    cbn in *. auto.
  - unfold appl_sigprocmask. rewrite (init_idem _ _ I). cbv zeta.
    destruct (real_sigprocmask (c_os c) (kn st) how _) as [k' [ok old]] eqn:E. cbn. split; [exact I|].
    unfold real_sigprocmask in E. destruct (match set with Some _ => _ | None => _ end) in E; [|now inversion E].
    destruct (how =? SIG_BLOCK); [now inversion E|]. destruct (how =? SIG_UNBLOCK); [now inversion E|].
    destruct (how =? SIG_SETMASK); now inversion E.
Qed.

Lemma run_keeps c s h : forall st, (inited st = true \/ h = []) -> (forall o, In o h -> request o s = None) ->
  inited (fst (run c st h)) = inited st /\ k_act (kn (fst (run c st h))) s = k_act (kn st) s.
Proof.
  induction h as [|o h IH]; intros st I R; [auto|]. destruct I as [I|I]; [|discriminate I].
  cbn. destruct (op_keeps c st o s I) as [A B]; [apply R; now left|].
  destruct (do_op c st o) as [st1 x]. cbn in A, B. destruct (IH st1) as [C D]; [now left|intros; apply R; now right|].
  destruct (run c st1 h) as [st2 xs]. cbn in *. split; congruence.
Qed.

(** Called in any state whatever of the application and the library, monitor_real_abort
    ends the process by SIGABRT; no handler of the application or the client and no
    exit callback runs.  Other threads may make any calls meanwhile that do not ask for
    an action of SIGABRT, provided the library's signal code is initialised (it is
    before the first callback); and without calls of other threads nothing is
    assumed. *)
Theorem C70_abort : forall c dyn cret st h1 h2,
  k_reject (c_os c) SIGABRT = false ->
  inited st = true \/ (h1 = [] /\ h2 = []) ->
  (forall o, In o (h1 ++ h2) -> request o SIGABRT = None) ->
  abort_end c dyn cret st h1 h2 = ([Died SIGABRT], false, []).
Proof.
  intros c dyn cret st h1 h2 RJ IN RQ.
  set (st1 := set_kn st (fst (real_sigaction (c_os c) (kn st) SIGABRT (Some act0)))).
  assert (A1 : k_act (kn st1) SIGABRT = mkact HDfl 0 0).
  { subst st1. unfold real_sigaction. rewrite RJ. reflexivity. }
  destruct (run_keeps c SIGABRT h1 st1) as [I2 A2].
  { destruct IN as [IN|[IN _]]; [now left|now right]. } { intros o J. apply RQ, in_or_app. now left. }
  set (st2 := others c st1 h1).
  set (st3 := set_kn st2 (fst (real_sigprocmask (c_os c) (kn st2) SIG_SETMASK (Some 0%N)))).
  destruct (run_keeps c SIGABRT h2 st3) as [I3 A3].
  { destruct IN as [IN|[_ IN]]; [left|now right]. subst st3 st2. unfold others, set_kn. cbn. rewrite I2. exact IN. }
  { intros o J. apply RQ, in_or_app. now right. }
  assert (AB : abort_state c st h1 h2 = others c st3 h2) by reflexivity.
  unfold abort_end. rewrite AB. unfold others at 1. cbn [set_kn kn k_mask].
  assert (MK : k_mask (kn st3) = 0%N) by reflexivity. rewrite MK.
  assert (MZ : mem SIGABRT 0%N = false) by reflexivity. rewrite MZ.
  assert (K : k_act (kn (others c st3 h2)) SIGABRT = mkact HDfl 0 0).
  { unfold others. cbn [set_kn kn k_act]. rewrite A3. change (k_act (kn st3) SIGABRT) with (k_act (kn st2) SIGABRT).
    subst st2. unfold others. cbn [set_kn kn k_act]. now rewrite A2. }
  cbn [mon_item]. unfold mon_arrive, kernel_deliver. rewrite K. reflexivity.
Qed.

(** With no calls of other threads the kernel state is the one SignalModel.v's
    [real_abort] computes. *)
Theorem C70_alone : forall c st,
  kn (abort_state c st [] []) = fst (real_abort c st).
Proof.
  intros c st. unfold abort_state, others, real_abort. cbn [run fst set_kn kn].
  destruct (real_sigaction (c_os c) (kn st) SIGABRT (Some act0)) as [k1 x]. reflexivity.
Qed.

(** Non-vacuous: the application handles SIGABRT and blocks everything, the client
    has a handler for it, and other threads make calls meanwhile. *)
Definition busy : list op :=
  [OpSigaction SIGABRT (Some (mkact (HFun 7) 0 0)) false; OpClient SIGABRT (Some 9%N) None; OpMask SIG_SETMASK (Some 1023%N)].
Example C70_case :
  let st := fst (run cfg0 (start kern0) busy) in
  inited st = true /\ sa_handler (k_act (kn st) SIGABRT) = HMon /\
  abort_end cfg0 true 0 st [OpSigaction SIGINT (Some (mkact (HFun 8) 0 0)) true] [OpMask SIG_BLOCK (Some 32%N)] =
    ([Died SIGABRT], false, []).
Proof. vm_compute. auto. Qed.

(** Refuted: another thread installs a handler for SIGABRT between the two steps; it
    runs and the process goes on (to "raise failed", line 794). *)
Theorem C70_race_refuted : exists c st h,
  inited st = true /\ fst (abort_end c true 0 st h []) = ([Ran (HFun 7) false SIGABRT], true).
Proof.
  exists cfg0, (fst (run cfg0 (start kern0) [OpMask SIG_BLOCK None])), [OpSigaction SIGABRT (Some (mkact (HFun 7) 0 0)) false].
  vm_compute. auto.
Qed.

(** Refuted: the library's signal code is not yet initialised; another thread's first
    call, about another signal, installs monitor's handler for SIGABRT too, and the exit
    callbacks run. *)
Theorem C70_first_call_refuted : exists c h, (forall o, In o h -> request o SIGABRT = None) /\
  In EvEndProcess (snd (abort_end c true 0 (start kern0) h [])).
Proof.
  exists cfg0, [OpSigaction SIGINT None true]. split.
  - intros o [<-|[]]. reflexivity.
  - vm_compute. auto.
Qed.

Print Assumptions C70_abort.
Print Assumptions C70_alone.
Print Assumptions C70_case.
Print Assumptions C70_race_refuted.
Print Assumptions C70_first_call_refuted.
