(** Property C76: signals that are blocked wait and arrive as they would without
    monitor.  [run_with]/[run_without] (PendModel.v) let one thread make calls,
    get signals and return from handlers in any order; see PendSpec.v. *)
From Verif Require Import SignalModel SignalSpec SignalProofs SignalProofs2 SignalProps.
From Verif Require Import SigOsModel SigOsSpec SigOsProofs SigOsProps PendModel PendSpec PendProofs.

(** For every program start, every set of signals pending from before exec, and
    every sequence of calls, signals and returns: the same handlers run in the same
    order, the process stops and dies at the same points, and at the end the same
    signals are pending and the same ones of the application are blocked.
    The signals are the application's own ([only_plain]); no pending signal is
    thrown away by a call and none is left over at a death ([calm_run]). *)
Theorem C76_pending_partial : forall c dyn cret k0 pend script,
  0 <= c_rtmin c -> fresh k0 -> Forall ordinary (calls_made script) ->
  only_plain c script pend -> calm_run (c_os c) k0 pend script ->
  same_view (monitored c dyn cret) (native (c_os c)) (plain c script)
    (run_with c dyn cret k0 pend script) (run_without (c_os c) k0 pend script).
Proof. exact same_view_whole. Qed.
Print Assumptions C76_pending_partial.

(** Two handlers, the first of which keeps the second signal off; both signals
    arrive while blocked, with a third that was pending at exec; the second is
    delivered at the first handler's return; a stop; a death. *)
(** SIGALRM is blocked at exec. *)
Definition kern2 : kern := mkkern (k_act kern1) (sadd 14 0).
Definition both : sigset := sadd 10 (sadd 12 (sadd 14 0)).
Definition script76 : list happening :=
  [HCall (OpMask SIG_BLOCK (Some both));
   HCall (OpSigaction 10 (Some (mkact (HFun 7) SA_SIGINFO (sadd 12 0))) false);
   HCall (OpSignal 12 (HFun 8)); HCall (OpSignal 14 (HFun 9));
   HCall (OpClient 20 (Some 99%N) None);
   HSend 12; HSend 10; HSend 12;
   HCall (OpMask SIG_UNBLOCK (Some (sadd 10 (sadd 12 0))));
   HSend 12; HReturn; HReturn; HReturn;
   HCall (OpMask SIG_SETMASK (Some 0%N)); HReturn; HSend 21; HSend 15].

Example C76_example :
  0 <= c_rtmin cfg0 /\ fresh kern2 /\ Forall ordinary (calls_made script76) /\
  only_plain cfg0 script76 (sadd 14 0) /\ calm_run (c_os cfg0) kern2 (sadd 14 0) script76 /\
  rev (p_seen (run_with cfg0 true 1 kern2 (sadd 14 0) script76)) =
    [Ran (HFun 7) true 10; Ran (HFun 8) false 12; Ran (HFun 9) false 14; Stopped; Died 15] /\
  p_alive (run_with cfg0 true 1 kern2 (sadd 14 0) script76) = false.
Proof.
  assert (PL : forall s, In s [10; 12; 14; 15; 21] -> plain cfg0 script76 s).
  { intros s Hs. cbn in Hs.
    assert (L : 1 <= s < 65 /\ s <> 20 /\ s <> 4 /\ s <> 7 /\ s <> 11) by lia.
    split; [tauto|]. split.
    { repeat (destruct Hs as [<-|Hs]; [vm_compute; discriminate|]). destruct Hs. }
    split.
    { intros _. repeat (destruct Hs as [<-|Hs]; [vm_compute; reflexivity|]). destruct Hs. }
    split.
    { intros h a X. cbn in X. repeat (destruct X as [X|X]; [try discriminate X; injection X; intros; lia|]).
      destruct X. }
    unfold SIGSEGV, SIGBUS, SIGILL. cbn. lia. }
  split; [vm_compute; discriminate|]. split; [intros s; apply kern1_fresh|].
  split; [repeat constructor; discriminate|].
  split.
  { split.
    - intros s Hs M. rewrite mem_sadd, mem_0, orb_false_r in M by lia. apply Z.eqb_eq in M. subst s.
      apply PL. cbn. tauto.
    - intros s X. apply PL. cbn in X.
      repeat (destruct X as [X|X]; [try discriminate X; injection X; intros <-; cbn; tauto|]). destruct X. }
  split.
  { split; [vm_compute; discriminate|]. apply calmb_calm. vm_compute. reflexivity. }
  split; vm_compute; reflexivity.
Qed.

Lemma plain_usr1 script :
  (forall s, In (HSend s) script -> s = SIGUSR1 \/ s = SIGTERM) ->
  (forall s h a, ~ In (HCall (OpClient s h a)) script) ->
  only_plain cfg0 script 0.
Proof.
  intros H N. split; [intros s _ M; now rewrite mem_0 in M|]. intros s I.
  destruct (H s I) as [->| ->];
    (split; [unfold SIGUSR1, SIGTERM; lia|]; split; [vm_compute; discriminate|];
     split; [intros _; vm_compute; reflexivity|]; split; [intros h a; apply N|];
     unfold SIGSEGV, SIGBUS, SIGILL, SIGUSR1, SIGTERM; cbn; lia).
Qed.
Ltac usr1 := apply plain_usr1;
  [intros ? X; cbn in X; repeat (destruct X as [X|X]; [try discriminate X; injection X; auto|]); destruct X
  |intros ? ? ? X; cbn in X; repeat (destruct X as [X|X]; [discriminate X|]); destruct X].

(** To ignore a signal for a moment throws a pending one away; with monitor it is
    delivered later all the same: monitor never installs SIG_IGN in the kernel. *)
Theorem C76_discard_refuted : exists c k0 script,
  fresh k0 /\ Forall ordinary (calls_made script) /\ only_plain c script 0 /\
  p_seen (run_without (c_os c) k0 0 script) = [] /\
  p_alive (run_without (c_os c) k0 0 script) = true /\
  p_seen (run_with c true 1 k0 0 script) = [Ran (HFun 7) false SIGUSR1].
Proof.
  exists cfg0, kern1,
    [HCall (OpMask SIG_BLOCK (Some (sadd SIGUSR1 0))); HSend SIGUSR1;
     HCall (OpSignal SIGUSR1 HIgn); HCall (OpSignal SIGUSR1 (HFun 7));
     HCall (OpMask SIG_UNBLOCK (Some (sadd SIGUSR1 0)))].
  split; [exact kern1_fresh|]. split; [repeat constructor; discriminate|].
  split; [usr1|]. repeat split; vm_compute; reflexivity.
Qed.
Print Assumptions C76_discard_refuted.

(** A signal kills the process while another one is blocked and pending: monitor
    empties the mask before it raises the signal again, so the handler of the blocked
    signal runs first, in a process whose end has already been reported. *)
Theorem C76_late_handler_refuted : exists c k0 script,
  fresh k0 /\ Forall ordinary (calls_made script) /\ only_plain c script 0 /\
  rev (p_seen (run_without (c_os c) k0 0 script)) = [Died SIGTERM] /\
  rev (p_seen (run_with c true 1 k0 0 script)) = [Ran (HFun 7) false SIGUSR1; Died SIGTERM].
Proof.
  exists cfg0, kern1,
    [HCall (OpMask SIG_BLOCK (Some (sadd SIGUSR1 0))); HCall (OpSignal SIGUSR1 (HFun 7));
     HSend SIGUSR1; HSend SIGTERM; HReturn].
  split; [exact kern1_fresh|]. split; [repeat constructor; discriminate|].
  split; [usr1|]. repeat split; vm_compute; reflexivity.
Qed.
Print Assumptions C76_late_handler_refuted.

(** The handler need not return: then the process does not die at all. *)
Theorem C76_survives_refuted : exists c k0 script,
  fresh k0 /\ Forall ordinary (calls_made script) /\ only_plain c script 0 /\
  p_alive (run_without (c_os c) k0 0 script) = false /\
  p_alive (run_with c true 1 k0 0 script) = true.
Proof.
  exists cfg0, kern1,
    [HCall (OpMask SIG_BLOCK (Some (sadd SIGUSR1 0))); HCall (OpSignal SIGUSR1 (HFun 7));
     HSend SIGUSR1; HSend SIGTERM].
  split; [exact kern1_fresh|]. split; [repeat constructor; discriminate|].
  split; [usr1|]. repeat split; vm_compute; reflexivity.
Qed.
Print Assumptions C76_survives_refuted.

(** Two fatal signals wait together: the process dies of the other one. *)
Theorem C76_other_death_refuted : exists c k0 script,
  fresh k0 /\ Forall ordinary (calls_made script) /\ only_plain c script 0 /\
  p_seen (run_without (c_os c) k0 0 script) = [Died SIGUSR1] /\
  p_seen (run_with c true 1 k0 0 script) = [Died SIGTERM].
Proof.
  exists cfg0, kern1,
    [HCall (OpMask SIG_BLOCK (Some (sadd SIGUSR1 (sadd SIGTERM 0))));
     HSend SIGUSR1; HSend SIGTERM; HCall (OpMask SIG_SETMASK (Some 0%N))].
  split; [exact kern1_fresh|]. split; [repeat constructor; discriminate|].
  split; [usr1|]. repeat split; vm_compute; reflexivity.
Qed.
Print Assumptions C76_other_death_refuted.

(** A signal the client has registered for cannot be blocked by the application:
    its handler runs at once. *)
Theorem C76_client_signal_refuted : exists c k0 script,
  fresh k0 /\ Forall ordinary (calls_made script) /\
  p_seen (run_without (c_os c) k0 0 script) = [] /\
  p_seen (run_with c true 1 k0 0 script) = [Ran (HFun 7) false SIGUSR1].
Proof.
  exists cfg0, kern1,
    [HCall (OpClient SIGUSR1 (Some 99%N) None); HCall (OpSignal SIGUSR1 (HFun 7));
     HCall (OpMask SIG_BLOCK (Some (sadd SIGUSR1 0))); HSend SIGUSR1].
  split; [exact kern1_fresh|]. split; [repeat constructor; discriminate|].
  repeat split; vm_compute; reflexivity.
Qed.
Print Assumptions C76_client_signal_refuted.
