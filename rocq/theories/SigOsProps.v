(** Properties C62-C65: what a program sees of its signals, with monitor and
    without it.  [seen_with]/[seen_without] are the handler runs, stops and the death
    that a program of calls and arriving signals shows; see SigOsSpec.v. *)
From Verif Require Import SignalModel SignalSpec SignalProofs SignalProofs2 SignalProps.
From Verif Require Import SigOsModel SigOsSpec SigOsProofs.

(** A program start as exec leaves it: SIGHUP ignored (as under nohup), the rest
    default; nothing blocked. *)
Definition kern1 : kern := mkkern (fun s => if s =? 1 then mkact HIgn 0 0 else mkact HDfl 0 0) 0.

Lemma kern1_fresh : fresh kern1.
Proof. intros s. cbn. destruct (s =? 1); auto. Qed.

(** ** C62: the same handlers run, in the same order, and the process stops and dies
    at the same points, for every program of calls and arrivals, nested to any depth.
    [cret <> 0]: a client handler, if there is one, passes the signal on. *)
Theorem C62_same_signals_partial : forall c dyn cret k0 prog,
  0 <= c_rtmin c -> cret <> 0 -> usual k0 prog ->
  seen_with c dyn cret k0 prog = seen_without (c_os c) k0 prog.
Proof. exact same_seen. Qed.
Print Assumptions C62_same_signals_partial.

(** A handler that installs another and is interrupted itself, a client that watches,
    a stop, and a death. *)
Definition prog62 : list item :=
  [Call (OpSigaction 10 (Some (mkact (HFun 7) SA_SIGINFO (sadd 12 0))) false);
   Call (OpClient 10 (Some 99%N) None);
   Call (OpSignal 12 (HFun 8));
   Arrive 10 false [Call (OpSignal 2 HIgn); Arrive 12 false [Call (OpSignal 10 (HFun 9))]];
   Arrive 2 false []; Arrive 10 false []; Arrive 20 false []; Arrive 1 false [];
   Arrive 11 true []; Arrive 10 false []].

Example C62_example :
  0 <= c_rtmin cfg0 /\ usual kern1 prog62 /\
  seen_with cfg0 true 1 kern1 prog62 =
    ([Ran (HFun 7) true 10; Ran (HFun 8) false 12; Ran (HFun 9) false 10; Stopped; Died 11], false).
Proof.
  split; [vm_compute; discriminate|]. split.
  - split; [exact kern1_fresh|]. split.
    + repeat constructor; discriminate.
    + assert (N : never_ignored kern1 (calls_in prog62) 11).
      { split; [discriminate|]. intros x a H A. cbn in H.
        repeat (destruct H as [<-|H]; [discriminate A|]). destruct H. }
      cbn [prog62 arrivals_in flat_map arrivals_of app].
      repeat (constructor; [split; cbn [fst snd]; [intros H;
        first [reflexivity|exfalso; unfold SIGSEGV, SIGBUS, SIGILL in H; cbn in H; intuition discriminate]|intros E; first [discriminate E|exact N]]|]).
      constructor.
  - vm_compute. reflexivity.
Qed.

(** One-shot handlers (SA_RESETHAND) are not one-shot. *)
Theorem C62_one_shot_refuted : exists c k0 prog,
  fresh k0 /\ (forall a, In a (arrivals_in prog) -> snd a = false /\ fst a = SIGUSR1) /\
  seen_without (c_os c) k0 prog = ([Ran (HFun 7) false 10; Died 10], false) /\
  seen_with c true 1 k0 prog = ([Ran (HFun 7) false 10; Ran (HFun 7) false 10], true).
Proof.
  exists cfg0, kern1,
    [Call (OpSigaction 10 (Some (mkact (HFun 7) SA_RESETHAND 0)) false);
     Arrive 10 false []; Arrive 10 false []].
  split; [exact kern1_fresh|]. split; [|split; vm_compute; reflexivity].
  intros a [<-|[<-|[]]]; auto.
Qed.
Print Assumptions C62_one_shot_refuted.

(** kill(pid, SIGSEGV): the process would die, with monitor it goes on. *)
Theorem C62_sent_segv_refuted : exists c k0,
  fresh k0 /\
  seen_without (c_os c) k0 [Arrive SIGSEGV false []] = ([Died SIGSEGV], false) /\
  seen_with c true 1 k0 [Arrive SIGSEGV false []] = ([], true).
Proof.
  exists cfg0, kern1. split; [exact kern1_fresh|]. split; vm_compute; reflexivity.
Qed.
Print Assumptions C62_sent_segv_refuted.

(** A fault while the signal is ignored: the system kills the process; with monitor
    the handler returns and the faulting instruction runs again. *)
Theorem C62_ignored_fault_refuted : exists c k0,
  fresh k0 /\
  let prog := [Call (OpSignal SIGSEGV HIgn); Arrive SIGSEGV true []] in
  seen_without (c_os c) k0 prog = ([Died SIGSEGV], false) /\
  seen_with c true 1 k0 prog = ([], true).
Proof.
  exists cfg0, kern1. split; [exact kern1_fresh|]. split; vm_compute; reflexivity.
Qed.
Print Assumptions C62_ignored_fault_refuted.

(** ** C63: system calls that are blocked when a signal arrives *)

(** Exactly when a blocked call ends as it would without monitor. *)
Theorem C63_blocked_call_partial : forall c k0 h dyn cret s w,
  0 <= c_rtmin c -> cret <> 0 -> managed c s -> ~ In s [SIGSEGV; SIGBUS; SIGILL] ->
  fresh k0 -> Forall ordinary h ->
  mon_outcome c dyn cret (after c k0 h) s w = kernel_outcome (native_after (c_os c) k0 h) s w <->
  restart_agrees (native_action c k0 h s) s w.
Proof. exact outcome_iff. Qed.
Print Assumptions C63_blocked_call_partial.

(** A signal the client keeps for itself never breaks a restartable call, whatever
    flags the client asked for. *)
Theorem C63_client_signal : forall c k0 h dyn s f,
  0 <= c_rtmin c -> managed c s -> last_client h s None = Some f ->
  mon_outcome c dyn 0 (after c k0 h) s Restartable = GoesOn.
Proof. intros c k0 h dyn s f Hrt M L. exact (client_outcome c k0 h dyn s Restartable f Hrt M L). Qed.
Print Assumptions C63_client_signal.

Example C63_example :
  managed cfg0 14 /\ managed cfg0 17 /\
  let h := [OpSignal 14 (HFun 3); OpClient 27 (Some 99%N) (Some act0)] in
  Forall ordinary h /\
  mon_outcome cfg0 true 1 (after cfg0 kern1 h) 14 Restartable = GoesOn /\
  mon_outcome cfg0 true 1 (after cfg0 kern1 h) 14 NotRestarted = Interrupted /\
  mon_outcome cfg0 true 1 (after cfg0 kern1 h) 15 Restartable = Dead /\
  mon_outcome cfg0 true 1 (after cfg0 kern1 h) 20 Restartable = StoppedIn /\
  mon_outcome cfg0 true 0 (after cfg0 kern1 h) 27 Restartable = GoesOn /\
  restart_agrees (native_action cfg0 kern1 h 14) 14 Restartable.
Proof.
  split; [vm_compute; intuition discriminate|]. split; [vm_compute; intuition discriminate|].
  cbv zeta. split; [repeat constructor; discriminate|].
  repeat split; vm_compute; reflexivity.
Qed.

(** alarm() with a handler without SA_RESTART, to time out a read: with monitor the
    read goes on. *)
Theorem C63_alarm_refuted : exists c k0 h,
  fresh k0 /\ Forall ordinary h /\ managed c 14 /\
  kernel_outcome (native_after (c_os c) k0 h) 14 Restartable = Interrupted /\
  mon_outcome c true 1 (after c k0 h) 14 Restartable = GoesOn.
Proof.
  exists cfg0, kern1, [OpSigaction 14 (Some (mkact (HFun 3) 0 0)) false].
  split; [exact kern1_fresh|]. split; [repeat constructor|].
  split; [vm_compute; intuition discriminate|]. split; vm_compute; reflexivity.
Qed.
Print Assumptions C63_alarm_refuted.

(** The end of a child (SIGCHLD, default action) breaks a poll with monitor only. *)
Theorem C63_sigchld_refuted : exists c k0,
  fresh k0 /\ managed c SIGCHLD /\
  kernel_outcome (native_after (c_os c) k0 []) SIGCHLD NotRestarted = GoesOn /\
  mon_outcome c true 1 (after c k0 []) SIGCHLD NotRestarted = Interrupted.
Proof.
  exists cfg0, kern1. split; [exact kern1_fresh|].
  split; [vm_compute; intuition discriminate|]. split; vm_compute; reflexivity.
Qed.
Print Assumptions C63_sigchld_refuted.

(** So does a signal the client keeps for itself. *)
Theorem C63_client_signal_refuted : exists c k0 h s f,
  fresh k0 /\ managed c s /\ last_client h s None = Some f /\
  mon_outcome c true 0 (after c k0 h) s NotRestarted = Interrupted.
Proof.
  exists cfg0, kern1, [OpClient 27 (Some 99%N) (Some act0)], 27, 99%N.
  split; [exact kern1_fresh|]. split; [vm_compute; intuition discriminate|].
  split; vm_compute; reflexivity.
Qed.
Print Assumptions C63_client_signal_refuted.

(** ** C64: the signals a program started by exec finds *)

(** Exactly which actions are as without monitor. *)
Theorem C64_exec_partial : forall c k0 h s,
  0 <= c_rtmin c -> fresh k0 -> Forall ordinary h ->
  (k_act (mon_exec c k0 h) s = k_act (native_exec (c_os c) k0 h) s <->
   (managed c s -> sa_handler (native_action c k0 h s) <> HIgn)).
Proof. exact exec_iff. Qed.
Print Assumptions C64_exec_partial.

(** The mask it inherits, for signals not kept open. *)
Theorem C64_exec_mask_partial : forall c k0 h g,
  0 <= c_rtmin c -> N.land (k_mask k0) (k_noblock (c_os c)) = 0%N -> 1 <= g < 65 ->
  open_after c h g = false ->
  mem g (k_mask (mon_exec c k0 h)) = mem g (k_mask (native_exec (c_os c) k0 h)).
Proof. intros c k0 h g. exact (same_mask c k0 h g). Qed.
Print Assumptions C64_exec_mask_partial.

(** However many programs follow each other, every one starts with each managed signal
    at its default. *)
Theorem C64_chain_partial : forall c k0 hs h s,
  0 <= c_rtmin c -> managed c s ->
  k_act (fold_left (mon_exec c) (hs ++ [h]) k0) s = mkact HDfl 0 0.
Proof.
  intros c k0 hs h s Hrt M. rewrite fold_left_app. cbn [fold_left].
  apply mon_exec_managed; [exact Hrt|]. now apply managedb_spec.
Qed.
Print Assumptions C64_chain_partial.

Example C64_example :
  let h := [OpSignal 15 (HFun 4); OpSigaction 2 (Some (mkact (HFun 5) 0 0)) false;
            OpMask SIG_BLOCK (Some (sadd 15 (sadd 27 0)))] in
  Forall ordinary h /\ managed cfg0 15 /\ open_after cfg0 h 15 = false /\
  N.land (k_mask kern1) (k_noblock (c_os cfg0)) = 0%N /\
  sa_handler (native_action cfg0 kern1 h 15) = HFun 4 /\
  k_act (mon_exec cfg0 kern1 h) 15 = mkact HDfl 0 0 /\
  mem 15 (k_mask (mon_exec cfg0 kern1 h)) = true /\
  mem 27 (k_mask (mon_exec cfg0 kern1 h)) = false.
Proof.
  cbv zeta. split; [repeat constructor; discriminate|].
  split; [vm_compute; intuition discriminate|]. repeat split; vm_compute; reflexivity.
Qed.

(** nohup: SIGHUP is ignored when the program starts, the program never touches it,
    and the program it execs has it at the default; a hangup then kills it. *)
Theorem C64_nohup_refuted : exists c k0,
  fresh k0 /\ sa_handler (k_act k0 1) = HIgn /\ managed c 1 /\
  sa_handler (k_act (native_exec (c_os c) k0 []) 1) = HIgn /\
  sa_handler (k_act (mon_exec c k0 []) 1) = HDfl /\
  seen_without (c_os c) (native_exec (c_os c) k0 []) [Arrive 1 false []] = ([], true) /\
  seen_with c true 1 (mon_exec c k0 []) [Arrive 1 false []] = ([Died 1], false).
Proof.
  exists cfg0, kern1. split; [exact kern1_fresh|]. split; [reflexivity|].
  split; [vm_compute; intuition discriminate|]. repeat split; vm_compute; reflexivity.
Qed.
Print Assumptions C64_nohup_refuted.

(** ** C65: the surroundings of the application's handler *)

(** The same signals are blocked while it runs, but for those kept open. *)
Theorem C65_handler_mask_partial : forall c k0 h s g,
  0 <= c_rtmin c -> managed c s -> fresh k0 ->
  N.land (k_mask k0) (k_noblock (c_os c)) = 0%N ->
  Forall ordinary h -> (forall f a, ~ In (OpClient s f (Some a)) h) ->
  1 <= g < 65 -> managed c g -> open_after c h g = false ->
  mem g (handler_mask (c_os c) (kn (after c k0 h)) s) =
  mem g (handler_mask (c_os c) (native_after (c_os c) k0 h) s).
Proof. exact same_handler_mask. Qed.
Print Assumptions C65_handler_mask_partial.

(** The shootdown signal is always blocked while a handler runs, so the shootdown
    never interrupts one. *)
Theorem C65_shootdown_blocked : forall c k0 h s,
  0 <= c_rtmin c -> managed c s -> mem (spec_shoot c) (k_noblock (c_os c)) = false ->
  mem (spec_shoot c) (handler_mask (c_os c) (kn (after c k0 h)) s) = true.
Proof.
  intros c k0 h s Hrt M N. rewrite (mon_handler_mask c k0 h s _ Hrt M (spec_shoot_range c)).
  rewrite Z.eqb_refl, N. cbn [negb]. now rewrite orb_true_r.
Qed.
Print Assumptions C65_shootdown_blocked.

Example C65_example :
  let h := [OpSigaction 10 (Some (mkact (HFun 7) SA_NODEFER (sadd 12 (sadd 27 0)))) false;
            OpMask SIG_BLOCK (Some (sadd 15 0)); OpSignal 12 (HFun 8)] in
  Forall ordinary h /\ managed cfg0 10 /\ managed cfg0 12 /\
  map (open_after cfg0 h) [10; 12; 15] = [false; false; false] /\
  map (fun g => mem g (handler_mask linux (kn (after cfg0 kern1 h)) 10)) [10; 12; 15; 27; 42] =
    [false; true; true; false; true] /\
  map (fun g => mem g (handler_mask linux (kn (after cfg0 kern1 h)) 12)) [10; 12; 15; 27; 42] =
    [false; true; true; false; true] /\
  map (fun g => mem g (handler_mask linux (native_after linux kern1 h) 10)) [10; 12; 15; 27; 42] =
    [false; true; true; true; false].
Proof.
  cbv zeta. split; [repeat constructor; discriminate|].
  split; [vm_compute; intuition discriminate|]. split; [vm_compute; intuition discriminate|].
  repeat split; vm_compute; reflexivity.
Qed.

(** A handler for stack overflow: it asks for the alternate stack and does not get it. *)
Theorem C65_alternate_stack_refuted : exists c k0 h,
  fresh k0 /\ Forall ordinary h /\ managed c SIGSEGV /\
  on_alternate_stack (native_after (c_os c) k0 h) SIGSEGV = true /\
  on_alternate_stack (kn (after c k0 h)) SIGSEGV = false.
Proof.
  exists cfg0, kern1, [OpSigaction SIGSEGV (Some (mkact (HFun 3) SA_ONSTACK 0)) false].
  split; [exact kern1_fresh|]. split; [repeat constructor|].
  split; [vm_compute; intuition discriminate|]. split; vm_compute; reflexivity.
Qed.
Print Assumptions C65_alternate_stack_refuted.

(** Two handlers that exclude each other by their masks no longer do once the client
    has registered for one of the signals. *)
Theorem C65_exclusion_refuted : exists c k0 h,
  fresh k0 /\ Forall ordinary h /\
  mem 12 (handler_mask (c_os c) (native_after (c_os c) k0 h) 10) = true /\
  mem 12 (handler_mask (c_os c) (kn (after c k0 h)) 10) = false.
Proof.
  exists cfg0, kern1, [OpClient 12 (Some 99%N) None;
    OpSigaction 10 (Some (mkact (HFun 7) 0 (sadd 12 0))) false].
  split; [exact kern1_fresh|]. split; [repeat constructor|]. split; vm_compute; reflexivity.
Qed.
Print Assumptions C65_exclusion_refuted.
