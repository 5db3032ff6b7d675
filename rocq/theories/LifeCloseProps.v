(** Theorems on the end of the wait for fini_thread callbacks: C39. *)
From Verif Require Import LifeClose LifeFiniProps LifeWaitProps.

Local Open Scope Z_scope.

(** Once fini_process has begun in a process whose thread list was frozen by the same
    thread, no fini_thread is issued in that process, in any schedule.
    Partial: the exit code ends its wait when no thread is between the test of
    monitor_fini_thread_done and the call of fini_thread; and the exiting thread had
    found the process multi-threaded. *)
Theorem C39_none_after_partial : forall dyn s a u d b w how d',
  reach dyn quiet_end s ->
  s_tr s = a ++ ECall u (CbFiniThread d) :: b ->
  In (ECall w (CbFiniProcess how d')) (image b) -> In (EFreeze w) (image b) -> False.
Proof.
  intros dyn s a u d b w how d' R E F G. apply (end_hist _ _ R a _ b E). exists w, how, d'. auto.
Qed.

(** An executable form of the assumption. *)
Lemma low_dead dyn s : reach dyn any s -> forall t, t < 1 -> th_live (s_th s t) = false.
Proof.
  apply (reach_invariant dyn any (fun s => forall t, t < 1 -> th_live (s_th s t) = false)).
  - intros t L. cbn. rewrite upd_if. destruct (Z.eqb_spec t MAIN); [unfold MAIN in *; lia|reflexivity].
  - clear s. intros s t c s' R HI _ HS t' L.
    assert (NE : t' <> t). { intros ->. pose proof (HI t L) as X. apply step_view in HS. destruct HS as (_ & LV & _). congruence. }
    apply step_view in HS. destruct HS as (_ & LV & V).
    destruct V as [| | | | | | |f r e Hst Hun Hbar Hfs Es']; subst; cbn [add_ev set_th s_th];
      try (rewrite upd_other by auto; now apply HI).
    destruct (e_child e) eqn:HC.
    + unfold apply_eff. rewrite HC. destruct (child_shape _ _ _ _ _ _ _ _ _ Hfs HC) as (_ & _ & _ & _ & _ & N & K & _).
      rewrite N, K. cbn. now rewrite upd_other.
    + rewrite apply_live by auto.
      pose proof (born_next _ (born_reach _ _ R)) as B2.
      assert (N2 : (t' =? t) = false) by now apply Z.eqb_neq. assert (N3 : (t' =? s_next s) = false) by (apply Z.eqb_neq; lia).
      rewrite N2, N3. destruct (e_new e); now apply HI.
Qed.

Definition ids (s : state) : list Z := map Z.of_nat (seq 1 (Z.to_nat (s_next s) - 1)).
Definition quiet_end_b (s : state) (t : Z) (c : choice) : bool :=
  match th_stack (s_th s t), c with
  | f :: _, CStep => negb (at_end f) ||
      forallb (fun u => negb (existsb past_check (th_stack (s_th s u)))) (ids s)
  | _, _ => true
  end.
Lemma quiet_end_ok dyn s t c : reach dyn any s -> quiet_end_b s t c = true -> quiet_end s t c.
Proof.
  unfold quiet_end_b, quiet_end. intros R H f r E A -> t' f' I'. rewrite E, A in H. cbn in H.
  destruct (past_check f') eqn:P; [exfalso|reflexivity].
  assert (LV : th_live (s_th s t') = true).
  { destruct (th_live (s_th s t')) eqn:X; auto. rewrite (born_dead _ (born_reach _ _ R) t' X) in I'. destruct I'. }
  assert (RG : 1 <= t' < s_next s).
  { split.
    - destruct (Z_lt_le_dec t' 1) as [L|]; auto. rewrite (low_dead _ _ R t' L) in LV. discriminate.
    - destruct (Z_lt_le_dec t' (s_next s)) as [L|L]; auto. destruct (born_fresh _ (born_reach _ _ R) t' L) as (_ & X & _). congruence. }
  rewrite forallb_forall in H. specialize (H t').
  assert (J : In t' (ids s)).
  { unfold ids. apply in_map_iff. exists (Z.to_nat t'). split; [lia|]. apply in_seq. lia. }
  apply H in J. apply Bool.negb_true_iff in J. rewrite (existsb_false_in _ _ _ J I') in P. discriminate.
Qed.
Lemma quiet_run dyn l : forall s0 s, reach dyn quiet_end s0 -> run_ok quiet_end_b dyn s0 l = Some s -> reach dyn quiet_end s.
Proof.
  induction l as [|[t c] l IH]; intros s0 s R E; cbn in E.
  - inversion E; subst. exact R.
  - destruct (quiet_end_b s0 t c) eqn:O; [|discriminate].
    destruct (step dyn s0 t c) as [s1|] eqn:S; [|discriminate].
    eapply IH; [|exact E]. eapply reach_step; eauto. eapply quiet_end_ok; [eapply quiet_any; exact R|exact O].
Qed.

(** The exit of thread 2 with main and thread 3 shot down; then thread 3 ends while
    fini_process runs. *)
Example C39_case : exists s,
  reach false quiet_end s /\ In (ECall 2 (CbFiniProcess 1 7)) (image (s_tr s)) /\ In (EFreeze 2) (image (s_tr s)) /\
  In (ECall 3 (CbFiniThread 8)) (s_tr s) /\ In (EEnd 3) (s_tr s).
Proof.
  assert (X : exists s, run_ok quiet_end_b false init (exit_of_two ++ [(3, CRet 0)] ++ ticks 3 2 ++ [(3, CRet 0); (3, CStep)]) = Some s /\
    In (ECall 2 (CbFiniProcess 1 7)) (image (s_tr s)) /\ In (EFreeze 2) (image (s_tr s)) /\
    In (ECall 3 (CbFiniThread 8)) (s_tr s) /\ In (EEnd 3) (s_tr s)).
  { eexists. split; [vm_compute; reflexivity|]. vm_compute. tauto. }
  destruct X as (s & E & A). exists s. split; [eapply quiet_run; [apply reach_init|exact E]|exact A].
Qed.

(** Refuted, with the timeout: a thread that ends has passed the test of
    monitor_fini_thread_done; the exit code gives up and issues fini_process; the
    thread then issues fini_thread. *)
Theorem C39_timeout_refuted : exists dyn l s d how d',
  run dyn init l = Some s /\ hd_error (s_tr s) = Some (ECall 2 (CbFiniThread d)) /\
  In (ECall 1 (CbFiniProcess how d')) (tl (s_tr s)) /\ In (EGiveUp 1) (s_tr s).
Proof.
  exists false, (to_main ++ create1 1 10 11 5 ++ enter 2 6 ++ [(2, CRet 0)] ++ ticks 2 3 ++
    win 1 ++ [(1, CRet 0)] ++ ticks 1 10 ++ [(1, CGiveUp)] ++ ticks 1 4 ++ ticks 2 2).
  eexists. exists 6, 1. eexists. split; [vm_compute; reflexivity|]. vm_compute. intuition reflexivity.
Qed.

(** Refuted, without the timeout: a thread still in init_thread when the last pass
    examines it starts and ends, and passes the test before the flag is set. *)
Theorem C39_late_starter_refuted : exists dyn l s d how d',
  run dyn init l = Some s /\ hd_error (s_tr s) = Some (ECall 2 (CbFiniThread d)) /\
  In (ECall 1 (CbFiniProcess how d')) (tl (s_tr s)) /\ ~ In (EGiveUp 1) (s_tr s).
Proof.
  exists false, (to_main ++ create1 1 10 11 5 ++ register 2 ++
    win 1 ++ [(1, CRet 0)] ++ ticks 1 9 ++ [(2, CRet 6)] ++ ticks 2 4 ++ [(2, CRet 0)] ++ ticks 2 3 ++ ticks 1 4 ++ ticks 2 2).
  eexists. exists 6, 1. eexists. split; [vm_compute; reflexivity|]. vm_compute. intuition discriminate.
Qed.

(** Refuted: fini_process of a process without threads creates one; it runs and ends
    before the process does. *)
Theorem C39_late_thread_refuted : exists dyn l s d how d',
  run dyn init l = Some s /\ hd_error (s_tr s) = Some (ECall 2 (CbFiniThread d)) /\
  In (ECall 1 (CbFiniProcess how d')) (tl (s_tr s)) /\ ~ In (EGiveUp 1) (s_tr s).
Proof.
  exists false, (to_main ++ win 1 ++ [(1, CRet 0)] ++ ticks 1 2 ++
    create1 1 10 11 5 ++ enter 2 6 ++ [(2, CRet 0)] ++ ticks 2 5).
  eexists. exists 6, 1. eexists. split; [vm_compute; reflexivity|]. vm_compute. intuition discriminate.
Qed.

Print Assumptions C39_none_after_partial.
Print Assumptions C39_case.
Print Assumptions C39_timeout_refuted.
Print Assumptions C39_late_starter_refuted.
Print Assumptions C39_late_thread_refuted.
