(** Proofs for SigwaitLiveProps.v. *)
From Verif Require Import SignalModel SignalSpec SignalProofs SignalProofs2 SigwaitModel SigwaitSpec
  SigwaitProofs SigwaitLiveModel SigwaitLiveSpec.

Lemma init_run c k0 h : 0 <= c_rtmin c ->
  signal_init c (fst (run c (start k0) h)) = after c k0 h.
Proof.
  intros R. destruct h as [|o h]; [reflexivity|].
  rewrite run_start_boot by discriminate. apply init_idem. exact (I_init _ _ _ _ (after_inv c k0 _ R)).
Qed.

Lemma init_after c k0 h : 0 <= c_rtmin c -> signal_init c (after c k0 h) = after c k0 h.
Proof. intros R. apply init_idem. exact (I_init _ _ _ _ (after_inv c k0 h R)). Qed.

(** The states a wait goes through: not initialised yet, or after the history. *)
Definition at_history c k0 h st : Prop :=
  st = fst (run c (start k0) h) \/ st = after c k0 h.

Lemma at_history_run c k0 h st ops :
  at_history c k0 h st -> at_history c k0 (h ++ ops) (fst (run c st ops)).
Proof. unfold at_history, after. intros [-> | ->]; [left|right]; now rewrite run_app. Qed.

Lemma at_history_init c k0 h st : 0 <= c_rtmin c ->
  at_history c k0 h st -> signal_init c st = after c k0 h.
Proof. intros R [-> | ->]; [now apply init_run|now apply init_after]. Qed.

Lemma managed_range c s : managedb c s = true -> in_range s = true.
Proof. unfold managedb, in_range, NSIG. lia. Qed.

Lemma table c k0 h s : 0 <= c_rtmin c -> in_range s = true ->
  client_handler (tab (after c k0 h) s) = in_force c h s.
Proof.
  intros R HR. unfold in_force. destruct (managedb c s) eqn:M.
  - exact (I_client _ _ _ _ (after_inv c k0 h R) s M).
  - exact (I_clientx _ _ _ _ (after_inv c k0 h R) s HR M).
Qed.

Lemma offered c k0 h st s r : 0 <= c_rtmin c -> at_history c k0 h st ->
  let '(evs, taken) := sigwait_handler c st s r in
  (waited evs, taken) = offer_client (in_force c h) s r.
Proof.
  intros R A. unfold sigwait_handler, offer_client. rewrite (at_history_init c k0 h st R A).
  destruct ((s <=? 0) || (NSIG <=? s)) eqn:E; [reflexivity|].
  rewrite table by (auto; unfold in_range, NSIG in *; lia).
  destruct (in_force c h s); reflexivity.
Qed.

Lemma live_helper_is c k0 h set st t fs : 0 <= c_rtmin c -> at_history c k0 h st ->
  fst (live_helper c set st t fs) = helper (in_force c h) set t fs /\
  at_history c k0 h (snd (live_helper c set st t fs)).
Proof.
  intros R A. pose proof (offered c k0 h st (w_ret t) (w_client t) R A) as O.
  unfold live_helper, helper.
  destruct (w_ret t <? 0); [auto|]. destruct (is_shootdown t (fs || w_fini t)); [auto|].
  destruct (sigwait_handler c st (w_ret t) (w_client t)) as [evs taken]. rewrite <- O.
  assert (B : at_history c k0 h (signal_init c st)) by (right; now apply at_history_init).
  destruct taken; [auto|]. destruct (sigismember set (w_ret t) =? 0); auto.
Qed.

Lemma helper_calls c h set t fs :
  fst (fst (helper (in_force c h) set t fs)) =
  match classify (in_force c h) set fs t with
  | KError | KIntr => []
  | KShoot => [WFini]
  | KClient | KForeign | KApp =>
      match in_force c h (w_ret t) with Some f => [WClient f (w_ret t)] | None => [] end
  end.
Proof.
  unfold helper, classify, is_shootdown.
  destruct (w_ret t <? 0); [now destruct (w_errno t =? EINTR)|].
  destruct ((w_ret t =? w_sd t) && w_exiting t && negb (w_done t) && w_node t &&
            w_started t && negb (fs || w_fini t) && negb (w_block t)); [reflexivity|].
  rewrite offer_spec, sigismember_zero.
  destruct (in_force c h (w_ret t)) as [f|] eqn:F.
  - assert (ER : (1 <=? w_ret t) && (w_ret t <? 65) = true).
    { unfold in_force in F. destruct (managedb c (w_ret t)) eqn:M; [|discriminate].
      apply managed_range in M. unfold in_range, NSIG in M. lia. }
    rewrite ER. cbn [andb]. destruct (w_client t =? 0); [reflexivity|].
    destruct (negb (mem (w_ret t) set)); reflexivity.
  - destruct ((1 <=? w_ret t) && (w_ret t <? 65) && negb (mem (w_ret t) set)); reflexivity.
Qed.

Lemma live_loop_is c k0 set l : forall h st fs, 0 <= c_rtmin c -> at_history c k0 h st ->
  live_loop c set st l fs = (live_calls c set h fs l, live_answer c set h fs l).
Proof.
  induction l as [|[ops t] r IH]; intros h st fs R A; [reflexivity|].
  cbn [live_loop live_calls live_answer].
  apply (at_history_run c k0 h st ops) in A.
  destruct (live_helper_is c k0 (h ++ ops) set (fst (run c st ops)) t fs R A) as [H1 H2].
  pose proof (helper_spec (in_force c (h ++ ops)) set t fs) as H3.
  pose proof (helper_calls c (h ++ ops) set t fs) as H4.
  destruct (live_helper c set (fst (run c st ops)) t fs) as [[[evs fs'] again] st1].
  cbn [fst snd] in H1, H2. rewrite <- H1 in H3, H4. cbn [fst] in H4. destruct H3 as [-> ->].
  rewrite H4. destruct (restarts (classify (in_force c (h ++ ops)) set fs t)).
  - rewrite (IH _ _ _ R H2). reflexivity.
  - now rewrite app_nil_r.
Qed.

