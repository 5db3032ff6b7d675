From Verif Require Import SignalModel SigwaitModel SigwaitSpec.

Lemma offer_spec clients sig cret :
  offer_client clients sig cret =
  match clients sig with
  | Some h => if (1 <=? sig) && (sig <? 65) then ([WClient h sig], cret =? 0) else ([], false)
  | None => ([], false)
  end.
Proof.
  unfold offer_client, NSIG.
  destruct ((sig <=? 0) || (65 <=? sig)) eqn:E.
  - replace ((1 <=? sig) && (sig <? 65)) with false by lia. now destruct (clients sig).
  - replace ((1 <=? sig) && (sig <? 65)) with true by lia. now destruct (clients sig).
Qed.

Lemma sigismember_zero set sig :
  (sigismember set sig =? 0) = (1 <=? sig) && (sig <? 65) && negb (mem sig set).
Proof.
  unfold sigismember. replace ((1 <=? sig) && (sig <? 65)) with (in_range sig)
    by (unfold in_range, NSIG; lia).
  destruct (in_range sig); [|reflexivity]. now destruct (mem sig set).
Qed.

Lemma helper_spec clients set t fs :
  let '(evs, fs', again) := helper clients set t fs in
  again = restarts (classify clients set fs t) /\
  fs' = begun_after clients set fs t.
Proof.
  unfold helper, begun_after, classify, is_shootdown.
  destruct (w_ret t <? 0) eqn:E0.
  { destruct (w_errno t =? EINTR); split; try reflexivity; now rewrite orb_false_r. }
  destruct ((w_ret t =? w_sd t) && w_exiting t && negb (w_done t) && w_node t &&
            w_started t && negb (fs || w_fini t) && negb (w_block t)) eqn:E1.
  { split; [reflexivity|]. now rewrite orb_true_r. }
  rewrite offer_spec, sigismember_zero.
  destruct (clients (w_ret t)) as [h|].
  - destruct ((1 <=? w_ret t) && (w_ret t <? 65)) eqn:ER; cbn [andb].
    + destruct (w_client t =? 0); cbn [andb].
      * split; [reflexivity|]. now rewrite orb_false_r.
      * destruct (negb (mem (w_ret t) set)); split; try reflexivity; now rewrite orb_false_r.
    + split; try reflexivity; now rewrite orb_false_r.
  - destruct ((1 <=? w_ret t) && (w_ret t <? 65) && negb (mem (w_ret t) set));
    split; try reflexivity; now rewrite orb_false_r.
Qed.

Lemma wait_loop_result clients set ts : forall fs,
  snd (wait_loop clients set ts fs) = first_for_app clients set fs ts.
Proof.
  induction ts as [|t r IH]; intros fs; [reflexivity|].
  cbn [wait_loop first_for_app].
  pose proof (helper_spec clients set t fs) as H.
  destruct (helper clients set t fs) as [[evs fs'] again]. destruct H as [-> ->].
  destruct (restarts _); [|reflexivity].
  rewrite <- IH. destruct (wait_loop _ _ _ _) as [a b]. reflexivity.
Qed.

(** fini_thread at most once per wait, and not at all if it has begun. *)
Lemma helper_fini clients set t fs :
  let '(evs, fs', again) := helper clients set t fs in
  (count is_fini evs <= 1)%nat /\ (count is_client evs <= 1)%nat /\
  (count is_fini evs = 1%nat -> fs = false /\ fs' = true) /\
  (fs = true -> fs' = true /\ count is_fini evs = 0%nat) /\
  (count is_fini evs = 1%nat -> count is_client evs = 0%nat).
Proof.
  unfold helper, is_shootdown.
  destruct (w_ret t <? 0); [cbn; intuition (try discriminate; lia)|].
  destruct ((w_ret t =? w_sd t) && w_exiting t && negb (w_done t) && w_node t &&
            w_started t && negb (fs || w_fini t) && negb (w_block t)) eqn:E1.
  { cbn. destruct fs; cbn in E1.
    - rewrite !andb_false_r in E1. discriminate.
    - intuition (try discriminate; lia). }
  rewrite offer_spec.
  destruct (clients (w_ret t)) as [h|].
  - destruct ((1 <=? w_ret t) && (w_ret t <? 65)).
    + destruct (w_client t =? 0); [cbn; intuition (try discriminate; subst; auto; lia)|].
      destruct (sigismember set (w_ret t) =? 0); cbn; intuition (try discriminate; subst; auto; lia).
    + destruct (sigismember set (w_ret t) =? 0); cbn; intuition (try discriminate; subst; auto; lia).
  - destruct (sigismember set (w_ret t) =? 0); cbn; intuition (try discriminate; subst; auto; lia).
Qed.

Lemma count_app p a b : count p (a ++ b) = (count p a + count p b)%nat.
Proof. unfold count. now rewrite filter_app, app_length. Qed.

Lemma wait_loop_fini_zero clients set ts : 
  count is_fini (fst (wait_loop clients set ts true)) = 0%nat.
Proof.
  induction ts as [|t r IH]; [reflexivity|]. cbn [wait_loop].
  pose proof (helper_fini clients set t true) as H.
  destruct (helper clients set t true) as [[evs fs'] again].
  destruct H as (_ & _ & _ & H & _). destruct (H eq_refl) as [-> H0].
  destruct again; [|exact H0].
  destruct (wait_loop clients set r true) as [a b]. cbn [fst] in *.
  rewrite count_app. lia.
Qed.

Lemma wait_loop_fini clients set ts : forall fs,
  (count is_fini (fst (wait_loop clients set ts fs)) <= 1)%nat.
Proof.
  induction ts as [|t r IH]; intros fs; [cbn; lia|]. cbn [wait_loop].
  pose proof (helper_fini clients set t fs) as H.
  destruct (helper clients set t fs) as [[evs fs'] again].
  destruct H as (H1 & _ & H2 & _).
  destruct again; [|exact H1].
  assert (Hz := wait_loop_fini_zero clients set r).
  specialize (IH fs').
  destruct (count is_fini evs) as [|n] eqn:E.
  - destruct (wait_loop clients set r fs') as [a b]. cbn [fst] in *. rewrite count_app. lia.
  - assert (n = 0%nat) by lia. subst n. destruct (H2 eq_refl) as [_ ->].
    destruct (wait_loop clients set r true) as [a b]. cbn [fst] in *. rewrite count_app. lia.
Qed.

(** The client handler is called at most once per kernel answer. *)
Fixpoint used (clients : Z -> option N) (set : sigset) (ts : list turn) (fs : bool) : nat :=
  match ts with
  | [] => 0
  | t :: r => if restarts (classify clients set fs t)
              then S (used clients set r (begun_after clients set fs t)) else 1
  end.

Lemma wait_loop_client clients set ts : forall fs,
  (count is_client (fst (wait_loop clients set ts fs)) <= length ts)%nat.
Proof.
  induction ts as [|t r IH]; intros fs; [cbn; lia|]. cbn [wait_loop length].
  pose proof (helper_fini clients set t fs) as H.
  destruct (helper clients set t fs) as [[evs fs'] again].
  destruct H as (_ & H1 & _).
  destruct again; cbn [fst]; [|lia].
  specialize (IH fs'). destruct (wait_loop clients set r fs') as [a b]. cbn [fst] in *.
  rewrite count_app. lia.
Qed.

(** Every client event names a signal the kernel returned and its registered
    handler; together with the bound above: each answer is offered once. *)
Lemma wait_loop_events clients set ts : forall fs h s,
  In (WClient h s) (fst (wait_loop clients set ts fs)) ->
  clients s = Some h /\ exists t, In t ts /\ w_ret t = s.
Proof.
  induction ts as [|t r IH]; intros fs h s; [cbn; tauto|]. cbn [wait_loop].
  destruct (helper clients set t fs) as [[evs fs'] again] eqn:E.
  assert (HE : In (WClient h s) evs -> clients s = Some h /\ w_ret t = s).
  { unfold helper in E. destruct (w_ret t <? 0); [inversion E; subst; cbn; tauto|].
    destruct (is_shootdown t (fs || w_fini t)).
    { inversion E; subst. cbn. intuition discriminate. }
    rewrite offer_spec in E.
    destruct (clients (w_ret t)) as [h'|] eqn:C.
    - destruct ((1 <=? w_ret t) && (w_ret t <? 65)).
      + assert (evs = [WClient h' (w_ret t)]) as ->
          by (destruct (w_client t =? 0); [congruence|];
              destruct (sigismember set (w_ret t) =? 0); congruence).
        cbn. intros [H|[]]. inversion H; subst. auto.
      + assert (evs = []) as -> by (destruct (sigismember set (w_ret t) =? 0); congruence).
        cbn; tauto.
    - assert (evs = []) as -> by (destruct (sigismember set (w_ret t) =? 0); congruence).
      cbn; tauto. }
  destruct again.
  - specialize (IH fs' h s). destruct (wait_loop clients set r fs') as [a b].
    cbn [fst] in *. intros H. apply in_app_or in H. destruct H as [H|H].
    + destruct (HE H) as [H1 H2]. split; [exact H1|]. exists t. split; [now left|exact H2].
    + destruct (IH H) as [H1 [t' [H2 H3]]]. split; [exact H1|]. exists t'. split; [now right|exact H3].
  - cbn [fst]. intros H. destruct (HE H) as [H1 H2]. split; [exact H1|].
    exists t. split; [now left|exact H2].
Qed.

(** What the ending turn is. *)
Lemma first_for_app_is clients set ts : forall fs t,
  first_for_app clients set fs ts = Some t ->
  In t ts /\
  ((w_ret t < 0 /\ w_errno t <> EINTR) \/
   (0 <= w_ret t /\ (1 <= w_ret t < 65 -> mem (w_ret t) set = true) /\
    (1 <= w_ret t < 65 -> clients (w_ret t) <> None -> w_client t <> 0))).
Proof.
  induction ts as [|t r IH]; intros fs t'; [discriminate|].
  cbn [first_for_app]. destruct (restarts (classify clients set fs t)) eqn:E.
  - intros H. destruct (IH _ _ H) as [H1 H2]. split; [now right|exact H2].
  - intros H. inversion H; subst t'. split; [now left|].
    unfold classify in E.
    destruct (w_ret t <? 0) eqn:E0.
    + left. split; [lia|]. destruct (Z.eqb_spec (w_errno t) EINTR); [discriminate|assumption].
    + right. split; [lia|].
      destruct (_ && negb (w_block t)); [discriminate|].
      destruct (clients (w_ret t)).
      * destruct ((1 <=? w_ret t) && (w_ret t <? 65)) eqn:ER; cbn [andb] in E.
        -- destruct (w_client t =? 0) eqn:EC; [discriminate|].
           destruct (mem (w_ret t) set); [|discriminate]. split; [auto|]. intros; lia.
        -- split; intros; lia.
      * destruct ((1 <=? w_ret t) && (w_ret t <? 65)) eqn:ER; cbn [andb] in E.
        -- destruct (mem (w_ret t) set); [|discriminate]. split; [auto|]. congruence.
        -- split; intros; lia.
Qed.
