(** Proofs on several threads in system(). *)
From Verif Require Import SysNestSpec SystemProofs.

Lemma upd_if {A} (m : Z -> A) k v k' : upd m k v k' = if k' =? k then v else m k'.
Proof. reflexivity. Qed.

Definition all_sane (o : os) (s : sysall) : Prop := forall t, sane o (mkkern (y_acts s) (y_mask s t)).

Definition kept_int (l : sysloc) : option act :=
  match l with L2 a | L3 a _ | LRun a _ _ | L4 a _ _ => Some a | _ => None end.
Definition kept_quit (l : sysloc) : option act :=
  match l with L3 _ a | LRun _ a _ | L4 _ a _ | L5 a _ => Some a | _ => None end.
Definition clean (o : os) (a : act) : Prop := N.land (sa_mask a) (k_noblock o) = 0%N.
Definition put (o : os) (a : act) : act := mkact (sa_handler a) (sa_flags a) (N.ldiff (sa_mask a) (k_noblock o)).
Lemma put_clean o a : clean o a -> put o a = a.
Proof.
  intros H. unfold put. destruct a as [h f m]. unfold clean in H. cbn in *. f_equal.
  apply N.bits_inj. intros i. rewrite N.ldiff_spec. pose proof (f_equal (fun x => N.testbit x i) H) as X. cbv beta in X.
  rewrite N.land_spec, N.bits_0 in X. destruct (N.testbit m i), (N.testbit (k_noblock o) i); cbn in *; congruence.
Qed.
Lemma put_ign o : put o ign_act = ign_act.
Proof. apply put_clean. reflexivity. Qed.

(** What one step does to the dispositions. *)
Lemma acts_step o s t sig : k_reject o SIGINT = false -> k_reject o SIGQUIT = false ->
  y_acts (y_step o s t) sig =
  match y_loc s t with
  | L1 => if sig =? SIGINT then ign_act else y_acts s sig
  | L2 _ => if sig =? SIGQUIT then ign_act else y_acts s sig
  | L4 a _ _ => if sig =? SIGINT then put o a else y_acts s sig
  | L5 a _ => if sig =? SIGQUIT then put o a else y_acts s sig
  | _ => y_acts s sig
  end.
Proof.
  intros I Q. unfold y_step. destruct (y_loc s t); cbn [sys_step];
    rewrite ?(sa_int o _ _ I), ?(sa_quit o _ _ Q); cbn; rewrite ?upd_if; try reflexivity;
    destruct (sig =? _); try reflexivity; apply (put_ign o).
Qed.
Lemma loc_step o s t : k_reject o SIGINT = false -> k_reject o SIGQUIT = false ->
  y_loc (y_step o s t) t =
  match y_loc s t with
  | L1 => L2 (y_acts s SIGINT) | L2 a => L3 a (y_acts s SIGQUIT) | L3 a b => LRun a b (y_mask s t)
  | LRun a b m => L4 a b m | L4 _ b m => L5 b m | L5 _ m => L6 m | L6 _ => LDone | LDone => LDone
  end.
Proof.
  intros I Q. unfold y_step. destruct (y_loc s t) eqn:E; cbn [sys_step];
    rewrite ?(sa_int o _ _ I), ?(sa_quit o _ _ Q); cbn; rewrite ?upd_same; try reflexivity. exact E.
Qed.
Lemma loc_other o s t u : u <> t -> y_loc (y_step o s t) u = y_loc s u /\ y_mask (y_step o s t) u = y_mask s u.
Proof.
  intros N. unfold y_step. destruct (sys_step o (y_loc s t) (y_acts s) (y_mask s t)) as [[[l a] m]|]; cbn; [|auto].
  now rewrite !upd_other by auto.
Qed.
Lemma mask_step o s t : k_reject o SIGINT = false -> k_reject o SIGQUIT = false ->
  y_mask (y_step o s t) t =
  match y_loc s t with
  | L3 _ _ => N.ldiff (N.lor (y_mask s t) sigchld_set) (k_noblock o)
  | L6 m => N.ldiff m (k_noblock o)
  | _ => y_mask s t
  end.
Proof.
  intros I Q. unfold y_step. destruct (y_loc s t) eqn:E; cbn [sys_step];
    rewrite ?(sa_int o _ _ I), ?(sa_quit o _ _ Q); cbn; rewrite ?upd_same; reflexivity.
Qed.

(** One signal: the values kept by the nested calls. *)
Section One.
  Variables (o : os) (is_set : sysloc -> bool) (kept : sysloc -> option act) (sig : Z).
  Hypothesis OPENS : forall s t, is_set (y_loc s t) = false -> is_set (y_loc (y_step o s t) t) = true ->
    kept (y_loc (y_step o s t) t) = Some (y_acts s sig) /\ y_acts (y_step o s t) sig = ign_act.
  Hypothesis CLOSES : forall s t a, kept (y_loc s t) = Some a -> is_set (y_loc (y_step o s t) t) = false ->
    y_acts (y_step o s t) sig = put o a.
  Hypothesis STAYS : forall s t, is_set (y_loc s t) = is_set (y_loc (y_step o s t) t) ->
    kept (y_loc (y_step o s t) t) = kept (y_loc s t) /\ y_acts (y_step o s t) sig = y_acts s sig.

  Fixpoint chain (s : sysall) (a0 : act) (st : list Z) (cur : act) : Prop :=
    match st with
    | [] => cur = a0
    | t :: r => cur = ign_act /\ exists a, kept (y_loc s t) = Some a /\ chain s a0 r a
    end.
  Definition stacked (s : sysall) (a0 : act) (st : list Z) : Prop :=
    NoDup st /\ (forall t, In t st <-> is_set (y_loc s t) = true) /\ chain s a0 st (y_acts s sig).

  Lemma chain_ext s s' a0 st : (forall t, In t st -> kept (y_loc s' t) = kept (y_loc s t)) -> forall cur, chain s a0 st cur -> chain s' a0 st cur.
  Proof.
    induction st as [|t r IH]; intros H cur C; [exact C|]. destruct C as (E & a & K & C). split; [exact E|]. exists a.
    split; [rewrite H by (now left); exact K|]. apply IH; [intros u I; apply H; now right|exact C].
  Qed.
  Lemma chain_val s a0 st cur : chain s a0 st cur -> cur = a0 \/ cur = ign_act.
  Proof. destruct st; cbn; [auto|intros [E _]; auto]. Qed.

  Lemma nested_run : forall sch s a0 st, clean o a0 -> stacked s a0 st -> nested o is_set st s sch = true ->
    exists st', stacked (y_run o s sch) a0 st'.
  Proof.
    induction sch as [|t r IH]; intros s a0 st CL (ND & MEM & CH) N; [exists st; repeat split; auto; apply MEM|].
    cbn [nested] in N. change (y_run o s (t :: r)) with (y_run o (y_step o s t) r).
    assert (OT : forall u, u <> t -> y_loc (y_step o s t) u = y_loc s u) by (intros u NE; now apply loc_other).
    destruct (is_set (y_loc (y_step o s t) t)) eqn:A; destruct (is_set (y_loc s t)) eqn:B.
    - destruct (STAYS s t) as [K E]; [congruence|]. apply (IH _ a0 st); auto. split; [exact ND|]. split.
      + intros u. destruct (Z.eq_dec u t) as [->|NE]; [rewrite A; rewrite (MEM t), B; tauto|rewrite (OT u NE); apply MEM].
      + rewrite E. apply (chain_ext s); [|exact CH]. intros u _. destruct (Z.eq_dec u t) as [->|NE]; [exact K|now rewrite OT].
    - destruct (OPENS s t B A) as [K E]. apply (IH _ a0 (t :: st)); auto. 
      assert (NI : ~ In t st) by (rewrite MEM, B; discriminate).
      split; [constructor; assumption|]. split.
      + intros u. destruct (Z.eq_dec u t) as [->|NE]; [rewrite A; cbn; tauto|]. rewrite (OT u NE), <- MEM. cbn. split; [intros [X|X]; congruence|auto].
      + cbn [chain]. split; [exact E|]. exists (y_acts s sig). split; [exact K|].
        apply (chain_ext s); [|exact CH]. intros u I. rewrite OT; [reflexivity|]. intros ->. contradiction.
    - destruct st as [|u st']; [discriminate N|]. apply andb_prop in N. destruct N as [EQ N]. apply Z.eqb_eq in EQ. subst u.
      destruct CH as (_ & a & K & CH). inversion ND as [|? ? NI ND']; subst.
      apply (IH _ a0 st'); auto. split; [exact ND'|]. split.
      + intros u. destruct (Z.eq_dec u t) as [->|NE]; [rewrite A; split; [intros X; contradiction|discriminate]|].
        rewrite (OT u NE), <- MEM. cbn. split; [auto|intros [X|X]; congruence].
      + rewrite (CLOSES s t a K A). rewrite put_clean by (destruct (chain_val _ _ _ _ CH) as [-> | ->]; [exact CL|reflexivity]).
        apply (chain_ext s); [|exact CH]. intros u I. rewrite OT; [reflexivity|]. intros ->. contradiction.
    - destruct (STAYS s t) as [K E]; [congruence|]. apply (IH _ a0 st); auto. split; [exact ND|]. split.
      + intros u. destruct (Z.eq_dec u t) as [->|NE]; [rewrite A; rewrite (MEM t), B; tauto|rewrite (OT u NE); apply MEM].
      + rewrite E. apply (chain_ext s); [|exact CH]. intros u _. destruct (Z.eq_dec u t) as [->|NE]; [exact K|now rewrite OT].
  Qed.
  Lemma nested_back sch s : clean o (y_acts s sig) -> (forall t, is_set (y_loc s t) = false) -> nested o is_set [] s sch = true ->
    (forall t, is_set (y_loc (y_run o s sch) t) = false) -> y_acts (y_run o s sch) sig = y_acts s sig.
  Proof.
    intros CL Z0 N Z1. destruct (nested_run sch s (y_acts s sig) [] CL) as (st & _ & MEM & CH); [|exact N|].
    - split; [constructor|]. split; [intros t; rewrite Z0; split; [intros []|discriminate]|reflexivity].
    - destruct st as [|t r]; [exact CH|]. exfalso. pose proof (proj1 (MEM t) (or_introl eq_refl)) as X. rewrite Z1 in X. discriminate.
  Qed.
End One.

Lemma back_int o sch s : k_reject o SIGINT = false -> k_reject o SIGQUIT = false -> clean o (y_acts s SIGINT) ->
  (forall t, int_set (y_loc s t) = false) -> nested o int_set [] s sch = true -> (forall t, int_set (y_loc (y_run o s sch) t) = false) ->
  y_acts (y_run o s sch) SIGINT = y_acts s SIGINT.
Proof.
  intros I Q. apply (nested_back o int_set kept_int SIGINT).
  - intros s0 t A B. rewrite loc_step in B |- * by assumption. rewrite acts_step by assumption. destruct (y_loc s0 t); cbn in *; try discriminate; auto.
  - intros s0 t a K B. rewrite loc_step in B by assumption. rewrite acts_step by assumption. destruct (y_loc s0 t); cbn in *; try discriminate. now inversion K.
  - intros s0 t E. rewrite loc_step in E |- * by assumption. rewrite acts_step by assumption. destruct (y_loc s0 t); cbn in *; try discriminate; auto.
Qed.
Lemma back_quit o sch s : k_reject o SIGINT = false -> k_reject o SIGQUIT = false -> clean o (y_acts s SIGQUIT) ->
  (forall t, quit_set (y_loc s t) = false) -> nested o quit_set [] s sch = true -> (forall t, quit_set (y_loc (y_run o s sch) t) = false) ->
  y_acts (y_run o s sch) SIGQUIT = y_acts s SIGQUIT.
Proof.
  intros I Q. apply (nested_back o quit_set kept_quit SIGQUIT).
  - intros s0 t A B. rewrite loc_step in B |- * by assumption. rewrite acts_step by assumption. destruct (y_loc s0 t); cbn in *; try discriminate; auto.
  - intros s0 t a K B. rewrite loc_step in B by assumption. rewrite acts_step by assumption. destruct (y_loc s0 t); cbn in *; try discriminate. now inversion K.
  - intros s0 t E. rewrite loc_step in E |- * by assumption. rewrite acts_step by assumption. destruct (y_loc s0 t); cbn in *; try discriminate; auto.
Qed.
Lemma back_rest o sig : k_reject o SIGINT = false -> k_reject o SIGQUIT = false -> sig <> SIGINT -> sig <> SIGQUIT ->
  forall sch s, y_acts (y_run o s sch) sig = y_acts s sig.
Proof.
  intros I Q N1 N2. induction sch as [|t r IH]; intros s; [reflexivity|]. change (y_run o s (t :: r)) with (y_run o (y_step o s t) r).
  rewrite IH, acts_step by assumption. apply Z.eqb_neq in N1, N2. rewrite N1, N2. now destruct (y_loc s t).
Qed.

(** Masks: the thread's own value comes back. *)
Definition own_mask (m0 : sigset) (l : sysloc) (m : sigset) : Prop :=
  match l with L1 | L2 _ | L3 _ _ | LDone => m = m0 | LRun _ _ x | L4 _ _ x | L5 _ x | L6 x => x = m0 end.
Lemma back_mask o m0 t : k_reject o SIGINT = false -> k_reject o SIGQUIT = false -> N.land m0 (k_noblock o) = 0%N ->
  forall sch s, own_mask m0 (y_loc s t) (y_mask s t) -> own_mask m0 (y_loc (y_run o s sch) t) (y_mask (y_run o s sch) t).
Proof.
  intros I Q CL. induction sch as [|u r IH]; intros s H; [exact H|]. change (y_run o s (u :: r)) with (y_run o (y_step o s u) r). apply IH.
  destruct (Z.eq_dec t u) as [->|N].
  - rewrite loc_step, mask_step by assumption. destruct (y_loc s u); cbn in *; auto. subst om.
    pose proof (put_clean o (mkact HIgn 0 m0) CL) as X. unfold put in X. cbn in X. injection X as X. exact X.
  - destruct (loc_other o s u t N) as [-> ->]. exact H.
Qed.

Lemma all_back o s sch : all_sane o s -> idle s -> nested o int_set [] s sch = true -> nested o quit_set [] s sch = true -> idle (y_run o s sch) ->
  (forall sig, y_acts (y_run o s sch) sig = y_acts s sig) /\ (forall t, y_mask (y_run o s sch) t = y_mask s t).
Proof.
  intros SA ID N1 N2 ID'. destruct (SA 0) as (_ & AM & I & Q).
  assert (ZI : forall s, idle s -> forall t, int_set (y_loc s t) = false) by (intros z J t; destruct (J t) as [-> | ->]; reflexivity).
  assert (ZQ : forall s, idle s -> forall t, quit_set (y_loc s t) = false) by (intros z J t; destruct (J t) as [-> | ->]; reflexivity).
  split.
  - intros sig. destruct (Z.eq_dec sig SIGINT) as [->|A]; [apply back_int; auto; apply AM|].
    destruct (Z.eq_dec sig SIGQUIT) as [->|B]; [apply back_quit; auto; apply AM|]. now apply back_rest.
  - intros t. pose proof (back_mask o (y_mask s t) t I Q (proj1 (SA t)) sch s) as X.
    assert (H0 : own_mask (y_mask s t) (y_loc s t) (y_mask s t)) by (destruct (ID t) as [-> | ->]; reflexivity).
    specialize (X H0). destruct (ID' t) as [E|E]; rewrite E in X; exact X.
Qed.

(** Cancellation that does not reach a waiting thread changes nothing. *)
Definition same_all (s s' : sysall) : Prop := y_acts s = y_acts s' /\ (forall t, y_loc s t = y_loc s' t) /\ (forall t, y_mask s t = y_mask s' t).
Lemma same_step o s s' t : same_all s s' -> same_all (y_step o s t) (y_step o s' t).
Proof.
  intros (A & L & M). unfold y_step. rewrite <- A, <- L, <- M. destruct (sys_step o (y_loc s t) (y_acts s) (y_mask s t)) as [[[l a] m]|].
  - repeat split; cbn; intros u; rewrite !upd_if; destruct (u =? t); auto.
  - repeat split; auto.
Qed.
Lemma unhurt_run o : forall l s s', same_all s s' -> unhurt o s l = true -> same_all (x_run o s l) (y_run o s' (steps_of l)).
Proof.
  induction l as [|i r IH]; intros s s' SM U; [exact SM|]. cbn [unhurt] in U. apply andb_prop in U. destruct U as [U1 U2].
  change (x_run o s (i :: r)) with (x_run o (x_step o s i) r). destruct i as [t|t].
  - change (steps_of (Go t :: r)) with (t :: steps_of r). change (y_run o s' (t :: steps_of r)) with (y_run o (y_step o s' t) (steps_of r)).
    apply IH; [apply same_step, SM|exact U2].
  - change (steps_of (Cancel t :: r)) with (steps_of r). apply IH; [|exact U2]. destruct SM as (A & L & M). repeat split; cbn; auto.
    intros u. rewrite upd_if. destruct (Z.eqb_spec u t) as [->|]; [|apply L]. rewrite <- L. destruct (y_loc s t); try reflexivity; discriminate U1.
Qed.

(** After a cancellation inside waitpid. *)
Definition ignoring (s : sysall) : Prop :=
  y_acts s SIGINT = ign_act /\ y_acts s SIGQUIT = ign_act /\
  forall t, (forall a, kept_int (y_loc s t) = Some a -> a = ign_act) /\ (forall a, kept_quit (y_loc s t) = Some a -> a = ign_act).
Lemma ignoring_step o s i : k_reject o SIGINT = false -> k_reject o SIGQUIT = false -> ignoring s -> ignoring (x_step o s i).
Proof.
  intros I Q (A & B & C). destruct i as [t|t]; cbn [x_step].
  - pose proof (C t) as [K1 K2]. split; [|split].
    + rewrite acts_step by assumption. destruct (y_loc s t); cbn in *; auto. rewrite (K1 _ eq_refl). apply put_ign.
    + rewrite acts_step by assumption. destruct (y_loc s t); cbn in *; auto. rewrite (K2 _ eq_refl). apply put_ign.
    + intros u. destruct (Z.eq_dec u t) as [->|N]; [|rewrite (proj1 (loc_other o s t u N)); apply C].
      rewrite loc_step by assumption. destruct (y_loc s t); cbn in *; (split; intros a0 X; try discriminate X);
        first [injection X as <-; auto; fail|apply K1; exact X|apply K2; exact X].
  - split; [exact A|]. split; [exact B|]. intros u. cbn. rewrite upd_if. destruct (u =? t) eqn:E; [|apply C].
    apply Z.eqb_eq in E. subst u. destruct (C t) as [K1 K2]. destruct (y_loc s t); cbn in *; split; intros a0 X; try discriminate X; auto.
Qed.
Lemma ignoring_run o : k_reject o SIGINT = false -> k_reject o SIGQUIT = false -> forall l s, ignoring s -> ignoring (x_run o s l).
Proof. intros I Q. induction l as [|i r IH]; intros s H; [exact H|]. apply (IH (x_step o s i)). now apply ignoring_step. Qed.

Lemma cancel_stays o s t l : all_sane o s -> idle s -> y_loc s t = L1 ->
  let s1 := x_run o s [Go t; Go t; Go t; Cancel t] in
  y_loc s1 t = LDone /\ y_mask s1 t = N.ldiff (N.lor (y_mask s t) sigchld_set) (k_noblock o) /\ ignoring (x_run o s1 l).
Proof.
  intros SA ID L1t. destruct (SA t) as (_ & _ & I & Q). cbv zeta.
  set (s1 := y_step o s t). set (s2 := y_step o s1 t). set (s3 := y_step o s2 t).
  change (x_run o s [Go t; Go t; Go t; Cancel t]) with (x_step o s3 (Cancel t)).
  assert (E1 : y_loc s1 t = L2 (y_acts s SIGINT)) by (unfold s1; rewrite loc_step, L1t by assumption; reflexivity).
  assert (E2 : y_loc s2 t = L3 (y_acts s SIGINT) (y_acts s1 SIGQUIT)) by (unfold s2; rewrite loc_step, E1 by assumption; reflexivity).
  assert (E3 : y_loc s3 t = LRun (y_acts s SIGINT) (y_acts s1 SIGQUIT) (y_mask s2 t)) by (unfold s3; rewrite loc_step, E2 by assumption; reflexivity).
  assert (M2 : y_mask s2 t = y_mask s t) by (unfold s2; rewrite mask_step, E1 by assumption; unfold s1; rewrite mask_step, L1t by assumption; reflexivity).
  split; [cbn; rewrite upd_same, E3; reflexivity|]. split.
  - change (y_mask s3 t = N.ldiff (N.lor (y_mask s t) sigchld_set) (k_noblock o)).
    unfold s3. rewrite mask_step, E2, M2 by assumption. reflexivity.
  - apply ignoring_run; auto. split; [|split].
    + change (y_acts s3 SIGINT = ign_act). unfold s3. rewrite acts_step, E2 by assumption. unfold s2. rewrite acts_step, E1 by assumption.
      unfold s1. rewrite acts_step, L1t by assumption. reflexivity.
    + change (y_acts s3 SIGQUIT = ign_act). unfold s3. rewrite acts_step, E2 by assumption. unfold s2. rewrite acts_step, E1 by assumption. reflexivity.
    + intros u. cbn [x_step y_loc]. rewrite upd_if. destruct (Z.eqb_spec u t) as [->|N]; [rewrite E3; cbn; split; intros a0 X; discriminate X|].
      unfold s3, s2, s1. rewrite !(proj1 (loc_other o _ t u N)). destruct (ID u) as [-> | ->]; cbn; split; intros a0 X; discriminate X.
Qed.
