From Verif Require Import LockModel LockSpec.

(** ** Spinlock *)

Definition in_cs (p : lpc) : bool := match p with PHeld | PStore => true | _ => false end.

Definition lock_inv (s : lstate) : Prop :=
  (l_val s = 0 /\ forall t, in_cs (l_pc s t) = false) \/
  (l_val s = 1 /\ exists h, forall t, in_cs (l_pc s t) = true <-> t = h).

Lemma lock_inv_init : lock_inv lock_init.
Proof. left. split; reflexivity. Qed.

Ltac upd_cases t :=
  unfold upd in *; destruct (Z.eqb_spec t _) as [->|?].

Lemma lock_inv_step s t c s' e : lock_inv s -> lock_step s t c = Some (s', e) -> lock_inv s'.
Proof.
  assert (Same : forall p q, lock_inv s -> l_pc s t = p -> in_cs p = in_cs q ->
    lock_inv (mklstate (l_val s) (upd (l_pc s) t q))).
  { intros p q [[H0 H]|[H1 [h H]]] Hp Hq.
    - left. split; [exact H0|]. intros x. simpl. unfold upd.
      destruct (Z.eqb_spec x t) as [->|N]; [rewrite <- Hq, <- Hp|]; apply H.
    - right. split; [exact H1|]. exists h. intros x. simpl. unfold upd.
      destruct (Z.eqb_spec x t) as [->|N]; [rewrite <- Hq, <- Hp|]; apply H. }
  assert (Take : l_val s = 0 -> lock_inv s -> lock_inv (mklstate 1 (upd (l_pc s) t PHeld))).
  { intros Hv [[H0 H]|[H1 _]]; [|lia]. right. split; [reflexivity|]. exists t. intros x. simpl. unfold upd.
    destruct (Z.eqb_spec x t) as [->|N]; [tauto|]. rewrite H. split; [discriminate|contradiction]. }
  intros Hi Hs. unfold lock_step in Hs.
  destruct (l_pc s t) eqn:Ep, c; try discriminate.
  - injection Hs as <- _. now apply (Same PIdle PTest).
  - injection Hs as <- _. now apply (Same PIdle PTry).
  - destruct (Z.eqb_spec (l_val s) 0); injection Hs as <- _; [now apply (Same PTest PCas)|exact Hi].
  - destruct (Z.eqb_spec (l_val s) 0); injection Hs as <- _; [now apply Take|now apply (Same PCas PTest)].
  - destruct (Z.eqb_spec (l_val s) 0); injection Hs as <- _; [now apply Take|now apply (Same PTry PIdle)].
  - injection Hs as <- _. now apply (Same PHeld PStore).
  - injection Hs as <- _. left. split; [reflexivity|]. intros x. simpl. unfold upd.
    destruct (Z.eqb_spec x t) as [->|N]; [reflexivity|].
    destruct Hi as [[_ H]|[_ [h H]]]; [apply H|].
    destruct (in_cs (l_pc s x)) eqn:E; [|reflexivity]. exfalso. apply N.
    apply H in E. assert (in_cs (l_pc s t) = true) by now rewrite Ep. apply H in H0. congruence.
Qed.

Lemma lock_inv_run : forall sch s s' es, lock_inv s -> lock_run s sch = (s', es) -> lock_inv s'.
Proof.
  induction sch as [|[t c] r IH]; intros s s' es Hi H; simpl in H; [now injection H as <- _|].
  destruct (lock_step s t c) as [[s1 e]|] eqn:E; [|now apply (IH s s' es)].
  destruct (lock_run s1 r) as [s2 es2] eqn:E2. injection H as <- _.
  apply (IH s1 s2 es2); [now apply (lock_inv_step s t c s1 e)|exact E2].
Qed.

(** The event counts say who is inside. *)
Lemma counts_cons t p u e es :
  counts_as t p ((u, e) :: es) = (if (u =? t) && p e then 1 else 0) + counts_as t p es.
Proof. unfold counts_as. simpl. destruct ((u =? t) && p e); simpl length; lia. Qed.

Lemma lock_counts : forall sch s s' es t, lock_run s sch = (s', es) ->
  counts_as t acquires es - counts_as t releases es =
  (if in_cs (l_pc s' t) then 1 else 0) - (if in_cs (l_pc s t) then 1 else 0).
Proof.
  induction sch as [|[u c] r IH]; intros s s' es t H; simpl in H.
  - injection H as <- <-. unfold counts_as. simpl. lia.
  - destruct (lock_step s u c) as [[s1 e]|] eqn:E; [|now apply (IH s s' es)].
    destruct (lock_run s1 r) as [s2 es2] eqn:E2. injection H as <- <-.
    specialize (IH s1 s2 es2 t E2). rewrite !counts_cons.
    assert (K : (if (u =? t) && acquires e then 1 else 0) - (if (u =? t) && releases e then 1 else 0) =
                (if in_cs (l_pc s1 t) then 1 else 0) - (if in_cs (l_pc s t) then 1 else 0)).
    { unfold lock_step in E.
      assert (P : forall q, l_pc (mklstate (l_val s) (upd (l_pc s) u q)) t = (if t =? u then q else l_pc s t)) by reflexivity.
      destruct (l_pc s u) eqn:Ep, c; try discriminate;
        try (destruct (l_val s =? 0));
        injection E as <- <-; cbn [l_pc acquires releases]; unfold upd;
        destruct (Z.eqb_spec t u) as [->|N];
        rewrite ?Z.eqb_refl, ?Ep; cbn [in_cs andb]; try lia;
        (replace (u =? t) with false by (symmetry; apply Z.eqb_neq; congruence)); cbn [andb]; lia. }
    lia.
Qed.

(** ** Compare-and-swap *)

(** The marks: at the load that sees another value, at the store that succeeds. *)
Definition marks (s : cstate) (t : Z) (a : cact) : list cev :=
  match m_pc s t, a with
  | CLoad old new, ActGo _ => if m_val s =? old then [] else [VLin t old new (m_val s)]
  | CCond old new prev, ActGo spurious =>
      if m_res s t && negb spurious then [VLin t old new prev] else []
  | _, _ => []
  end.

Fixpoint mark_run (s : cstate) (sch : list (Z * cact)) : list cev :=
  match sch with
  | [] => []
  | (t, a) :: r =>
      match cas_step s t a with
      | Some (s', e) => (e ++ marks s t a) ++ mark_run s' r
      | None => mark_run s r
      end
  end.

Lemma mark_external : forall sch s, external (mark_run s sch) = snd (cas_run s sch).
Proof.
  induction sch as [|[t a] r IH]; intros s; [reflexivity|]. simpl.
  destruct (cas_step s t a) as [[s' e]|] eqn:E; [|apply IH].
  specialize (IH s'). destruct (cas_run s' r) as [s2 es]. simpl in *.
  unfold external in *. rewrite !filter_app, IH.
  assert (A : filter (fun e => negb (is_mark e)) e = e).
  { unfold cas_step in E. destruct (m_pc s t), a; try discriminate;
      try (destruct (m_res s t && negb spurious)); injection E as <- <-; reflexivity. }
  assert (B : filter (fun e => negb (is_mark e)) (marks s t a) = []).
  { unfold marks. destruct (m_pc s t), a; try reflexivity.
    - now destruct (m_val s =? old).
    - now destruct (m_res s t && negb spurious). }
  rewrite A, B, app_nil_r. reflexivity.
Qed.

(** A thread about to store-conditionally has seen its expected value, and while it
    still holds the reservation the word has that value. *)
Definition cas_inv (s : cstate) : Prop :=
  forall t, match m_pc s t with
            | CCond old new prev => prev = old /\ (m_res s t = true -> m_val s = prev)
            | _ => True
            end.

Lemma cas_inv_init v : cas_inv (cas_init v).
Proof. intros t. exact I. Qed.

Lemma cas_inv_step s t a s' e : cas_inv s -> cas_step s t a = Some (s', e) -> cas_inv s'.
Proof.
  intros Hi Hs x. unfold cas_step in Hs.
  assert (Lose : cas_inv (mkcstate (m_val s) (upd (m_res s) t false) (m_pc s))).
  { intros y. simpl. specialize (Hi y). destruct (m_pc s y); auto.
    destruct Hi as [H1 H2]. split; [exact H1|]. unfold upd. destruct (y =? t); [discriminate|exact H2]. }
  specialize (Hi x).
  destruct (m_pc s t) eqn:Ep, a; try discriminate.
  all: try (injection Hs as <- _; simpl; exact (Lose x)).
  - injection Hs as <- _. simpl. unfold upd. destruct (Z.eqb_spec x t) as [->|N]; [exact I|exact Hi].
  - injection Hs as <- _. simpl. destruct (m_pc s x); auto. destruct Hi as [H1 _].
    split; [exact H1|discriminate].
  - injection Hs as <- _. simpl. unfold upd. destruct (Z.eqb_spec x t) as [->|N]; [|exact Hi].
    destruct (Z.eqb_spec (m_val s) old) as [Eo|No]; [|exact I]. split; auto.
  - destruct (m_res s t && negb spurious); injection Hs as <- _; simpl; unfold upd;
      destruct (Z.eqb_spec x t) as [->|N]; try exact I.
    + destruct (m_pc s x); auto. destruct Hi as [H1 _]. split; [exact H1|discriminate].
    + exact Hi.
  - injection Hs as <- _. simpl. unfold upd. destruct (Z.eqb_spec x t) as [->|N]; [exact I|exact Hi].
Qed.

Lemma atomic_ok_app v a b : atomic_ok v (a ++ b) <-> atomic_ok v a /\ atomic_ok (atomic_val v a) b.
Proof.
  revert v. induction a as [|e a IH]; intros v; simpl; [tauto|].
  destruct e; try apply IH. rewrite IH. tauto.
Qed.
Lemma atomic_val_app v a b : atomic_val v (a ++ b) = atomic_val (atomic_val v a) b.
Proof. revert v. induction a as [|e a IH]; intros v; simpl; [reflexivity|]. destruct e; apply IH. Qed.

Lemma step_atomic s t a s' e : cas_inv s -> cas_step s t a = Some (s', e) ->
  atomic_ok (m_val s) (e ++ marks s t a) /\ atomic_val (m_val s) (e ++ marks s t a) = m_val s'.
Proof.
  intros Hi Hs. unfold cas_step in Hs. unfold marks. specialize (Hi t).
  destruct (m_pc s t), a; try discriminate; try (injection Hs as <- <-; simpl; now auto).
  - injection Hs as <- <-. simpl. destruct (Z.eqb_spec (m_val s) old) as [Eo|No]; simpl; [auto|].
    destruct (Z.eqb_spec (m_val s) old); [contradiction|auto].
  - destruct (m_res s t) eqn:Er; simpl in Hs |- *; [|injection Hs as <- <-; simpl; auto].
    destruct spurious; simpl in Hs |- *; injection Hs as <- <-; simpl; auto.
    destruct Hi as [-> H2]. rewrite (H2 eq_refl), Z.eqb_refl. auto.
Qed.

Lemma run_atomic : forall sch s, cas_inv s ->
  atomic_ok (m_val s) (mark_run s sch) /\
  atomic_val (m_val s) (mark_run s sch) = m_val (fst (cas_run s sch)).
Proof.
  induction sch as [|[t a] r IH]; intros s Hi; simpl; [auto|].
  destruct (cas_step s t a) as [[s' e]|] eqn:E; [|now apply IH].
  destruct (step_atomic s t a s' e Hi E) as [H1 H2].
  destruct (IH s' (cas_inv_step s t a s' e Hi E)) as [H3 H4].
  rewrite (atomic_ok_app _ (e ++ marks s t a)), (atomic_val_app _ (e ++ marks s t a)), H2. destruct (cas_run s' r) as [s2 es]. simpl in *. auto.
Qed.

Definition phase_of (p : cpc) : cphase :=
  match p with
  | CIdle => CNone
  | CLoad old new => COpen old new
  | CCond old new _ => COpen old new
  | CDone prev => CMarked prev
  end.

Lemma run_thread t : forall sch s, thread_ok t (phase_of (m_pc s t)) (mark_run s sch).
Proof.
  induction sch as [|[u a] r IH]; intros s; [exact I|]. simpl.
  destruct (cas_step s u a) as [[s' e]|] eqn:E; [|apply IH].
  specialize (IH s'). unfold cas_step in E. unfold marks.
  destruct (m_pc s u) eqn:Ep, a; try discriminate.
  - injection E as <- <-. simpl in *. unfold upd in IH.
    destruct (Z.eqb_spec u t) as [->|N].
    + rewrite Z.eqb_refl in IH. rewrite Ep. split; [reflexivity|exact IH].
    + replace (t =? u) with false in IH by (symmetry; apply Z.eqb_neq; congruence). exact IH.
  - injection E as <- <-. simpl in *. exact IH.
  - injection E as <- <-. simpl in *. exact IH.
  - injection E as <- <-. simpl in *. unfold upd in IH.
    destruct (Z.eqb_spec (m_val s) old) as [Eo|No]; simpl;
      (destruct (Z.eqb_spec t u) as [->|N]).
    + rewrite Ep. exact IH.
    + exact IH.
    + rewrite Z.eqb_refl, Ep. split; [reflexivity|exact IH].
    + destruct (Z.eqb_spec u t); [congruence|exact IH].
  - injection E as <- <-. simpl in *. exact IH.
  - destruct (m_res s u && negb spurious); injection E as <- <-; simpl in *; unfold upd in IH;
      destruct (Z.eqb_spec t u) as [->|N].
    + rewrite Z.eqb_refl, Ep. split; [reflexivity|exact IH].
    + destruct (Z.eqb_spec u t); [congruence|exact IH].
    + rewrite Ep. exact IH.
    + exact IH.
  - injection E as <- <-. simpl in *. exact IH.
  - injection E as <- <-. simpl in *. unfold upd in IH.
    destruct (Z.eqb_spec u t) as [->|N].
    + rewrite Z.eqb_refl in IH. rewrite Ep. split; [reflexivity|exact IH].
    + replace (t =? u) with false in IH by (symmetry; apply Z.eqb_neq; congruence). exact IH.
  - injection E as <- <-. simpl in *. exact IH.
Qed.
