(** Proofs: the value a thread ends with. *)
From Verif Require Export JoinProofs.
From Coq Require Import Lia.
Local Open Scope Z_scope.

Definition val (x : thr) : option Z :=
  match t_pc x with PDone v | BClean _ v | BFini _ v | BUnlink _ v => Some v | _ => t_unw x end.

Definition ending (u : Z) (e : event) : bool :=
  match e with OReturn w _ | OExit w _ | OCancel w => w =? u | _ => false end.
Definition ends (u : Z) (l : list event) : list event := filter (ending u) l.

(** ** Every value has its cause *)

Definition caused (s : state) : Prop :=
  forall u v, val (s_thr s u) = Some v -> t_pc (s_thr s u) <> PJoined -> exists e, In e (s_log s) /\ ended_with u v e.

Ltac pcs := repeat match goal with E : t_pc _ = _ |- _ => rewrite E end.

Lemma caused_one s s1 w x1 : caused s -> s_thr s1 = upd (s_thr s) w x1 -> incl (s_log s) (s_log s1) ->
  (forall v, val x1 = Some v -> t_pc x1 <> PJoined -> (val (s_thr s w) = Some v /\ t_pc (s_thr s w) <> PJoined) \/ exists e, In e (s_log s1) /\ ended_with w v e) -> caused s1.
Proof.
  intros C ET IL H u v. rewrite ET. unfold upd. destruct (Z.eqb_spec u w) as [->|N]; intros V J.
  - destruct (H v V J) as [[A B]|A]; [|exact A]. destruct (C w v A B) as (e & X & Y). exists e. auto.
  - destruct (C u v V J) as (e & X & Y). exists e. auto.
Qed.

Lemma caused_same s s1 : caused s -> s_thr s1 = s_thr s -> incl (s_log s) (s_log s1) -> caused s1.
Proof. intros C ET IL u v. rewrite ET. intros V J. destruct (C u v V J) as (e & X & Y). exists e. auto. Qed.

Lemma unlink_thr n s : s_thr (unlink n s) = s_thr s /\ s_log (unlink n s) = s_log s.
Proof. unfold unlink. destruct (s_exit s); auto. Qed.

Lemma caused_step s t c s1 : inv s -> caused s -> no_late s t c -> step s t c = Some s1 -> caused s1.
Proof.
  intros I C Q H. unfold no_late in Q. unfold step, app, unwind in H.
  destruct (t_pc (s_thr s t)) eqn:P; cases H; inversion H; subst; clear H;
  try solve [eapply caused_same; [eassumption|reflexivity|cbn; auto using incl_refl, incl_tl]];
  try solve [eapply caused_one; [eassumption|cbn; reflexivity|cbn; auto using incl_refl, incl_tl|];
     unfold val; cbn; pcs; cbn; intros ? V J; first [solve [left; split; congruence] | solve [exfalso; congruence] |
     inversion V; subst; right; eexists; split; [left; reflexivity|]; unfold ended_with; auto]].
  - pose proof (make_fresh s I) as MF. rewrite Heqp in MF. destruct MF as (F1 & _ & _ & F4 & _).
    eapply (caused_one s _ t); [exact C|cbn; rewrite F1; reflexivity|cbn; rewrite F4; apply incl_refl|].
    unfold val. cbn. rewrite P. intros v V _. left. split; congruence.
  - apply (caused_one (set_thr (s_next s) (fresh (BLink n)) s) _ t (set_pc (PPost 0 (s_next s)) (s_thr s t))); [|reflexivity|apply incl_refl|].
    + apply (caused_one s _ (s_next s) (fresh (BLink n))); [exact C|reflexivity|apply incl_refl|]. intros v V. discriminate V.
    + assert (N : t <> s_next s) by (pose proof (live_lt s t I ltac:(congruence)); lia).
      cbn. rewrite upd_other by exact N. unfold val. cbn. rewrite P. intros v V _. left. split; congruence.
  - apply (caused_one (set_thr (s_next s) (fresh (PNew r a)) s) _ t (set_pc (PBack 0 (s_next s)) (s_thr s t))); [|reflexivity|apply incl_refl|].
    + apply (caused_one s _ (s_next s) (fresh (PNew r a))); [exact C|reflexivity|apply incl_refl|]. intros v V. discriminate V.
    + assert (N : t <> s_next s) by (pose proof (live_lt s t I ltac:(congruence)); lia).
      cbn. rewrite upd_other by exact N. unfold val. cbn. rewrite P. intros v V _. left. split; congruence.
  - discriminate (Q n eq_refl).
  - destruct (unlink_thr n s) as [F1 F2].
    eapply (caused_one s _ t); [exact C|cbn; rewrite F1; reflexivity|cbn; rewrite F2; apply incl_refl|].
    unfold val. cbn. rewrite P. intros w V _. left. split; congruence.
Qed.

Lemma caused_reach s : reach no_late s -> caused s.
Proof.
  intros R. induction R as [|s t c s1 R IH Q S]; [|eapply caused_step; [eapply inv_reach|..]; eassumption].
  intros u v. cbn. unfold upd. destruct (u =? MAIN); discriminate.
Qed.

(** What a step adds to the log. *)
Lemma step_log s t c s1 : inv s -> step s t c = Some s1 -> exists es, s_log s1 = es ++ s_log s /\ (es = [] \/ exists e, es = [e]) /\
  (forall w u v, In (OJoin w u v) es -> t_pc (s_thr s u) = PDone v).
Proof.
  intros I H. unfold step, app, unwind in H.
  destruct (t_pc (s_thr s t)) eqn:P; cases H; inversion H; subst; clear H;
    try (exists []; split; [reflexivity|]; split; [auto|]; intros ? ? ? []; fail);
    try (eexists [_]; split; [reflexivity|]; split; [eauto|]; intros ? ? ? [X|[]]; inversion X; subst; assumption).
  - exists []. split; [|split; [auto|intros ? ? ? []]]. pose proof (make_fresh s I) as MF. rewrite Heqp in MF. cbn. apply MF.
  - exists []. split; [|split; [auto|intros ? ? ? []]]. cbn. apply unlink_thr.
Qed.

Lemma join_cause s a t u v b : reach no_late s -> s_log s = a ++ OJoin t u v :: b -> exists e, In e b /\ ended_with u v e.
Proof.
  intros R. revert a b. induction R as [|s w c s1 R IH Q S]; intros a b E; [destruct a; discriminate E|].
  destruct (step_log _ _ _ _ (inv_reach _ _ R) S) as (es & L & ES & J). rewrite L in E.
  destruct ES as [->|[e ->]]; [eapply IH; exact E|]. destruct a as [|e2 a]; cbn in E; inversion E; subst; [|eapply IH; eassumption].
  specialize (J _ _ _ ltac:(left; reflexivity)). apply (caused_reach _ R); unfold val; rewrite J; congruence.
Qed.

(** ** One cause *)

Definition one (u v : Z) (l : list event) : Prop := ends u l = [] \/ exists e, ends u l = [e] /\ ended_with u v e.
Definition single (x : thr) (u : Z) (l : list event) : Prop :=
  (val x = None -> t_pc x <> PJoined -> ends u l = []) /\
  (forall v, val x = Some v -> t_pc x <> PJoined -> one u v l) /\
  (forall t w, In (OJoin t u w) l -> t_pc x = PJoined /\ one u w l).
Definition singles (s : state) : Prop := forall u, single (s_thr s u) u (s_log s).

Definition off (u : Z) (es : list event) : Prop := ends u es = [] /\ forall t v, ~ In (OJoin t u v) es.

Lemma single_off x x1 u es l : single x u l -> off u es -> val x1 = val x -> (t_pc x1 = PJoined <-> t_pc x = PJoined) -> single x1 u (es ++ l).
Proof.
  intros (A & B & C) [O1 O2] V J. unfold single, one. assert (E : ends u (es ++ l) = ends u l) by (unfold ends in *; rewrite filter_app, O1; reflexivity).
  rewrite E, V. split; [|split].
  - intros X Y. apply A; tauto.
  - intros v X Y. apply B; tauto.
  - intros t w K. apply in_app_or in K. destruct K as [K|K]; [destruct (O2 _ _ K)|]. destruct (C _ _ K). tauto.
Qed.

Lemma single_end x x1 u e v l : single x u l -> val x = None -> t_pc x <> PJoined -> val x1 = Some v -> ending u e = true -> ended_with u v e -> single x1 u (e :: l).
Proof.
  intros (A & B & C) V J V1 N W. unfold single, one. assert (E : ends u (e :: l) = [e]) by (unfold ends in *; cbn; rewrite N, (A V J); reflexivity).
  rewrite E, V1. split; [discriminate|]. split.
  - intros w X _. inversion X; subst. right. eauto.
  - intros t w [K|K]; [subst; discriminate N|]. destruct (C _ _ K) as [K1 _]. tauto.
Qed.

Lemma single_late x x1 u v l : single x u l -> val x = None -> t_pc x <> PJoined -> val x1 = Some v -> single x1 u l.
Proof.
  intros (A & B & C) V J V1. unfold single, one. rewrite V1, (A V J). split; [discriminate|]. split; [auto|].
  intros t w K. destruct (C _ _ K). tauto.
Qed.

Lemma single_join x x1 u t v l : single x u l -> val x = Some v -> t_pc x <> PJoined -> t_pc x1 = PJoined -> single x1 u (OJoin t u v :: l).
Proof.
  intros (A & B & C) V J J1. unfold single. split; [tauto|]. split; [tauto|]. intros w y [K|K]; [|destruct (C _ _ K); tauto].
  inversion K; subst. split; [exact J1|]. exact (B _ V J).
Qed.

Lemma singles_one s s1 w x1 es : singles s -> s_thr s1 = upd (s_thr s) w x1 -> s_log s1 = es ++ s_log s ->
  (forall u, u <> w -> off u es) -> single x1 w (es ++ s_log s) -> singles s1.
Proof.
  intros S ET EL O H u. rewrite ET, EL. unfold upd. destruct (Z.eqb_spec u w) as [->|N]; [exact H|].
  eapply single_off; [apply S|auto|reflexivity|tauto].
Qed.

Lemma off_nil u : off u [].
Proof. split; [reflexivity|intros ? ? []]. Qed.
Lemma off_other u e : ending u e = false -> (forall t v, e <> OJoin t u v) -> off u [e].
Proof. intros E J. split; [unfold ends; cbn; rewrite E; reflexivity|]. intros t v [K|[]]. exact (J t v K). Qed.
Lemma off_end u w e : ending w e = true -> u <> w -> off u [e].
Proof.
  intros E N. apply off_other; destruct e; cbn in *; try discriminate; apply Z.eqb_eq in E; subst; try (apply Z.eqb_neq; congruence).
Qed.

Lemma singles_keep s s1 w x1 es : singles s -> s_thr s1 = upd (s_thr s) w x1 -> s_log s1 = es ++ s_log s ->
  (forall u, off u es) -> val x1 = val (s_thr s w) -> (t_pc x1 = PJoined <-> t_pc (s_thr s w) = PJoined) -> singles s1.
Proof.
  intros S ET EL O V J. eapply singles_one; try eassumption; [auto|]. eapply single_off; [apply S|auto|exact V|exact J].
Qed.

Lemma singles_end s s1 w x1 e v : singles s -> s_thr s1 = upd (s_thr s) w x1 -> s_log s1 = e :: s_log s ->
  val (s_thr s w) = None -> t_pc (s_thr s w) <> PJoined -> val x1 = Some v -> ending w e = true -> ended_with w v e -> singles s1.
Proof.
  intros S ET EL V J V1 E W. eapply (singles_one _ _ _ _ [e]); try eassumption.
  - intros u N. eapply off_end; eassumption.
  - eapply single_end; try eassumption. apply S.
Qed.

Lemma off_silent u e : (forall w, ending w e = false) -> (forall t w v, e <> OJoin t w v) -> off u [e].
Proof. intros A B. apply off_other; [apply A|intros; apply B]. Qed.

Lemma cancels_unw x : cancels x = true -> t_unw x = None.
Proof. unfold cancels. destruct (t_unw x); [|auto]. rewrite andb_false_r. discriminate. Qed.

Lemma singles_born s t p1 k p2 : singles s -> inv s -> t_pc (s_thr s t) <> PNone ->
  val (set_pc p1 (s_thr s t)) = val (s_thr s t) -> val (fresh p2) = None -> p2 <> PJoined ->
  (p1 = PJoined <-> t_pc (s_thr s t) = PJoined) ->
  singles (set_thr t (set_pc p1 (s_thr s t)) (set_thr (s_next s) (fresh p2) (set_next k s))).
Proof.
  intros C I N V V2 J2 J. assert (D : t <> s_next s) by (pose proof (live_lt s t I N); lia).
  pose proof (C (s_next s)) as CN. rewrite (i_fresh _ I _ (Z.le_refl _)) in CN.
  assert (C1 : singles (set_thr (s_next s) (fresh p2) (set_next k s))).
  { intros u. cbn. unfold upd. destruct (Z.eqb_spec u (s_next s)) as [->|]; [|apply C].
    eapply (single_off none _ _ []); [exact CN|apply off_nil|exact V2|cbn; split; [tauto|discriminate]]. }
  eapply (singles_keep _ _ t (set_pc p1 (s_thr s t)) [] C1); [reflexivity|reflexivity|apply off_nil| |]; cbn; rewrite upd_other by exact D; [exact V|exact J].
Qed.

(** A thread that has not begun is not ending. *)
Definition born (s : state) : Prop := forall u n, t_pc (s_thr s u) = BLink n -> t_unw (s_thr s u) = None.

Lemma born_step s t c s1 : inv s -> born s -> step s t c = Some s1 -> born s1.
Proof.
  intros I C H u m. unfold step, app, unwind in H.
  destruct (t_pc (s_thr s t)) eqn:P; cases H; inversion H; subst; clear H; cbn; unfold upd;
    try match goal with |- context [_ =? ?w] => destruct (Z.eqb_spec u w) as [->|] end; cbn; try discriminate; try (intros E; try congruence; eapply C; eassumption).
  all: try (destruct (Z.eqb_spec u (s_next s)) as [->|]; cbn; try discriminate; [reflexivity|intros E; eapply C; eassumption]).
  - pose proof (make_fresh s I) as MF. rewrite Heqp in MF. destruct MF as (F1 & _). rewrite F1. apply C.
  - destruct (Z.eqb_spec u (s_next s)) as [->|]; cbn; [discriminate|apply C].
  - rewrite (proj1 (unlink_thr _ s)). apply C.
Qed.

Lemma singles_step s t c s1 : inv s -> born s -> singles s -> fini_quiet s t c -> step s t c = Some s1 -> singles s1.
Proof.
  intros I UB C Q H. unfold fini_quiet in Q. unfold step, app, unwind in H.
  destruct (t_pc (s_thr s t)) eqn:P; cases H; inversion H; subst; clear H;
  repeat match goal with E : cancels _ = true |- _ => apply cancels_unw in E end;
  try (destruct (Q _ _ eq_refl eq_refl); fail);
  try solve [eapply (singles_keep s _ _ _ []); [eassumption|cbn; reflexivity|reflexivity|apply off_nil|
     unfold val; cbn; pcs; cbn; congruence|cbn; pcs; split; congruence]];
  try solve [eapply (singles_keep s _ _ _ [_]); [eassumption|cbn; reflexivity|reflexivity|
     intros ?; apply off_silent; [reflexivity|discriminate]|
     unfold val; cbn; pcs; cbn; congruence|cbn; pcs; split; congruence]];
  try solve [eapply singles_end; [eassumption|cbn; reflexivity|reflexivity|unfold val; pcs; cbn; congruence|pcs; congruence|
     unfold val; cbn; pcs; reflexivity|cbn; apply Z.eqb_refl|unfold ended_with; auto]].
  - eapply (singles_one s _ u _ [_]); [exact C|cbn; reflexivity|reflexivity| |].
    + intros w N. apply off_other; [reflexivity|]. intros ? ? X. inversion X. congruence.
    + eapply single_join; [apply C|unfold val; rewrite Heqp; reflexivity|congruence|reflexivity].
  - exact C.
  - exact C.
  - exact C.
  - intros u. cbn. eapply (single_off _ _ u [_]); [apply C|apply off_silent; [reflexivity|discriminate]|reflexivity|tauto].
  - pose proof (make_fresh s I) as MF. rewrite Heqp in MF. destruct MF as (F1 & _ & _ & F4 & _).
    eapply (singles_keep s _ t _ []); [exact C|cbn; rewrite F1; reflexivity|exact F4|apply off_nil|unfold val; cbn; rewrite P; reflexivity|cbn; rewrite P; split; discriminate].
  - apply (singles_born s t _ _ (BLink n) C I); [congruence| |reflexivity|discriminate|cbn; rewrite P; split; discriminate]. unfold val; cbn; rewrite P; reflexivity.
  - apply (singles_born s t _ _ (PNew r a) C I); [congruence| |reflexivity|discriminate|cbn; rewrite P; split; discriminate]. unfold val; cbn; rewrite P; reflexivity.
  - eapply (singles_one s _ t _ []); [exact C|cbn; reflexivity|reflexivity|intros; apply off_nil|].
    eapply single_late; [apply C| |congruence|reflexivity]. unfold val. rewrite P. eapply UB. exact P.
  - destruct (unlink_thr n s) as [F1 F2].
    eapply (singles_keep s _ t _ []); [exact C|cbn; rewrite F1; reflexivity|exact F2|apply off_nil|unfold val; cbn; rewrite P; reflexivity|cbn; rewrite P; split; discriminate].
Qed.

Lemma born_init : born init.
Proof. intros u n. cbn. unfold upd. destruct (u =? MAIN); discriminate. Qed.
Lemma singles_init : singles init.
Proof.
  intros u. cbn. unfold single, val, one, upd. destruct (u =? MAIN); cbn; repeat split; auto; try discriminate; intros; tauto.
Qed.

Lemma born_reach ok s : reach ok s -> born s.
Proof. induction 1; [apply born_init|eapply born_step; [eapply inv_reach|..]; eassumption]. Qed.
Lemma singles_reach s : reach fini_quiet s -> singles s.
Proof.
  induction 1; [apply singles_init|eapply singles_step; [eapply inv_reach; eassumption|eapply born_reach; eassumption|..]; eassumption].
Qed.

Lemma cause_one u v w e l : one u w l -> In e l -> ending u e = true -> ended_with u v e -> exists e2, ends u l = [e2] /\ e2 = e /\ ended_with u w e.
Proof.
  intros [N|(e2 & E & W)] K G V.
  - assert (X : In e (ends u l)) by (apply filter_In; auto). rewrite N in X. destruct X.
  - assert (X : In e (ends u l)) by (apply filter_In; auto). rewrite E in X. destruct X as [->|[]]. eauto.
Qed.

Lemma returned s t u v w : reach fini_quiet s -> In (OReturn u v) (s_log s) -> In (OJoin t u w) (s_log s) -> w = v.
Proof.
  intros R A B. destruct (singles_reach _ R u) as (_ & _ & C). destruct (C _ _ B) as [_ O].
  destruct (cause_one u v w _ _ O A) as (_ & _ & _ & W); [cbn; apply Z.eqb_refl|left; reflexivity|].
  destruct W as [X|[X|[X _]]]; inversion X; reflexivity.
Qed.

Lemma exited s t u v w : reach fini_quiet s -> In (OExit u v) (s_log s) -> In (OJoin t u w) (s_log s) -> w = v.
Proof.
  intros R A B. destruct (singles_reach _ R u) as (_ & _ & C). destruct (C _ _ B) as [_ O].
  destruct (cause_one u v w _ _ O A) as (_ & _ & _ & W); [cbn; apply Z.eqb_refl|right; left; reflexivity|].
  destruct W as [X|[X|[X _]]]; inversion X; reflexivity.
Qed.
