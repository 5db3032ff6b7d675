(** At most one call of init_thread_support: proofs for LifeSupProps.v. *)
From Verif Require Export LifeSup.
From Verif Require Import LifeSupSpec.
Local Open Scope nat_scope.

(** ** At most one call, with fewer conditions *)

Definition asked (f : frame) : bool := match f with FCall PThreadSupport => true | _ => false end.
Definition w_asked (f : frame) : nat := if asked f then 1 else 0.
(** What pthread_create does up to the call. *)
Definition opening (f : frame) : bool :=
  shy f || match f with FPCInit _ | FPCInfo _ | FPCIgn _ _ => true | _ => false end.

Definition guard2 (st : list frame) : Prop :=
  forall l1 f l2, st = l1 ++ f :: l2 -> setting f = true -> none opening l1.

Record o0 (s : state) : Prop := mko0 {
  o0_flag : g_support (s_g s) = false;
  o0_others : forall t, t <> MAIN -> quiet (s_th s t);
  o0_late : none late (th_stack (s_th s MAIN));
  o0_calling : none calling (th_stack (s_th s MAIN));
  o0_guard : guard2 (th_stack (s_th s MAIN));
  o0_count : count is_support (s_tr s) = 0
}.

Record o1 (s : state) : Prop := mko1 {
  o1_flag : g_support (s_g s) = true;
  o1_setting : forall t, none setting (th_stack (s_th s t));
  o1_others : forall t, t <> MAIN -> none asked (th_stack (s_th s t));
  o1_count : wsum w_asked (th_stack (s_th s MAIN)) + count is_support (s_tr s) <= 1
}.

Lemma opening_new dyn t u g tsd nc f c e :
  frame_step dyn t u g tsd nc f c = Some e -> opening f = false ->
  (forall st ar ra, c <> CCall (ACreate st ar ra)) -> none opening (e_fr e).
Proof.
  intros H L N1 f' I'.
  fs_cases H; brk H; inversion H; subst; clear H; cbn in L, I'; try discriminate L;
    try (exfalso; now apply (N1 _ _ _ eq_refl));
    repeat (destruct I' as [<-|I']; [try reflexivity|]); try (destruct I'; fail); try exact L.
Qed.

Lemma guard2_none st : none setting st -> guard2 st.
Proof. intros N l1 f l2 -> S. exfalso. now apply (none_no setting l1 f l2). Qed.

Lemma guard2_app fr r : guard2 r -> none opening fr -> guard2 (fr ++ r).
Proof.
  intros G N l1 f l2 E S.
  apply app_eq_app in E. destruct E as (l & [(E1 & E2)|(E1 & E2)]).
  - subst fr. apply none_app in N. tauto.
  - subst l1. apply none_app. split; [exact N|]. exact (G l f l2 E2 S).
Qed.

Lemma none_asked p l : (forall f, asked f = true -> p f = true) -> none p l -> wsum w_asked l = 0.
Proof.
  intros H N. induction l as [|f l IH]; [reflexivity|]. apply none_cons in N. destruct N as [Nf N].
  cbn. rewrite (IH N). unfold w_asked. destruct (asked f) eqn:A; [|reflexivity].
  apply H in A. congruence.
Qed.
Lemma asked_calling f : asked f = true -> calling f = true.
Proof. destruct f; try discriminate. destruct p; try discriminate. reflexivity. Qed.
Lemma asked_shy f : asked f = true -> shy f = true.
Proof. intros A. apply asked_calling in A. unfold shy. rewrite A, !orb_true_r. reflexivity. Qed.

Lemma o0_main dyn s c s' :
  who_inv s -> flag_alone s MAIN c -> step dyn s MAIN c = Some s' -> o0 s ->
  (forall t, t <> MAIN -> quiet (s_th s' t)) -> o0 s' \/ o1 s'.
Proof.
  intros W [OK OK2] H P Q'. destruct P as [P1 P2 P3 P4 P5 P6].
  assert (AS : forall l1 f l2, th_stack (s_th s MAIN) = l1 ++ f :: l2 -> setting f = true ->
     (forall st ar ra, c <> CCall (ACreate st ar ra))).
  { intros l1 f l2 E Sf. apply OK2. rewrite E, existsb_app. cbn. destruct f; try discriminate Sf. cbn.
    now rewrite orb_true_r. }
  destruct (main_push _ _ _ _ W H) as [(l & B & Sh & Es & Eg & Ec)|[(Sh & Eg & Ec & _)|(f & r & e & Es & F & Es' & Eg & Et)]].
  - left. destruct (none_of_shy _ Sh) as (U1 & U2 & U3 & U4). constructor; auto; rewrite ?Es, ?Eg, ?Ec; auto.
    + apply none_app; now split.
    + apply none_app; now split.
    + apply guard2_app; [exact P5|]. apply (none_sub _ barring); [|exact B].
      intros x X. destruct x; cbn in X |- *; try discriminate X; try reflexivity; try exact X.
  - left. destruct (none_of_shy _ Sh) as (U1 & U2 & U3 & U4). constructor; auto; rewrite ?Eg, ?Ec; auto.
    now apply guard2_none.
  - rewrite Es in P3, P4, P5. apply none_cons in P3, P4. destruct P3 as [Lf Lr], P4 as [Cf Cr].
    destruct (setting f) eqn:Sf.
    + right. destruct f; try discriminate Sf.
      assert (Sr : none setting r).
      { destruct (in_split_none setting r) as [X|(l1 & f & l2 & -> & Sf')]; [exact X|].
        specialize (P5 (FPCSupSet q my :: l1) f l2 eq_refl Sf'). apply none_cons in P5. now destruct P5. }
      destruct c; cbn in F; try discriminate F. inversion F; subst e. cbn in Eg, Es', Et.
      constructor; auto.
      * intros t. destruct (Z.eq_dec t MAIN) as [-> |N].
        -- rewrite Es'. apply none_cons. split; [reflexivity|]. apply none_cons. now split.
        -- now apply none_of_shy, (Q' t N).
      * intros t N. apply (none_sub _ shy); [exact asked_shy|]. apply (Q' t N).
      * rewrite Es', Et, P6. cbn. rewrite (none_asked calling r asked_calling Cr). cbn. lia.
    + left. assert (Er : none late (e_fr e)) by (apply (late_new _ _ _ _ _ _ _ _ _ F Lf Sf); auto).
      assert (Ce : none calling (e_fr e)) by now apply (calling_new _ _ _ _ _ _ _ _ _ F).
      constructor; auto; rewrite ?Es', ?Eg, ?Et.
      * rewrite (sup_new _ _ _ _ _ _ _ _ _ F Sf). exact P1.
      * apply none_app; now split.
      * apply none_app; now split.
      * destruct (in_split_none setting r) as [Sr|(l1 & g & l2 & -> & Sg)].
        -- destruct (setting_new _ _ _ _ _ _ _ _ _ F) as [X|(_ & _ & q & my & X)].
           ++ apply guard2_none. apply none_app; now split.
           ++ rewrite X. intros l1 g l2 E Sg. destruct l1 as [|y l1]; [intros x []|].
              exfalso. inversion E; subst. now apply (none_no setting l1 g l2).
        -- assert (Bf : opening f = false).
           { specialize (P5 (f :: l1) g l2 eq_refl Sg). apply none_cons in P5. tauto. }
           pose proof (AS (f :: l1) g l2 Es Sg) as A1.
           apply guard2_app; [|now apply (opening_new _ _ _ _ _ _ _ _ _ F)].
           intros l3 h l4 E Sh. specialize (P5 (f :: l3) h l4). rewrite E in P5. specialize (P5 eq_refl Sh).
           apply none_cons in P5. tauto.
      * rewrite count_app. destruct (ev_support _ _ _ _ _ _ _ _ _ F) as [(-> & _) |(_ & X)]; [discriminate Cf|].
        rewrite X. exact P6.
Qed.

Lemma asked_new dyn t u g tsd nc f c e :
  frame_step dyn t u g tsd nc f c = Some e -> setting f = false ->
  none asked (e_fr e) /\ (forall st, e_new e = Some st -> none asked st).
Proof.
  intros H N. split.
  - intros f' I'. fs_cases H; brk H; inversion H; subst; clear H; cbn in N, I'; try discriminate N;
      repeat (destruct I' as [<-|I']; [try reflexivity|]); try (destruct I'; fail).
  - intros st E. destruct (born_new _ _ _ _ _ _ _ _ _ _ H E) as (B & _).
    apply (none_sub _ calling); [exact asked_calling|exact B].
Qed.

Lemma o1_step dyn s t c s' : who_inv s -> o1 s -> step dyn s t c = Some s' -> o1 s'.
Proof.
  intros W P H. destruct P as [P1 P2 P3 P4].
  destruct (step_view _ _ _ _ _ H) as (D & L & V).
  assert (SA : forall l, none shy l -> none asked l).
  { intros l. apply none_sub, asked_shy. }
  assert (SW : forall l, none shy l -> wsum w_asked l = 0).
  { intros l. apply none_asked, asked_shy. }
  assert (PLAIN : forall x l, none setting (th_stack x) -> (t <> MAIN -> none asked (th_stack x)) ->
     (t = MAIN -> wsum w_asked (th_stack x) <= wsum w_asked (th_stack (s_th s MAIN))) ->
     count is_support l = 0 -> o1 (add_ev l (set_th s t x))).
  { intros x l A1 A2 A3 A4. constructor; cbn [s_th s_g s_tr add_ev set_th].
    - exact P1.
    - intros t'. rewrite upd_if. destruct (t' =? t)%Z; auto.
    - intros t' N. rewrite upd_if. destruct (Z.eqb_spec t' t) as [->|]; auto.
    - rewrite count_app, A4, upd_if. destruct (Z.eqb_spec MAIN t) as [<-|]; [specialize (A3 eq_refl)|]; lia. }
  assert (PUSH : forall x l0 l, th_stack x = l0 ++ th_stack (s_th s t) -> none shy l0 ->
     count is_support l = 0 -> o1 (add_ev l (set_th s t x))).
  { intros x l0 l Ex N0 C0. apply PLAIN; auto; rewrite Ex.
    - apply none_app. split; [|apply P2]. now apply none_of_shy.
    - intros N. apply none_app. auto.
    - intros ->. rewrite wsum_app, (SW _ N0). lia. }
  assert (NIL : forall s0, o1 (add_ev [] s0) -> o1 s0).
  { intros s0 [X1 X2 X3 X4]. constructor; assumption. }
  assert (DROP : forall x l, none shy (th_stack x) -> count is_support l = 0 -> o1 (add_ev l (set_th s t x))).
  { intros x l N0 C0. apply PLAIN; auto.
    - now apply none_of_shy.
    - intros ->. rewrite (SW _ N0). lia. }
  destruct V as [ -> -> | -> -> | -> Pd Sh Ns -> |f r -> Pd Es Op Ns -> |f r -> Es Nc Lk -> |r -> Es Lk -> | -> Es -> |f r e Es Un Bar F -> ].
  - apply NIL, (PUSH _ [FApp AppHandler]); auto; push_none.
  - apply NIL, (PUSH _ [FEPGet EXIT_SIGNAL; FEndLibDyn; FSigEnd]); auto; push_none.
  - apply (PUSH _ [FHGet]); auto; push_none.
  - apply (PUSH _ [FWGet]); auto; push_none.
  - apply NIL, DROP; [apply unwind_none|reflexivity].
  - apply NIL, DROP; [apply unwind_none|reflexivity].
  - apply DROP; [intros x []|reflexivity].
  - pose proof (P2 t) as Sf. rewrite Es in Sf. apply none_cons in Sf. destruct Sf as [Sf Sr].
    assert (Se : none setting (e_fr e ++ r)).
    { apply none_app. split; [|exact Sr].
      destruct (setting_new _ _ _ _ _ _ _ _ _ F) as [X|[X _]]; [exact X|]. congruence. }
    destruct (asked_new _ _ _ _ _ _ _ _ _ F Sf) as [Ae An].
    assert (Ar : t <> MAIN -> none asked (e_fr e ++ r)).
    { intros N. apply none_app. split; [exact Ae|]. specialize (P3 t N). rewrite Es in P3. now apply none_cons in P3. }
    assert (ST : forall t', th_stack (s_th (apply_eff s t (s_th s t) r e) t') = [] \/
       (t' = t /\ t' <> s_next s /\ th_stack (s_th (apply_eff s t (s_th s t) r e) t') = e_fr e ++ r) \/
       (t' <> t /\ th_stack (s_th (apply_eff s t (s_th s t) r e) t') = th_stack (s_th s t')) \/
       (t' = s_next s /\ exists st, e_new e = Some st /\ th_stack (s_th (apply_eff s t (s_th s t) r e) t') = st)).
    { intros t'. assert (TN : t <> s_next s).
      { intros E. destruct (who_fresh s W t); [lia|]. congruence. }
      destruct (e_child e) eqn:HC.
      { destruct (child_shape _ _ _ _ _ _ _ _ _ F HC) as (_ & _ & _ & _ & _ & NN & NK & _).
        rewrite (apply_stack_child _ _ _ _ _ _ HC NN NK). destruct (Z.eqb_spec t' t) as [->|]; auto. }
      rewrite (apply_stack _ _ _ _ _ _ HC). destruct (e_new e) as [st|] eqn:EN.
      - destruct (Z.eqb_spec t' (s_next s)) as [->|N1].
        + right. right. right. split; [reflexivity|]. now exists st.
        + destruct (Z.eqb_spec t' t) as [->|]; auto.
      - destruct (Z.eqb_spec t' t) as [->|]; auto. }
    constructor.
    + rewrite apply_g, (sup_new _ _ _ _ _ _ _ _ _ F Sf). exact P1.
    + intros t'. destruct (ST t') as [E|[(_ & _ & E)|[(_ & E)|(_ & st & En & E)]]]; rewrite E; auto; [intros x []|].
      now apply (born_new _ _ _ _ _ _ _ _ _ _ F En).
    + intros t' N. destruct (ST t') as [E|[(-> & _ & E)|[(_ & E)|(_ & st & En & E)]]]; rewrite E; auto. intros x [].
    + rewrite apply_tr, count_app.
      assert (CE : wsum w_asked (e_fr e) = 0) by (apply (none_asked asked); auto).
      destruct (ST MAIN) as [E|[(E0 & _ & E)|[(N & E)|(E0 & _)]]].
      * rewrite E. cbn [wsum]. destruct (ev_support _ _ _ _ _ _ _ _ _ F) as [(-> & _ & X)|(_ & X)]; rewrite X; [|lia].
        destruct (Z.eq_dec t MAIN) as [-> |N].
        -- rewrite Es in P4. cbn in P4. lia.
        -- specialize (P3 t N). rewrite Es in P3. apply none_cons in P3. now destruct P3.
      * subst t. rewrite E, wsum_app, CE. rewrite Es in P4. cbn [wsum] in P4.
        destruct (ev_support _ _ _ _ _ _ _ _ _ F) as [(-> & _ & X)|(_ & X)]; rewrite X; cbn in P4; lia.
      * rewrite E. destruct (ev_support _ _ _ _ _ _ _ _ _ F) as [(-> & _ & X)|(_ & X)]; rewrite X; [|lia].
        specialize (P3 t). rewrite Es in P3. exfalso.
        assert (Y : none asked (FCall PThreadSupport :: r)) by (apply P3; congruence).
        apply none_cons in Y. now destruct Y.
      * pose proof (who_next s W). unfold MAIN in E0. lia.
Qed.

Lemma o_reach dyn s : reach dyn flag_alone s -> o0 s \/ o1 s.
Proof.
  intros R. apply (reach_invariant dyn flag_alone (fun s => o0 s \/ o1 s)) with (s := s); [| |exact R]; clear s R.
  - left. constructor; try reflexivity.
    + intros t N. unfold quiet, init. cbn [s_th]. rewrite upd_if.
      destruct (Z.eqb_spec t MAIN); [contradiction|]. split; [intros x []|reflexivity].
    + cbn. push_none.
    + cbn. push_none.
    + apply guard2_none. cbn. push_none.
  - intros s t c s' R P OK H.
    assert (W : who_inv s).
    { apply (who_reach dyn). eapply reach_weaken; [|exact R]. intros ? ? ? X. apply X. }
    pose proof (proj1 OK) as CF.
    destruct P as [P|P]; [|right; now apply (o1_step _ _ _ _ _ W P H)].
    assert (Q' : forall t', t' <> MAIN -> quiet (s_th s' t')).
    { apply (others_step dyn s t c s' W CF H); [|apply P].
      intros f r E. pose proof (o0_late s P) as X. rewrite E in X. apply none_cons in X. tauto. }
    destruct (Z.eq_dec t MAIN) as [-> |N].
    + now apply (o0_main _ _ _ _ W OK H P Q').
    + destruct (quiet_same _ _ _ _ _ W CF H N (proj1 (o0_others s P t N))) as (E1 & E2 & E3).
      left. destruct P. constructor; rewrite ?E1, ?E2, ?E3; auto.
Qed.

Lemma once2 dyn s : reach dyn flag_alone s -> count is_support (s_tr s) <= 1.
Proof.
  intros R. destruct (o_reach _ _ R) as [P|P].
  - rewrite (o0_count s P). lia.
  - pose proof (o1_count s P). lia.
Qed.
