(** init_thread_support and monitor_is_threaded: proofs for LifeSupProps.v. *)
From Verif Require Import LifeSupSpec.
From Verif Require Export LifeNode.

Local Open Scope nat_scope.

(** ** Frames *)

(** Past the test of the flag, on the way to a monitored thread, or such a thread. *)
Definition late (f : frame) : bool :=
  match f with
  | FPCPre _ _ | FPCGot _ _ _ | FPCLock _ _ _ | FPCPick _ _ _ | FPCTake _ _ _ _ | FPCArray _ _ _
  | FPCInc _ _ _ _ | FPCZero _ _ _ _ | FPCUnlock _ _ _ _ | FPCFill _ _ _ _ | FPCReal _ _ _ => true
  | FBT _ _ => true
  | FCb _ (KPreCreate _ _) | FCb _ (KInitThread _) => true
  | _ => false
  end.
(** Before the test, in a thread with a node. *)
Definition early (f : frame) : bool :=
  match f with FPCIgn _ (Some _) | FPCSup _ _ => true | _ => false end.
Definition calling (f : frame) : bool :=
  match f with FCall PThreadSupport | FCb CbThreadSupport _ => true | _ => false end.
Definition setting (f : frame) : bool := match f with FPCSupSet _ _ => true | _ => false end.
(** Frames that do not come on top of an asking thread. *)
Definition barring (f : frame) : bool :=
  late f || early f || calling f || setting f ||
  match f with FPCInit _ | FPCInfo _ | FPCIgn _ _ | FPExit | FUnwind => true | _ => false end.

Definition none (p : frame -> bool) (st : list frame) : Prop := forall f, In f st -> p f = false.

Lemma none_app p a b : none p (a ++ b) <-> none p a /\ none p b.
Proof.
  unfold none. split.
  - intros H. split; intros f I; apply H, in_or_app; auto.
  - intros [A B] f I. apply in_app_or in I. destruct I; auto.
Qed.
Lemma none_cons p f r : none p (f :: r) <-> p f = false /\ none p r.
Proof.
  unfold none. split.
  - intros H. split; [apply H; now left|]. intros x I. apply H. now right.
  - intros [A B] x [<-|I]; auto.
Qed.
Lemma none_existsb p st : none p st -> existsb p st = false.
Proof.
  intros H. apply not_true_is_false. intros X. apply existsb_exists in X. destruct X as (f & I & E).
  rewrite (H f I) in E. discriminate.
Qed.

Lemma barring_parts f : barring f = false -> late f = false /\ early f = false /\ calling f = false /\ setting f = false.
Proof. unfold barring. rewrite !orb_false_iff. tauto. Qed.

(** ** What one step does *)
Ltac in_frames I' := repeat (destruct I' as [<-|I']; [|]); try (destruct I'; fail).

Lemma late_new dyn t u g tsd nc f c e :
  frame_step dyn t u g tsd nc f c = Some e -> late f = false ->
  setting f = false -> (early f = true -> g_support g = false) -> none late (e_fr e).
Proof.
  intros H L S E f' I'.
  fs_cases H; brk H; inversion H; subst; clear H; cbn in L, S, E, I'; try discriminate L; try discriminate S;
    repeat (destruct I' as [<-|I']; [reflexivity|]); try (destruct I'; fail);
    try (destruct I' as [<-|I']; [|destruct I']); try (specialize (E eq_refl); congruence).
  all: try exact L.
Qed.

Ltac done_in I' := repeat (destruct I' as [<-|I']; [try reflexivity|]); try (destruct I'; fail).

Definition shy (f : frame) : bool := late f || early f || calling f || setting f.

Lemma shy_parts f : shy f = false <-> late f = false /\ early f = false /\ calling f = false /\ setting f = false.
Proof. unfold shy. rewrite !orb_false_iff. tauto. Qed.

Lemma shy_new dyn t u g tsd nc f c e :
  frame_step dyn t u g tsd nc f c = Some e -> shy f = false ->
  (forall q, f = FPCInfo q -> get_tn g tsd = None) -> none shy (e_fr e).
Proof.
  intros H L E f' I'.
  fs_cases H; brk H; inversion H; subst; clear H; cbn in L, I'; try discriminate L;
    repeat (destruct I' as [<-|I']; [try reflexivity|]); try (destruct I'; fail); try exact L.
  all: try (rewrite (E _ eq_refl); reflexivity).
Qed.

Lemma barring_new dyn t u g tsd nc f c e :
  frame_step dyn t u g tsd nc f c = Some e -> barring f = false ->
  (forall st ar ra, c <> CCall (ACreate st ar ra)) -> c <> CCall APthreadExit -> none barring (e_fr e).
Proof.
  intros H L N1 N2 f' I'.
  fs_cases H; brk H; inversion H; subst; clear H; cbn in L, I'; try discriminate L;
    try (exfalso; now apply (N1 _ _ _ eq_refl)); try (exfalso; now apply N2);
    repeat (destruct I' as [<-|I']; [try reflexivity|]); try (destruct I'; fail); try exact L.
Qed.

Lemma calling_new dyn t u g tsd nc f c e :
  frame_step dyn t u g tsd nc f c = Some e -> calling f = false -> setting f = false -> none calling (e_fr e).
Proof.
  intros H L N f' I'.
  fs_cases H; brk H; inversion H; subst; clear H; cbn in L, N, I'; try discriminate L; try discriminate N;
    repeat (destruct I' as [<-|I']; [try reflexivity|]); try (destruct I'; fail); try exact L.
Qed.

Lemma setting_new dyn t u g tsd nc f c e :
  frame_step dyn t u g tsd nc f c = Some e ->
  none setting (e_fr e) \/ (g_support g = false /\ early f = true /\ exists q my, e_fr e = [FPCSupSet q my]).
Proof.
  intros H. fs_cases H; brk H; inversion H; subst; clear H; cbn;
    first [ left; intros f' I'; repeat (destruct I' as [<-|I']; [reflexivity|]); destruct I'; fail
          | right; split; [first [assumption|reflexivity]|]; split; [reflexivity|]; eauto ].
Qed.

Lemma sup_new dyn t u g tsd nc f c e :
  frame_step dyn t u g tsd nc f c = Some e -> setting f = false -> g_support (e_g e) = g_support g.
Proof.
  intros H N. fs_cases H; brk H; inversion H; subst; clear H; cbn in N |- *; try discriminate N; try reflexivity;
    g_brk; cbn; congruence.
Qed.

Lemma tsd_new dyn t u g tsd nc f c e :
  frame_step dyn t u g tsd nc f c = Some e -> late f = false ->
  e_tsd e = tsd \/ e_tsd e = None \/ ((exists q, f = FPCInit q) /\ g_used g = false).
Proof.
  intros H N. fs_cases H; brk H; inversion H; subst; clear H; cbn in N |- *; try discriminate N; auto.
  right; right. eauto.
Qed.

Lemma born_new dyn t u g tsd nc f c e st :
  frame_step dyn t u g tsd nc f c = Some e -> e_new e = Some st ->
  none calling st /\ none setting st /\ (late f = false -> none shy st).
Proof.
  intros H N. fs_cases H; brk H; inversion H; subst; clear H; cbn in N |- *; try discriminate N;
    inversion N; subst; (split; [|split]); try (intros X; discriminate X); try intros _;
    intros f' I'; cbn in I'; repeat (destruct I' as [<-|I']; [reflexivity|]); destruct I'.
Qed.

Lemma ev_support dyn t u g tsd nc f c e :
  frame_step dyn t u g tsd nc f c = Some e ->
  (f = FCall PThreadSupport /\ e_fr e = [FCb CbThreadSupport KNone] /\ count is_support (e_ev e) = 1) \/
  ((forall k, f <> FCall k) \/ f <> FCall PThreadSupport) /\ count is_support (e_ev e) = 0.
Proof.
  intros H. fs_cases H; brk H; inversion H; subst; clear H; cbn;
    first [ right; split; [left; discriminate|]; reflexivity
          | left; split; [reflexivity|]; split; reflexivity
          | right; split; [right; discriminate|]; reflexivity ].
Qed.

Lemma ev_ret dyn t u g tsd nc f c e w v :
  frame_step dyn t u g tsd nc f c = Some e -> In (ERet w CbThreadSupport v) (e_ev e) ->
  exists k, f = FCb CbThreadSupport k.
Proof.
  intros H I'. fs_cases H; brk H; inversion H; subst; clear H; cbn in I';
    repeat (destruct I' as [I'|I']; [try discriminate I'; inversion I'; subst; eauto|]); try (destruct I'; fail).
Qed.

Lemma ev_pre dyn t u g tsd nc f c e w k :
  frame_step dyn t u g tsd nc f c = Some e -> In (ECall w (CbPreCreate k)) (e_ev e) ->
  exists q my, f = FPCPre q my.
Proof.
  intros H I'. fs_cases H; brk H; inversion H; subst; clear H; cbn in I';
    repeat (destruct I' as [I'|I']; [try discriminate I'; eauto|]); try (destruct I'; fail).
Qed.

Lemma unwind_none st : none shy (unwind st).
Proof.
  destruct (unwind_shape st) as [U|(n & f & U & _)]; rewrite U; intros x I;
    repeat (destruct I as [<-|I]; [reflexivity|]); destruct I.
Qed.
Lemma unwind_setting st : none setting (unwind st).
Proof. intros f I. apply unwind_none in I. apply shy_parts in I. tauto. Qed.

(** ** The three phases *)

Definition guard (st : list frame) : Prop :=
  forall l1 f l2, st = l1 ++ f :: l2 -> setting f = true -> none barring l1.

Lemma none_no (p : frame -> bool) l1 f l2 : none p (l1 ++ f :: l2) -> p f = true -> False.
Proof. intros H P. rewrite (H f) in P; [discriminate|]. apply in_app_iff. right. now left. Qed.

Lemma none_sub (p q : frame -> bool) l : (forall f, p f = true -> q f = true) -> none q l -> none p l.
Proof.
  intros H N f I. destruct (p f) eqn:E; [|reflexivity]. apply H in E. now rewrite (N f I) in E.
Qed.

Lemma guard_none st : none setting st -> guard st.
Proof. intros N l1 f l2 -> S. exfalso. now apply (none_no setting l1 f l2). Qed.

Lemma guard_app fr r : guard r -> none barring fr -> guard (fr ++ r).
Proof.
  intros G N l1 f l2 E S.
  apply app_eq_app in E. destruct E as (l & [(E1 & E2)|(E1 & E2)]).
  - subst fr. apply none_app in N. tauto.
  - subst l1. apply none_app. split; [exact N|]. exact (G l f l2 E2 S).
Qed.

Definition quiet (x : thread) : Prop := none shy (th_stack x) /\ th_tsd x = None.

Record p0 (s : state) : Prop := mkp0 {
  p0_flag : g_support (s_g s) = false;
  p0_others : forall t, t <> MAIN -> quiet (s_th s t);
  p0_late : none late (th_stack (s_th s MAIN));
  p0_calling : none calling (th_stack (s_th s MAIN));
  p0_guard : guard (th_stack (s_th s MAIN));
  p0_count : count is_support (s_tr s) = 0
}.

Record p1 (s : state) : Prop := mkp1 {
  p1_flag : g_support (s_g s) = true;
  p1_others : forall t, t <> MAIN -> quiet (s_th s t);
  p1_main : exists l1 f q my l2,
    th_stack (s_th s MAIN) = l1 ++ f :: FPCPre q my :: l2 /\
    ((f = FCall PThreadSupport /\ count is_support (s_tr s) = 0) \/
     (f = FCb CbThreadSupport KNone /\ count is_support (s_tr s) = 1)) /\
    none barring l1 /\ none late l2 /\ none calling l2 /\ none setting l2
}.

Record p2 (s : state) : Prop := mkp2 {
  p2_flag : g_support (s_g s) = true;
  p2_calling : forall t, none calling (th_stack (s_th s t));
  p2_setting : forall t, none setting (th_stack (s_th s t));
  p2_count : count is_support (s_tr s) = 1;
  p2_ret : exists w v, In (ERet w CbThreadSupport v) (s_tr s)
}.

Definition phase (s : state) : Prop := p0 s \/ p1 s \/ p2 s.

Lemma quiet_push x l b p : quiet x -> none shy l -> quiet (mkth (l ++ th_stack x) (th_tsd x) b (th_nc x) p).
Proof. intros [Q1 Q2] N. split; [|exact Q2]. cbn. apply none_app. now split. Qed.

Lemma none_one p f : p f = false -> none p [f].
Proof. intros H x [<-|[]]. exact H. Qed.

Lemma others_step dyn s t c s' :
  who_inv s -> clean_forks s t c -> step dyn s t c = Some s' ->
  (forall f r, th_stack (s_th s MAIN) = f :: r -> late f = false) ->
  (forall t', t' <> MAIN -> quiet (s_th s t')) ->
  forall t', t' <> MAIN -> quiet (s_th s' t').
Proof.
  intros W OK H LM Q t' N.
  destruct (step_view _ _ _ _ _ H) as (D & L & V).
  assert (S1 : forall x, (t = t' -> quiet x) -> quiet (upd (s_th s) t x t')).
  { intros x X. rewrite upd_if. destruct (Z.eqb_spec t' t) as [E|E]; [now apply X|]. now apply Q. }
  assert (Qt : t = t' -> quiet (s_th s t)) by (intros ->; now apply Q).
  destruct V as [ -> -> | -> -> | -> Pd Sh Ns -> |f r -> Pd Es Op Ns -> |f r -> Es Nc Lk -> |r -> Es Lk -> | -> Es -> |f r e Es Un Bar F ->];
    try (cbn; apply S1; intros E; specialize (Qt E)).
  - apply (quiet_push _ [FApp AppHandler] _ _ Qt). now apply none_one.
  - apply (quiet_push _ [FEPGet EXIT_SIGNAL; FEndLibDyn; FSigEnd] _ _ Qt).
    intros x I. cbn in I. repeat (destruct I as [<-|I]; [reflexivity|]). destruct I.
  - apply (quiet_push _ [FHGet] _ _ Qt). now apply none_one.
  - apply (quiet_push _ [FWGet] _ _ Qt). now apply none_one.
  - split; [apply unwind_none|apply Qt].
  - split; [apply unwind_none|apply Qt].
  - split; [intros x []|apply Qt].
  - destruct (e_child e) eqn:HC.
    { destruct (child_shape _ _ _ _ _ _ _ _ _ F HC) as (-> & _ & _ & _ & _ & NN & NK & _).
      destruct OK as [OK _]. destruct (OK eq_refl) as [-> _].
      unfold apply_eff. rewrite HC, NN, NK. cbn [s_th]. rewrite upd_if.
      destruct (Z.eqb_spec t' MAIN); [contradiction|]. split; [intros x []|reflexivity]. }
    assert (Qe : t = t' -> none shy (e_fr e ++ r) /\ e_tsd e = None).
    { intros E. specialize (Qt E). destruct Qt as [Q1 Q2]. rewrite Es in Q1. apply none_cons in Q1.
      destruct Q1 as [Sf Sr]. split.
      - apply none_app. split; [|exact Sr]. apply (shy_new _ _ _ _ _ _ _ _ _ F Sf).
        intros q _. rewrite Q2. unfold get_tn. destruct (g_used (s_g s)) eqn:U; [reflexivity|].
        rewrite (who_alone s W U t) in L; [discriminate|]. now rewrite E.
      - apply shy_parts in Sf. destruct (tsd_new _ _ _ _ _ _ _ _ _ F (proj1 Sf)) as [X|[X|[_ X]]].
        + now rewrite X.
        + exact X.
        + rewrite (who_alone s W X t) in L; [discriminate|]. now rewrite E. }
    assert (Lf : late f = false).
    { destruct (Z.eq_dec t MAIN) as [-> |Nt]; [now apply (LM f r)|].
      specialize (Q t Nt). destruct Q as [Q1 _]. rewrite Es in Q1. apply none_cons in Q1.
      now apply shy_parts. }
    split.
    + rewrite (apply_stack _ _ _ _ _ _ HC). destruct (e_new e) as [st|] eqn:EN.
      * destruct (Z.eqb_spec t' (s_next s)).
        -- now apply (born_new _ _ _ _ _ _ _ _ _ _ F EN).
        -- destruct (Z.eqb_spec t' t) as [E|E]; [now apply Qe|now apply Q].
      * destruct (Z.eqb_spec t' t) as [E|E]; [now apply Qe|now apply Q].
    + rewrite (apply_tsd _ _ _ _ _ _ HC). destruct (e_new e) as [st|] eqn:EN.
      * destruct (Z.eqb_spec t' (s_next s)); [reflexivity|].
        destruct (Z.eqb_spec t' t) as [E|E]; [now apply Qe|now apply Q].
      * destruct (Z.eqb_spec t' t) as [E|E]; [now apply Qe|now apply Q].
Qed.

(** A step of a quiet thread. *)
Lemma quiet_same dyn s t c s' :
  who_inv s -> clean_forks s t c -> step dyn s t c = Some s' -> t <> MAIN -> none shy (th_stack (s_th s t)) ->
  th_stack (s_th s' MAIN) = th_stack (s_th s MAIN) /\ g_support (s_g s') = g_support (s_g s) /\
  count is_support (s_tr s') = count is_support (s_tr s).
Proof.
  intros W OK H N Q.
  destruct (step_view _ _ _ _ _ H) as (D & L & V).
  assert (E : (MAIN =? t)%Z = false) by (apply Z.eqb_neq; congruence).
  destruct V as [ -> -> | -> -> | -> Pd Sh Ns -> |f r -> Pd Es Op Ns -> |f r -> Es Nc Lk -> |r -> Es Lk -> | -> Es -> |f r e Es Un Bar F ->];
    try (cbn; rewrite upd_if, E; now repeat split).
  rewrite Es in Q. apply none_cons in Q. destruct Q as [Q _]. apply shy_parts in Q. destruct Q as (Q1 & Q2 & Q3 & Q4).
  destruct (e_child e) eqn:HC.
  { destruct (child_shape _ _ _ _ _ _ _ _ _ F HC) as (-> & _). destruct OK as [OK _]. now destruct (OK eq_refl). }
  rewrite (apply_stack _ _ _ _ _ _ HC), apply_g, apply_tr, count_app, E.
  pose proof (who_next s W) as NX.
  assert (E2 : (MAIN =? s_next s)%Z = false) by (apply Z.eqb_neq; unfold MAIN; lia).
  rewrite E2. split; [now destruct (e_new e)|].
  split; [now apply (sup_new _ _ _ _ _ _ _ _ _ F)|].
  destruct (ev_support _ _ _ _ _ _ _ _ _ F) as [(-> & _) |(_ & X)]; [discriminate Q3|]. rewrite X. lia.
Qed.

Ltac push_none := intros x I; cbn in I; repeat (destruct I as [<-|I]; [reflexivity|]); destruct I.

Lemma p2_step dyn s t c s' : p2 s -> step dyn s t c = Some s' -> p2 s'.
Proof.
  intros P H. destruct P as [P1 P2 P3 P4 P5].
  destruct (step_view _ _ _ _ _ H) as (D & L & V).
  assert (B : forall l, none shy l -> none calling l /\ none setting l).
  { intros l Nl. split; apply (none_sub _ shy); auto; intros f Hf; unfold shy; rewrite Hf, ?orb_true_r; reflexivity. }
  assert (S1 : forall x, (none calling (th_stack x) /\ none setting (th_stack x)) -> forall t',
            none calling (th_stack (upd (s_th s) t x t')) /\ none setting (th_stack (upd (s_th s) t x t'))).
  { intros x X t'. rewrite upd_if. destruct (Z.eqb_spec t' t) as [E|E]; [exact X|]. split; auto. }
  assert (S2 : forall l, none shy l ->
            none calling (l ++ th_stack (s_th s t)) /\ none setting (l ++ th_stack (s_th s t))).
  { intros l Nl. destruct (B l Nl). split; apply none_app; split; auto. }
  assert (S3 : forall st, none calling (unwind st) /\ none setting (unwind st)).
  { intros st. apply B, unwind_none. }
  destruct V as [ -> -> | -> -> | -> Pd Sh Ns -> |f r -> Pd Es Op Ns -> |f r -> Es Nc Lk -> |r -> Es Lk -> | -> Es -> |f r e Es Un Bar F -> ].
  1-7: constructor; cbn; auto; try (intros t'; apply S1; cbn).
  - apply (S2 [FApp AppHandler]). push_none.
  - apply (S2 [FApp AppHandler]). push_none.
  - apply (S2 [FEPGet EXIT_SIGNAL; FEndLibDyn; FSigEnd]). push_none.
  - apply (S2 [FEPGet EXIT_SIGNAL; FEndLibDyn; FSigEnd]). push_none.
  - apply (S2 [FHGet]). push_none.
  - apply (S2 [FHGet]). push_none.
  - destruct P5 as (w & v & I). exists w, v. now right.
  - apply (S2 [FWGet]). push_none.
  - apply (S2 [FWGet]). push_none.
  - destruct P5 as (w & v & I). exists w, v. now right.
  - apply S3.
  - apply S3.
  - apply S3.
  - apply S3.
  - split; intros x [].
  - split; intros x [].
  - destruct P5 as (w & v & I). exists w, v. now right.
  - pose proof (P2 t) as Cf. pose proof (P3 t) as Sf. rewrite Es in Cf, Sf.
    apply none_cons in Cf, Sf. destruct Cf as [Cf Cr], Sf as [Sf Sr].
    assert (Ce : none calling (e_fr e)) by now apply (calling_new _ _ _ _ _ _ _ _ _ F).
    assert (Se : none setting (e_fr e)).
    { destruct (setting_new _ _ _ _ _ _ _ _ _ F) as [X|[X _]]; [exact X|]. congruence. }
    assert (Cer : none calling (e_fr e ++ r)) by (apply none_app; now split).
    assert (Ser : none setting (e_fr e ++ r)) by (apply none_app; now split).
    constructor.
    + rewrite apply_g. rewrite (sup_new _ _ _ _ _ _ _ _ _ F Sf). exact P1.
    + intros t'. destruct (e_child e) eqn:HC.
      { destruct (child_shape _ _ _ _ _ _ _ _ _ F HC) as (_ & _ & _ & _ & _ & NN & NK & _).
        rewrite (apply_stack_child _ _ _ _ _ _ HC NN NK). destruct (t' =? t)%Z; [exact Cer|intros x []]. }
      rewrite (apply_stack _ _ _ _ _ _ HC). destruct (e_new e) as [st|] eqn:EN.
      * destruct (t' =? s_next s)%Z; [now apply (born_new _ _ _ _ _ _ _ _ _ _ F EN)|].
        destruct (t' =? t)%Z; [exact Cer|apply P2].
      * destruct (t' =? t)%Z; [exact Cer|apply P2].
    + intros t'. destruct (e_child e) eqn:HC.
      { destruct (child_shape _ _ _ _ _ _ _ _ _ F HC) as (_ & _ & _ & _ & _ & NN & NK & _).
        rewrite (apply_stack_child _ _ _ _ _ _ HC NN NK). destruct (t' =? t)%Z; [exact Ser|intros x []]. }
      rewrite (apply_stack _ _ _ _ _ _ HC). destruct (e_new e) as [st|] eqn:EN.
      * destruct (t' =? s_next s)%Z; [now apply (born_new _ _ _ _ _ _ _ _ _ _ F EN)|].
        destruct (t' =? t)%Z; [exact Ser|apply P3].
      * destruct (t' =? t)%Z; [exact Ser|apply P3].
    + rewrite apply_tr, count_app.
      destruct (ev_support _ _ _ _ _ _ _ _ _ F) as [(-> & _) |(_ & X)]; [discriminate Cf|]. rewrite X. lia.
    + rewrite apply_tr. destruct P5 as (w & v & I). exists w, v. apply in_or_app. now right.
Qed.

(** A step of the main thread. *)
Lemma main_push dyn s c s' :
  who_inv s -> step dyn s MAIN c = Some s' ->
  (exists l, none barring l /\ none shy l /\ th_stack (s_th s' MAIN) = l ++ th_stack (s_th s MAIN) /\
     g_support (s_g s') = g_support (s_g s) /\ count is_support (s_tr s') = count is_support (s_tr s)) \/
  (none shy (th_stack (s_th s' MAIN)) /\
     g_support (s_g s') = g_support (s_g s) /\ count is_support (s_tr s') = count is_support (s_tr s) /\
     (c = CCancel \/ th_stack (s_th s MAIN) = [] \/ exists r, th_stack (s_th s MAIN) = FUnwind :: r)) \/
  (exists f r e, th_stack (s_th s MAIN) = f :: r /\
     frame_step dyn MAIN (s_next s) (s_g s) (th_tsd (s_th s MAIN)) (th_nc (s_th s MAIN)) f c = Some e /\
     th_stack (s_th s' MAIN) = e_fr e ++ r /\ g_support (s_g s') = g_support (e_g e) /\
     s_tr s' = e_ev e ++ s_tr s).
Proof.
  intros W H.
  destruct (step_view _ _ _ _ _ H) as (D & L & V).
  destruct V as [ -> -> | -> -> | -> Pd Sh Ns -> |f r -> Pd Es Op Ns -> |f r -> Es Nc Lk -> |r -> Es Lk -> | -> Es -> |f r e Es Un Bar F -> ].
  - left. exists [FApp AppHandler]. split; [push_none|]. split; [push_none|]. cbn. now repeat split.
  - left. exists [FEPGet EXIT_SIGNAL; FEndLibDyn; FSigEnd]. split; [push_none|]. split; [push_none|]. cbn. now repeat split.
  - left. exists [FHGet]. split; [push_none|]. split; [push_none|]. cbn. now repeat split.
  - left. exists [FWGet]. split; [push_none|]. split; [push_none|]. cbn. now repeat split.
  - right. left. split; [apply unwind_none|]. repeat split. now left.
  - right. left. split; [apply unwind_none|]. repeat split. right. right. now exists r.
  - right. left. split; [intros x []|]. repeat split. right. now left.
  - right. right. exists f, r, e. split; [exact Es|]. split; [exact F|].
    rewrite apply_g, apply_tr. split; [|now split].
    destruct (e_child e) eqn:HC.
    { destruct (child_shape _ _ _ _ _ _ _ _ _ F HC) as (_ & _ & _ & _ & _ & NN & NK & _).
      rewrite (apply_stack_child _ _ _ _ _ _ HC NN NK). now rewrite Z.eqb_refl. }
    pose proof (who_next s W) as NX.
    assert (E2 : (MAIN =? s_next s)%Z = false) by (apply Z.eqb_neq; unfold MAIN; lia).
    rewrite (apply_stack _ _ _ _ _ _ HC), E2, Z.eqb_refl. now destruct (e_new e).
Qed.

Lemma none_of_shy l : none shy l -> none late l /\ none early l /\ none calling l /\ none setting l.
Proof.
  intros Nl. repeat split; apply (none_sub _ shy); auto; intros f Hf; unfold shy; rewrite Hf, ?orb_true_r; reflexivity.
Qed.
Lemma none_of_barring l : none barring l -> none late l /\ none early l /\ none calling l /\ none setting l.
Proof.
  intros Nl. repeat split; apply (none_sub _ barring); auto; intros f Hf; unfold barring; rewrite Hf, ?orb_true_r; reflexivity.
Qed.

Lemma in_split_none (p : frame -> bool) st : none p st \/ exists l1 f l2, st = l1 ++ f :: l2 /\ p f = true.
Proof.
  destruct (existsb p st) eqn:E.
  - right. apply existsb_exists in E. destruct E as (f & I & Pf). apply in_split in I.
    destruct I as (l1 & l2 & ->). now exists l1, f, l2.
  - left. intros f I. apply not_true_is_false. intros X.
    assert (existsb p st = true) by (apply existsb_exists; now exists f). congruence.
Qed.

Lemma p0_main dyn s c s' :
  who_inv s -> support_alone s MAIN c -> step dyn s MAIN c = Some s' -> p0 s ->
  (forall t, t <> MAIN -> quiet (s_th s' t)) -> p0 s' \/ p1 s'.
Proof.
  intros W [OK OK2] H P Q'. destruct P as [P1 P2 P3 P4 P5 P6].
  assert (AS : forall l1 f l2, th_stack (s_th s MAIN) = l1 ++ f :: l2 -> setting f = true ->
     (forall st ar ra, c <> CCall (ACreate st ar ra)) /\ c <> CCall APthreadExit /\ c <> CCancel).
  { intros l1 f l2 E Sf. apply OK2. rewrite E, existsb_app. cbn. destruct f; try discriminate Sf. cbn.
    now rewrite orb_true_r. }
  destruct (main_push _ _ _ _ W H) as [(l & B & Sh & Es & Eg & Ec)|[(Sh & Eg & Ec & _)|(f & r & e & Es & F & Es' & Eg & Et)]].
  - left. destruct (none_of_shy _ Sh) as (U1 & U2 & U3 & U4). constructor; auto; rewrite ?Es, ?Eg, ?Ec; auto.
    + apply none_app; now split.
    + apply none_app; now split.
    + now apply guard_app.
  - left. destruct (none_of_shy _ Sh) as (U1 & U2 & U3 & U4). constructor; auto; rewrite ?Eg, ?Ec; auto.
    now apply guard_none.
  - rewrite Es in P3, P4, P5. apply none_cons in P3, P4. destruct P3 as [Lf Lr], P4 as [Cf Cr].
    destruct (setting f) eqn:Sf.
    + right. destruct f; try discriminate Sf.
      assert (Sr : none setting r).
      { destruct (in_split_none setting r) as [X|(l1 & f & l2 & -> & Sf')]; [exact X|].
        specialize (P5 (FPCSupSet q my :: l1) f l2 eq_refl Sf'). apply none_cons in P5. now destruct P5. }
      destruct c; cbn in F; try discriminate F. inversion F; subst e. cbn in Eg, Es', Et.
      constructor; auto. exists [], (FCall PThreadSupport), q, my, r. cbn.
      split; [exact Es'|]. split; [left; split; [reflexivity|now rewrite Et]|].
      split; [intros x []|]. now repeat split.
    + left. assert (Er : none late (e_fr e)) by (apply (late_new _ _ _ _ _ _ _ _ _ F Lf Sf); auto).
      assert (Ce : none calling (e_fr e)) by now apply (calling_new _ _ _ _ _ _ _ _ _ F).
      constructor; auto; rewrite ?Es', ?Eg, ?Et.
      * rewrite (sup_new _ _ _ _ _ _ _ _ _ F Sf). exact P1.
      * apply none_app; now split.
      * apply none_app; now split.
      * destruct (in_split_none setting r) as [Sr|(l1 & g & l2 & -> & Sg)].
        -- destruct (setting_new _ _ _ _ _ _ _ _ _ F) as [X|(_ & _ & q & my & X)].
           ++ apply guard_none. apply none_app; now split.
           ++ rewrite X. intros l1 g l2 E Sg. destruct l1 as [|y l1]; [intros x []|].
              exfalso. inversion E; subst. now apply (none_no setting l1 g l2).
        -- assert (Bf : barring f = false).
           { specialize (P5 (f :: l1) g l2 eq_refl Sg). apply none_cons in P5. tauto. }
           destruct (AS (f :: l1) g l2 Es Sg) as (A1 & A2 & _).
           apply guard_app; [|now apply (barring_new _ _ _ _ _ _ _ _ _ F)].
           intros l3 h l4 E Sh. specialize (P5 (f :: l3) h l4). rewrite E in P5. specialize (P5 eq_refl Sh).
           apply none_cons in P5. tauto.
      * rewrite count_app. destruct (ev_support _ _ _ _ _ _ _ _ _ F) as [(-> & _) |(_ & X)]; [discriminate Cf|].
        rewrite X. exact P6.
Qed.

Lemma cb_step dyn t u g tsd nc c e :
  frame_step dyn t u g tsd nc (FCb CbThreadSupport KNone) c = Some e ->
  (forall st ar ra, c <> CCall (ACreate st ar ra)) -> c <> CCall APthreadExit ->
  (exists l, none barring l /\ e_fr e = l ++ [FCb CbThreadSupport KNone] /\
     g_support (e_g e) = g_support g /\ count is_support (e_ev e) = 0) \/
  (exists v, e_fr e = [] /\ g_support (e_g e) = g_support g /\ e_ev e = [ERet t CbThreadSupport v]).
Proof.
  intros H N1 N2. destruct c; cbn in H; try discriminate H.
  - left. exists (api_frames a (g_calls g)).
    destruct a; try (exfalso; now apply (N1 _ _ _ eq_refl)); try (exfalso; now apply N2);
      try discriminate H; inversion H; subst;
      (split; [|split; [reflexivity|now split]]); intros x I; cbn in I;
      try (match type of I with context [if ?b then _ else _] => destruct b end; cbn in I);
      repeat (destruct I as [<-|I]; [reflexivity|]); destruct I.
  - right. inversion H; subst. cbn. eauto.
Qed.

Lemma p1_main_step dyn s c s' :
  who_inv s -> support_alone s MAIN c -> step dyn s MAIN c = Some s' -> p1 s ->
  (forall t, t <> MAIN -> quiet (s_th s' t)) -> p1 s' \/ p2 s'.
Proof.
  intros W [OK OK2] H P Q'. destruct P as [P1 P2 (l1 & f0 & q & my & l2 & Es0 & Cf0 & B1 & Ll & Cl & Sl)].
  assert (Af : calling f0 = true) by (destruct Cf0 as [[-> _]|[-> _]]; reflexivity).
  assert (AS : (forall st ar ra, c <> CCall (ACreate st ar ra)) /\ c <> CCall APthreadExit /\ c <> CCancel).
  { apply OK2. rewrite Es0, existsb_app. cbn.
    destruct Cf0 as [[-> _]|[-> _]]; cbn; now rewrite orb_true_r. }
  destruct AS as (A1 & A2 & A3).
  destruct (main_push _ _ _ _ W H) as [(l & B & Sh & Es & Eg & Ec)|[(Sh & Eg & Ec & X)|(f & r & e & Es & F & Es' & Eg & Et)]].
  - left. constructor; [congruence|exact Q'|]. exists (l ++ l1), f0, q, my, l2.
    rewrite Es, Es0, Ec. split; [now rewrite app_assoc|]. split; [exact Cf0|].
    split; [apply none_app; now split|]. now repeat split.
  - exfalso. destruct X as [X|[X|(r & X)]]; [contradiction| |]; rewrite Es0 in X; destruct l1 as [|y l1]; try discriminate X.
    + inversion X; subst f0. discriminate Af.
    + inversion X; subst y. apply none_cons in B1. destruct B1. discriminate.
  - rewrite Es in Es0. destruct l1 as [|y l1]; inversion Es0; subst.
    + (* the callback itself *)
      destruct Cf0 as [[-> C0]|[-> C1]].
      * left. destruct c; cbn in F; try discriminate F. inversion F; subst e. cbn in Eg, Es', Et.
        constructor; [congruence|exact Q'|]. exists [], (FCb CbThreadSupport KNone), q, my, l2.
        split; [exact Es'|]. split; [right; split; [reflexivity|rewrite Et; cbn; lia]|].
        split; [intros x []|]. now repeat split.
      * destruct (cb_step _ _ _ _ _ _ _ _ F A1 A2) as [(l & Bl & Fe & Ge & Ee)|(v & Fe & Ge & Ee)].
        -- left. constructor; [congruence|exact Q'|]. exists l, (FCb CbThreadSupport KNone), q, my, l2.
           rewrite Es', Fe, Et, count_app, Ee, <- app_assoc. split; [reflexivity|].
           split; [right; now split|]. now repeat split.
        -- right. rewrite Fe in Es'. cbn in Es'.
           constructor; [congruence| | | |].
           ++ intros t. destruct (Z.eq_dec t MAIN) as [-> |N].
              ** rewrite Es'. apply none_cons. now split.
              ** destruct (Q' t N) as [Qs _]. now apply none_of_shy.
           ++ intros t. destruct (Z.eq_dec t MAIN) as [-> |N].
              ** rewrite Es'. apply none_cons. now split.
              ** destruct (Q' t N) as [Qs _]. now apply none_of_shy.
           ++ rewrite Et, Ee. cbn. exact C1.
           ++ exists MAIN, v. rewrite Et, Ee. now left.
    + left. apply none_cons in B1. destruct B1 as [By B1].
      pose proof (barring_new _ _ _ _ _ _ _ _ _ F By A1 A2) as Be.
      destruct (barring_parts _ By) as (Y1 & Y2 & Y3 & Y4).
      constructor; [|exact Q'|].
      * rewrite Eg, (sup_new _ _ _ _ _ _ _ _ _ F Y4). exact P1.
      * exists (e_fr e ++ l1), f0, q, my, l2. rewrite Es', Et, count_app.
        destruct (ev_support _ _ _ _ _ _ _ _ _ F) as [(-> & _) |(_ & X)]; [discriminate Y3|].
        rewrite X. split; [now rewrite app_assoc|]. split; [exact Cf0|].
        split; [apply none_app; now split|]. now repeat split.
Qed.

Lemma phase_reach dyn s : reach dyn support_alone s -> phase s.
Proof.
  intros R. apply (reach_invariant dyn support_alone phase) with (s := s); [| |exact R]; clear s R.
  - left. constructor; try reflexivity.
    + intros t N. unfold quiet, init. cbn [s_th]. rewrite upd_if.
      destruct (Z.eqb_spec t MAIN); [contradiction|]. split; [intros x []|reflexivity].
    + cbn. push_none.
    + cbn. push_none.
    + apply guard_none. cbn. push_none.
  - intros s t c s' R P OK H.
    assert (W : who_inv s).
    { apply (who_reach dyn). eapply reach_weaken; [|exact R]. intros ? ? ? X. apply X. }
    pose proof (proj1 OK) as CF.
    destruct P as [P|[P|P]].
    + assert (Q' : forall t', t' <> MAIN -> quiet (s_th s' t')).
      { apply (others_step dyn s t c s' W CF H); [|apply P].
        intros f r E. pose proof (p0_late s P) as X. rewrite E in X. apply none_cons in X. tauto. }
      destruct (Z.eq_dec t MAIN) as [-> |N].
      * destruct (p0_main _ _ _ _ W OK H P Q') as [X|X]; [now left|right; now left].
      * destruct (quiet_same _ _ _ _ _ W CF H N (proj1 (p0_others s P t N))) as (E1 & E2 & E3).
        left. destruct P. constructor; rewrite ?E1, ?E2, ?E3; auto.
    + assert (Q' : forall t', t' <> MAIN -> quiet (s_th s' t')).
      { apply (others_step dyn s t c s' W CF H); [|apply P].
        intros f r E. destruct (p1_main s P) as (l1 & f0 & q & my & l2 & Es0 & Cf0 & B1 & _).
        rewrite E in Es0. destruct l1 as [|y l1]; inversion Es0; subst.
        - destruct Cf0 as [[-> _]|[-> _]]; reflexivity.
        - apply none_cons in B1. now apply barring_parts. }
      destruct (Z.eq_dec t MAIN) as [-> |N].
      * destruct (p1_main_step _ _ _ _ W OK H P Q') as [X|X]; [right; now left|right; now right].
      * destruct (quiet_same _ _ _ _ _ W CF H N (proj1 (p1_others s P t N))) as (E1 & E2 & E3).
        right. left. destruct P as [P1 P2 P3]. constructor; auto; [congruence|].
        rewrite E1, E3. exact P3.
    + right. right. now apply (p2_step _ _ _ _ _ P H).
Qed.

(** Every pre_create callback comes after the return of init_thread_support. *)
Definition pre_inv (s : state) : Prop :=
  forall l w k r, s_tr s = l ++ ECall w (CbPreCreate k) :: r -> exists w' v, In (ERet w' CbThreadSupport v) r.

Lemma pre_reach dyn s : reach dyn support_alone s -> pre_inv s.
Proof.
  intros R. apply (reach_invariant dyn support_alone pre_inv) with (s := s); [| |exact R]; clear s R.
  - intros l w k r E. cbn in E. destruct l; discriminate.
  - intros s t c s' R I OK H. pose proof (phase_reach _ _ R) as P.
    destruct (step_view _ _ _ _ _ H) as (D & L & V).
    assert (K : forall x, (forall w k, x <> ECall w (CbPreCreate k)) -> forall l w k r,
      x :: s_tr s = l ++ ECall w (CbPreCreate k) :: r -> exists w' v, In (ERet w' CbThreadSupport v) r).
    { intros x Nx l w k r E. destruct l as [|y l]; inversion E; subst.
      - now destruct (Nx w k).
      - now apply (I l w k r). }
    destruct V as [ -> -> | -> -> | -> Pd Sh Ns -> |f r -> Pd Es Op Ns -> |f r -> Es Nc Lk -> |r -> Es Lk -> | -> Es -> |f r e Es Un Bar F -> ];
      try exact I; try (unfold pre_inv; cbn; apply K; discriminate).
    unfold pre_inv. rewrite apply_tr. intros l w k r' E.
    apply app_eq_app in E. destruct E as (l0 & [(E1 & E2)|(E1 & E2)]); cycle 1.
    { now apply (I l0 w k r'). }
    destruct l0 as [|y l0]; cbn in E2; [now apply (I [] w k r')|].
    inversion E2; subst y.
    assert (In (ECall w (CbPreCreate k)) (e_ev e)) as IE.
    { rewrite E1. apply in_or_app. right. now left. }
    destruct (ev_pre _ _ _ _ _ _ _ _ _ _ _ F IE) as (q & my & ->).
    destruct P as [P|[P|P]].
    + exfalso. destruct (Z.eq_dec t MAIN) as [-> |N].
      * pose proof (p0_late s P) as X. rewrite Es in X. apply none_cons in X. now destruct X.
      * destruct (p0_others s P t N) as [X _]. rewrite Es in X. apply none_cons in X. now destruct X.
    + exfalso. destruct (Z.eq_dec t MAIN) as [-> |N].
      * destruct (p1_main s P) as (l1 & f0 & q' & my' & l2 & Es0 & Cf0 & B1 & _).
        rewrite Es in Es0. destruct l1 as [|y l1]; inversion Es0; subst.
        -- destruct Cf0 as [[X _]|[X _]]; discriminate X.
        -- apply none_cons in B1. now destruct B1.
      * destruct (p1_others s P t N) as [X _]. rewrite Es in X. apply none_cons in X. now destruct X.
    + destruct (p2_ret s P) as (w' & v & J). exists w', v. apply in_or_app. now right.
Qed.

(** ** monitor_is_threaded *)

Record used_inv (s : state) : Prop := mkused {
  us_enter : forall t f, In f (th_stack (s_th s t)) -> entering f = true ->
      exists w q, In (ECreateCall w q) (image (s_tr s));
  us_yes : existsb resetting (th_stack (s_th s MAIN)) = false -> g_used (s_g s) = true ->
      exists w q, In (ECreateCall w q) (image (s_tr s));
  us_no : g_used (s_g s) = false \/ existsb resetting (th_stack (s_th s MAIN)) = true ->
      forall e, In e (image (s_tr s)) -> ~ created e
}.

Lemma image_app a b : (forall w, ~ In (EFork w) a) -> image (a ++ b) = a ++ image b.
Proof.
  induction a as [|x a IH]; intros N; [reflexivity|].
  assert (X : image (a ++ b) = a ++ image b) by (apply IH; intros w I; apply (N w); now right).
  destruct x; cbn; rewrite ?X; try reflexivity. exfalso. now apply (N t), or_introl.
Qed.

Lemma enter_new dyn t u g tsd nc f c e f' :
  frame_step dyn t u g tsd nc f c = Some e -> In f' (e_fr e) -> entering f' = true ->
  exists w q, In (ECreateCall w q) (e_ev e).
Proof.
  intros H I' E. fs_cases H; brk H; inversion H; subst; clear H; cbn in I';
    try (repeat (destruct I' as [<-|I']; [discriminate E|]); destruct I'; fail);
    repeat eexists; now left.
Qed.

Lemma used_new dyn t u g tsd nc f c e :
  frame_step dyn t u g tsd nc f c = Some e -> g_used (e_g e) = true -> g_used g = true \/ entering f = true.
Proof.
  intros H E. destruct (g_used g) eqn:G0; [now left|]. right.
  fs_cases H; brk H; inversion H; subst; clear H; cbn in E |- *; try reflexivity; try congruence;
    unfold reset_list in E; rewrite ?G0 in E; cbn in E; g_brk; cbn in *; try congruence;
    match goal with X : g_used g = false |- _ => rewrite X in E; congruence end.
Qed.

Lemma created_new dyn t u g tsd nc f c e x :
  frame_step dyn t u g tsd nc f c = Some e -> In x (e_ev e) -> created x -> creating f = true.
Proof.
  intros H I' E. fs_cases H; brk H; inversion H; subst; clear H; cbn in I' |- *; auto;
    repeat (destruct I' as [<-|I']; [destruct E as [(? & ? & ? & ? & E)|(? & ? & E)]; discriminate E|]); destruct I'.
Qed.

Lemma reset_new dyn t u g tsd nc f c e :
  frame_step dyn t u g tsd nc f c = Some e -> resetting f = true -> creating f = false /\
  (g_used (e_g e) = false \/ existsb resetting (e_fr e) = true).
Proof.
  intros H E. fs_cases H; brk H; inversion H; subst; clear H; cbn in E |- *; try discriminate E;
    try (split; [reflexivity|]); auto; left;
    unfold reset_list; destruct (g_used g) eqn:G0; cbn; try exact G0; reflexivity.
Qed.

Lemma fork_new dyn t u g tsd nc f c e w :
  frame_step dyn t u g tsd nc f c = Some e -> e_child e = false -> ~ In (EFork w) (e_ev e).
Proof.
  intros H HC I'. fs_cases H; brk H; inversion H; subst; clear H; cbn in HC, I'; try discriminate HC;
    repeat (destruct I' as [I'|I']; [discriminate I'|]); destruct I'.
Qed.

Lemma born_enter dyn t u g tsd nc f c e st :
  frame_step dyn t u g tsd nc f c = Some e -> e_new e = Some st -> none entering st.
Proof.
  intros H N. fs_cases H; brk H; inversion H; subst; clear H; cbn in N |- *; try discriminate N;
    inversion N; subst; intros f' I'; cbn in I'; repeat (destruct I' as [<-|I']; [reflexivity|]); destruct I'.
Qed.

Lemma unwind_plain st : none entering (unwind st) /\ existsb resetting (unwind st) = false.
Proof.
  destruct (unwind_shape st) as [U|(n & f & U & _)]; rewrite U; split; try reflexivity; intros x I;
    repeat (destruct I as [<-|I]; [reflexivity|]); destruct I.
Qed.

Lemma used_step dyn s t c s' :
  who_inv s -> outside_create s t c -> used_inv s -> step dyn s t c = Some s' -> used_inv s'.
Proof.
  intros W [CF OC] U H. destruct (step_view _ _ _ _ _ H) as (D & L & V).
  assert (TM : existsb resetting (th_stack (s_th s MAIN)) = true -> t = MAIN).
  { intros X. destruct (who_reset s W MAIN X) as (_ & _ & A).
    destruct (Z.eq_dec t MAIN) as [E|E]; [exact E|]. now rewrite (A t E) in L. }
  assert (TOP : forall f r, th_stack (s_th s t) = f :: r -> existsb resetting (th_stack (s_th s MAIN)) = true ->
             resetting f = true).
  { intros f r Es X. pose proof (TM X). subst t.
    destruct (who_reset s W MAIN X) as (_ & (f' & r' & E & Rf & _) & _). congruence. }
  (* the plain steps: the stack of t changes to st, the image grows by l *)
  assert (PLAIN : forall x l,
     (forall f, In f (th_stack x) -> entering f = true -> In f (th_stack (s_th s t))) ->
     (t = MAIN -> existsb resetting (th_stack x) = existsb resetting (th_stack (s_th s MAIN))) ->
     (forall e, In e l -> ~ created e) -> (forall w, ~ In (EFork w) l) ->
     used_inv (add_ev l (set_th s t x))).
  { intros x l A1 A2 A3 A4.
    assert (R : existsb resetting (th_stack (upd (s_th s) t x MAIN)) = existsb resetting (th_stack (s_th s MAIN))).
    { rewrite upd_if. destruct (Z.eqb_spec MAIN t) as [E|E]; [now apply A2|reflexivity]. }
    constructor; cbn [s_th s_g s_tr add_ev set_th]; rewrite ?R, (image_app _ _ A4).
    - intros t' f I E. assert (J : In f (th_stack (s_th s t'))).
      { rewrite upd_if in I. destruct (Z.eqb_spec t' t) as [->|]; auto. }
      destruct (us_enter s U t' f J E) as (w & q & K). exists w, q. apply in_or_app. now right.
    - intros E1 E2. destruct (us_yes s U E1 E2) as (w & q & K). exists w, q. apply in_or_app. now right.
    - intros E e I. apply in_app_or in I. destruct I as [I|I]; [now apply A3|]. now apply (us_no s U E). }
  assert (PUSH : forall x l0 l, th_stack x = l0 ++ th_stack (s_th s t) ->
     none entering l0 -> existsb resetting l0 = false ->
     (forall e, In e l -> ~ created e) -> (forall w, ~ In (EFork w) l) ->
     used_inv (add_ev l (set_th s t x))).
  { intros x l0 l Ex N0 R0 A3 A4. apply PLAIN; auto.
    - intros f I E. rewrite Ex in I. apply in_app_or in I. destruct I as [I|I]; [|exact I].
      now rewrite (N0 f I) in E.
    - intros ->. rewrite Ex, existsb_app, R0. reflexivity. }
  assert (NIL : forall s0, used_inv (add_ev [] s0) -> used_inv s0).
  { intros s0 [X1 X2 X3]. constructor; assumption. }
  destruct V as [ -> -> | -> -> | -> Pd Sh Ns -> |f r -> Pd Es Op Ns -> |f r -> Es Nc Lk -> |r -> Es Lk -> | -> Es -> |f r e Es Un Bar F -> ].
  - apply NIL, (PUSH _ [FApp AppHandler]); auto; try (now intros ? []). push_none.
  - apply NIL, (PUSH _ [FEPGet EXIT_SIGNAL; FEndLibDyn; FSigEnd]); auto; try (now intros ? []). push_none.
  - apply (PUSH _ [FHGet]); auto; [push_none| |].
    + intros e [<-|[]] [(? & ? & ? & ? & E)|(? & ? & E)]; discriminate E.
    + intros w [E|[]]. discriminate E.
  - apply (PUSH _ [FWGet]); auto; [push_none| |].
    + intros e [<-|[]] [(? & ? & ? & ? & E)|(? & ? & E)]; discriminate E.
    + intros w [E|[]]. discriminate E.
  - apply NIL, PLAIN; try (now intros ? []).
    + intros f' I E. cbn in I. now rewrite (proj1 (unwind_plain _) f' I) in E.
    + intros ->. cbn. rewrite (proj2 (unwind_plain _)). symmetry. apply not_true_is_false. intros X.
      now apply (proj2 CF) in X.
  - apply NIL, PLAIN; try (now intros ? []).
    + intros f' I E. cbn in I. now rewrite (proj1 (unwind_plain _) f' I) in E.
    + intros E0. cbn. rewrite (proj2 (unwind_plain _)). symmetry. apply not_true_is_false. intros X.
      pose proof (TOP _ _ Es X). discriminate.
  - apply PLAIN.
    + intros f' [].
    + intros ->. now rewrite Es.
    + intros e [<-|[]] [(? & ? & ? & ? & E)|(? & ? & E)]; discriminate E.
    + intros w [E|[]]. discriminate E.
  - destruct (e_child e) eqn:HC.
    { destruct (child_shape _ _ _ _ _ _ _ _ _ F HC) as (-> & Eg & _ & _ & Ev & NN & NK & SH).
      destruct (proj1 CF eq_refl) as [-> _].
      specialize (OC eq_refl). rewrite Es in OC. cbn in OC. apply orb_false_iff in OC. destruct OC as [_ OC].
      assert (NE : none entering (e_fr e ++ r)).
      { apply none_app. split.
        - destruct SH as [(d & _ & ->) | (_ & ->)]; push_none.
        - intros x I. apply not_true_is_false. intros X.
          assert (existsb entering r = true) by (apply existsb_exists; now exists x). congruence. }
      constructor.
      - intros t' f' I E. rewrite (apply_stack_child _ _ _ _ _ _ HC NN NK) in I.
        destruct (t' =? MAIN)%Z; [|destruct I]. now rewrite (NE f' I) in E.
      - rewrite (apply_stack_child _ _ _ _ _ _ HC NN NK), Z.eqb_refl, existsb_app.
        intros X. exfalso. destruct SH as [(d & _ & E) | (_ & E)]; rewrite E in X; discriminate X.
      - intros _ x. rewrite apply_tr, Ev. cbn. intros []. }
    assert (EI : image (s_tr (apply_eff s t (s_th s t) r e)) = e_ev e ++ image (s_tr s)).
    { rewrite apply_tr. apply image_app. intros w. now apply (fork_new _ _ _ _ _ _ _ _ _ _ F). }
    pose proof (who_next s W) as NX.
    assert (E2 : (MAIN =? s_next s)%Z = false) by (apply Z.eqb_neq; unfold MAIN; lia).
    assert (EM : th_stack (s_th (apply_eff s t (s_th s t) r e) MAIN) =
                 if (MAIN =? t)%Z then e_fr e ++ r else th_stack (s_th s MAIN)).
    { rewrite (apply_stack _ _ _ _ _ _ HC), E2. now destruct (e_new e). }
    destruct (reset_local _ _ _ _ _ _ _ _ _ F HC) as (R1 & _).
    constructor; rewrite ?EI, ?apply_g, ?EM.
    + intros t' f' I E. rewrite (apply_stack _ _ _ _ _ _ HC) in I.
      assert (K : none entering (match e_new e with Some st => st | None => [] end)).
      { destruct (e_new e) as [st|] eqn:EN; [now apply (born_enter _ _ _ _ _ _ _ _ _ _ F EN)|intros x []]. }
      assert (J : In f' (e_fr e) \/ In f' (th_stack (s_th s t')) \/ In f' r \/
                  In f' (match e_new e with Some st => st | None => [] end)).
      { destruct (e_new e); [destruct (t' =? s_next s)%Z; [auto|]|];
          (destruct (t' =? t)%Z; [apply in_app_or in I; destruct I; auto|auto]). }
      destruct J as [J|[J|[J|J]]].
      * destruct (enter_new _ _ _ _ _ _ _ _ _ _ F J E) as (w & q & Q). exists w, q. apply in_or_app. now left.
      * destruct (us_enter s U t' f' J E) as (w & q & Q). exists w, q. apply in_or_app. now right.
      * destruct (us_enter s U t f') as (w & q & Q); auto; [rewrite Es; now right|].
        exists w, q. apply in_or_app. now right.
      * now rewrite (K f' J) in E.
    + intros X Y. assert (Z0 : exists w q, In (ECreateCall w q) (image (s_tr s))).
      { destruct (used_new _ _ _ _ _ _ _ _ _ F Y) as [G|G].
        - destruct (existsb resetting (th_stack (s_th s MAIN))) eqn:RM; [|now apply (us_yes s U)].
          exfalso. pose proof (TM eq_refl). subst t. rewrite Z.eqb_refl, existsb_app in X.
          apply orb_false_iff in X. destruct X as [X _].
          destruct (reset_new _ _ _ _ _ _ _ _ _ F (TOP f r Es eq_refl)) as (_ & [A|A]); congruence.
        - apply (us_enter s U t f); [rewrite Es; now left|exact G]. }
      destruct Z0 as (w & q & Q). exists w, q. apply in_or_app. now right.
    + intros X.
      assert (A : creating f = false /\ (g_used (s_g s) = false \/ existsb resetting (th_stack (s_th s MAIN)) = true)).
      { destruct (existsb resetting (th_stack (s_th s MAIN))) eqn:RM.
        - split; [|now right]. now apply (reset_new _ _ _ _ _ _ _ _ _ F (TOP f r Es eq_refl)).
        - assert (RF : t = MAIN -> resetting f = false /\ existsb resetting r = false).
          { intros ->. rewrite Es in RM. cbn in RM. now apply orb_false_iff in RM. }
          assert (RF2 : resetting f = false).
          { destruct (resetting f) eqn:RF2; [|reflexivity].
            assert (Q : existsb resetting (th_stack (s_th s t)) = true) by (rewrite Es; cbn; now rewrite RF2).
            destruct (who_reset s W t Q) as (E & _). now destruct (RF E). }
          destruct X as [X|X].
          + destruct (g_used (s_g s)) eqn:G.
            * destruct (used_local _ _ _ _ _ _ _ _ _ F) as (Y & _). rewrite (Y G RF2) in X. discriminate.
            * split; [|now left]. destruct (creating f) eqn:CR; [|reflexivity].
              rewrite (who_create s W t f) in G; [discriminate|rewrite Es; now left|exact CR].
          + exfalso. destruct (Z.eqb_spec MAIN t) as [E|E].
            * subst t. rewrite existsb_app, (R1 RF2) in X. destruct (RF eq_refl) as [_ Y]. rewrite Y in X. discriminate.
            * congruence. }
      destruct A as [A1 A2]. intros x I C. apply in_app_or in I. destruct I as [I|I].
      * rewrite (created_new _ _ _ _ _ _ _ _ _ _ F I C) in A1. discriminate.
      * now apply (us_no s U A2 x).
Qed.

Lemma used_reach dyn s : reach dyn outside_create s -> who_inv s /\ used_inv s.
Proof.
  intros R. assert (W : forall s, reach dyn outside_create s -> who_inv s).
  { intros s0 R0. apply (who_reach dyn). eapply reach_weaken; [|exact R0]. intros ? ? ? X. apply X. }
  split; [now apply W|].
  apply (reach_invariant dyn outside_create used_inv) with (s := s); [| |exact R].
  - constructor.
    + intros t f I E. unfold init in I. cbn [s_th] in I. rewrite upd_if in I.
      destruct (t =? MAIN)%Z; cbn in I; repeat (destruct I as [<-|I]; [discriminate E|]); destruct I.
    + intros _ X. discriminate X.
    + intros _ e [].
  - intros s0 t c s' R0 I OK H. apply (used_step dyn s0 t c s'); auto.
Qed.

Lemma query_ev dyn t u g tsd nc f c e w q v :
  frame_step dyn t u g tsd nc f c = Some e -> In (EQuery w q v) (e_ev e) ->
  f = FQuery q /\ e_ev e = [EQuery w q v] /\ v = answer g tsd q.
Proof.
  intros H I'. fs_cases H; brk H; inversion H; subst; clear H; cbn in I';
    repeat (destruct I' as [I'|I']; [try discriminate I'; inversion I'; subst; now repeat split|]); try (destruct I'; fail).
Qed.

Definition ask_ok (v : Z) (r : list event) : Prop :=
  (v = 1%Z /\ exists w q, In (ECreateCall w q) (image r)) \/
  (v = 0%Z /\ forall e, In e (image r) -> ~ created e).

Lemma ask_reach dyn s : reach dyn outside_create s ->
  forall l w v r, s_tr s = l ++ EQuery w QThreaded v :: r -> ask_ok v r.
Proof.
  intros R. set (P := fun s => forall l w v r, s_tr s = l ++ EQuery w QThreaded v :: r -> ask_ok v r).
  apply (reach_invariant dyn outside_create P) with (s := s); [| |exact R]; clear s R; unfold P.
  - intros l w v r E. cbn in E. destruct l; discriminate.
  - intros s t c s' R I OK H. destruct (used_reach _ _ R) as [W U].
    destruct (step_view _ _ _ _ _ H) as (D & L & V).
    assert (K : forall x, (forall w q v, x <> EQuery w q v) -> forall l w v r,
      x :: s_tr s = l ++ EQuery w QThreaded v :: r -> ask_ok v r).
    { intros x Nx l w k r E. destruct l as [|y l]; inversion E; subst.
      - now destruct (Nx w QThreaded k).
      - now apply (I l w k r). }
    destruct V as [ -> -> | -> -> | -> Pd Sh Ns -> |f r -> Pd Es Op Ns -> |f r -> Es Nc Lk -> |r -> Es Lk -> | -> Es -> |f r e Es Un Bar F -> ];
      try exact I; try (cbn; apply K; discriminate).
    rewrite apply_tr. intros l w v r' E.
    apply app_eq_app in E. destruct E as (l0 & [(E1 & E2)|(E1 & E2)]); cycle 1.
    { now apply (I l0 w v r'). }
    destruct l0 as [|y l0]; cbn in E2; [now apply (I [] w v r')|].
    inversion E2; subst y.
    assert (In (EQuery w QThreaded v) (e_ev e)) as IE.
    { rewrite E1. apply in_or_app. right. now left. }
    destruct (query_ev _ _ _ _ _ _ _ _ _ _ _ _ F IE) as (-> & Ev & ->).
    assert (l0 = []) as ->.
    { rewrite Ev in E1. destruct l as [|y l]; inversion E1; subst; [reflexivity|]. destruct l; discriminate. }
    cbn. unfold ask_ok. cbn [answer].
    assert (RM : existsb resetting (th_stack (s_th s MAIN)) = false).
    { apply not_true_is_false. intros X. destruct (who_reset s W MAIN X) as (_ & (f' & r1 & Ef & Rf & _) & A).
      destruct (Z.eq_dec t MAIN) as [-> |N].
      - rewrite Es in Ef. inversion Ef; subst. discriminate Rf.
      - now rewrite (A t N) in L. }
    destruct (g_used (s_g s)) eqn:G.
    + left. split; [reflexivity|]. now apply (us_yes s U).
    + right. split; [reflexivity|]. apply (us_no s U). now left.
Qed.
