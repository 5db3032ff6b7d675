(** Facts about one thread in every schedule: what happens at most once in its
    life, and frame invariants that also mention thread-specific data. *)
From Verif Require Export LifeNode.

Local Open Scope nat_scope.

(** ** Threads that do not exist yet *)

Record born_inv (s : state) : Prop := mkborn {
  born_next : (2 <= s_next s)%Z;
  born_fresh : forall t, (s_next s <= t)%Z ->
    th_stack (s_th s t) = [] /\ th_live (s_th s t) = false /\
    forall e, In e (s_tr s) -> actor e <> t;
  born_dead : forall t, th_live (s_th s t) = false -> th_stack (s_th s t) = []
}.

Lemma ev_actor dyn t u g tsd nc f c e :
  frame_step dyn t u g tsd nc f c = Some e -> forall x, In x (e_ev e) -> actor x = t.
Proof.
  intros H x I. fs_cases H; brk H; inversion H; subst; clear H; cbn in I;
    repeat match type of I with
    | context [if ?b then _ else _] => destruct b; cbn in I
    end;
    repeat (destruct I as [<-|I]; [reflexivity|]); destruct I.
Qed.

Lemma born_set s t st s' :
  born_inv s -> th_live (s_th s t) = true ->
  s_next s' = s_next s -> (forall t', t' <> t -> s_th s' t' = s_th s t') ->
  th_stack (s_th s' t) = st -> (th_live (s_th s' t) = false -> st = []) ->
  (s_tr s' = s_tr s \/ exists e, s_tr s' = e :: s_tr s /\ actor e = t) ->
  born_inv s'.
Proof.
  intros B LV N O ST LD TR.
  assert (T : (t < s_next s)%Z).
  { destruct (Z.lt_ge_cases t (s_next s)) as [L|L]; [exact L|].
    destruct (born_fresh _ B t L) as (_ & X & _). rewrite LV in X. discriminate. }
  constructor.
  - rewrite N. exact (born_next _ B).
  - rewrite N. intros t' L. assert (X : t' <> t) by (clear - T L; lia). rewrite O by auto.
    destruct (born_fresh _ B t' L) as (F1 & F2 & F3). split; [exact F1|]. split; [exact F2|].
    intros e I. destruct TR as [TR|(e0 & TR & A)]; rewrite TR in I; [auto|].
    destruct I as [<-|I]; auto. congruence.
  - intros t' L. destruct (Z.eq_dec t' t) as [->|X].
    + rewrite ST. auto.
    + rewrite O in * by auto. now apply (born_dead _ B).
Qed.

Lemma born_reach dyn s : reach dyn any s -> born_inv s.
Proof.
  apply reach_invariant.
  - constructor; cbn.
    + lia.
    + intros t L. rewrite upd_if. destruct (Z.eqb_spec t MAIN); [subst; unfold MAIN in L; lia|].
      repeat split. intros e [].
    + intros t. rewrite upd_if. destruct (Z.eqb t MAIN); [discriminate|auto].
  - clear s. intros s t c s' R HI _ HS. apply step_view in HS. destruct HS as (_ & LV & V).
    destruct V as [| | | | | | |f r e Hst Hun Hbar Hfs Es']; subst.
    1-7: refine (born_set s t _ _ HI LV _ _ eq_refl _ _); unfold add_ev; cbn [s_next s_th s_tr set_th];
      [reflexivity|intros t' X; now rewrite upd_other by auto|rewrite upd_same; cbn; try congruence; auto|cbn; eauto].
    assert (T : (t < s_next s)%Z).
    { destruct (Z.lt_ge_cases t (s_next s)) as [L|L]; [exact L|].
      destruct (born_fresh _ HI t L) as (_ & X & _). rewrite LV in X. discriminate. }
    pose proof (ev_actor _ _ _ _ _ _ _ _ _ Hfs) as EA.
    assert (AC : forall t', (s_next s <= t')%Z -> forall x, In x (e_ev e ++ s_tr s) -> actor x <> t').
    { intros t' L x I. apply in_app_or in I. destruct I as [I|I].
      - rewrite (EA x I). clear - T L. lia.
      - now apply (born_fresh _ HI t' L). }
    destruct (e_child e) eqn:HC.
    + destruct (child_shape _ _ _ _ _ _ _ _ _ Hfs HC) as (_ & _ & _ & _ & _ & HN & HK & _).
      clear Hfs. constructor; rewrite ?apply_tr, ?apply_next, ?HN.
      * exact (born_next _ HI).
      * intros t' L. assert (X : t' <> t) by (clear - T L; lia).
        rewrite apply_stack_child by auto. unfold apply_eff. rewrite HC, HN, HK. cbn [s_th].
        rewrite upd_other by auto. destruct (Z.eqb_spec t' t); [contradiction|].
        split; [reflexivity|]. split; [reflexivity|]. now apply AC.
      * intros t'. unfold apply_eff. rewrite HC, HN, HK. cbn [s_th]. rewrite upd_if.
        destruct (Z.eqb t' t); [discriminate|reflexivity].
    + clear Hfs. constructor; rewrite ?apply_tr, ?apply_next.
      * pose proof (born_next _ HI) as B. clear - B. destruct (e_new e); lia.
      * intros t' L. assert (L' : (s_next s <= t')%Z) by (clear - L; destruct (e_new e); lia).
        assert (X : t' <> t) by (clear - T L'; lia).
        rewrite apply_stack, apply_live by auto.
        destruct (born_fresh _ HI t' L') as (F1 & F2 & _).
        destruct (e_new e) as [st|].
        -- destruct (Z.eqb_spec t' (s_next s)) as [E|_]; [clear - L E; lia|].
           destruct (Z.eqb_spec t' t); [contradiction|]. auto.
        -- destruct (Z.eqb_spec t' t); [contradiction|]. auto.
      * intros t'. rewrite apply_stack, apply_live by auto.
        pose proof (born_dead _ HI t') as BD.
        destruct (e_new e); [destruct (Z.eqb t' (s_next s)); [discriminate|]|];
        destruct (Z.eqb t' t); try discriminate; auto.
Qed.

(** ** At most once in the life of a thread *)

Section PerThread.
  Context (dyn : bool) (wf : frame -> nat) (we : event -> nat).
  Definition mine (t : Z) (e : event) : nat := if Z.eqb (actor e) t then we e else 0.
  Definition life (s : state) (t : Z) : nat :=
    wsum wf (th_stack (s_th s t)) + wsum (mine t) (s_tr s).

  Hypothesis P0 : forall t, life init t <= 1.
  Hypothesis Pzero : forall f, In f [FApp AppHandler; FEPGet EXIT_SIGNAL; FEndLibDyn; FSigEnd;
                                     FHGet; FWGet] -> wf f = 0.
  Hypothesis Punw : forall st, wsum wf (unwind st) <= wsum wf st.
  Hypothesis Pev : forall t, we (EDeliver t) = 0 /\ we (EEnd t) = 0.
  Hypothesis Ploc : forall t u g tsd nc f c e,
    frame_step dyn t u g tsd nc f c = Some e ->
    wsum wf (e_fr e) + wsum we (e_ev e) <= wf f /\
    (forall st, e_new e = Some st -> wsum wf st <= 1).

  Lemma mine_other t ev : (forall x, In x ev -> actor x <> t) -> wsum (mine t) ev = 0.
  Proof.
    induction ev as [|x ev IH]; [reflexivity|]. intros H. cbn [wsum]. unfold mine at 1.
    destruct (Z.eqb_spec (actor x) t) as [E|_]; [destruct (H x (or_introl eq_refl) E)|].
    rewrite IH; [reflexivity|]. intros y I. apply H. now right.
  Qed.
  Lemma mine_all t ev : (forall x, In x ev -> actor x = t) -> wsum (mine t) ev = wsum we ev.
  Proof.
    induction ev as [|x ev IH]; [reflexivity|]. intros H. cbn [wsum]. unfold mine at 1.
    rewrite (H x (or_introl eq_refl)), Z.eqb_refl.
    rewrite IH; [reflexivity|]. intros y I. apply H. now right.
  Qed.

  Lemma life_reach s : reach dyn any s -> forall t, life s t <= 1.
  Proof.
    apply (reach_invariant dyn any (fun s => forall t, life s t <= 1)); [exact P0|].
    clear s. intros s t c s' R HI _ HS. pose proof (born_reach _ _ R) as B.
    apply step_view in HS. destruct HS as (_ & LV & V).
    assert (M1 : forall t', mine t' (EDeliver t) = 0).
    { intros. unfold mine. rewrite (proj1 (Pev t)). now destruct (Z.eqb _ _). }
    assert (M2 : forall t', mine t' (EEnd t) = 0).
    { intros. unfold mine. rewrite (proj2 (Pev t)). now destruct (Z.eqb _ _). }
    destruct V as [| | | | | | |f r e Hst Hun Hbar Hfs Es']; subst; intros t'; pose proof (HI t') as HI';
      unfold life in *; unfold add_ev; cbn [set_th s_th s_tr].
    1-7: cbn [app wsum]; rewrite ?M1, ?M2, upd_if;
       destruct (Z.eqb_spec t' t) as [->|X];
         [cbn [with_stack th_stack wsum]; rewrite ?Pzero by (cbn; tauto); cbn [wsum]|];
         try (clear - HI'; lia);
         match goal with
         | |- context [unwind (th_stack ?x)] =>
             let X := fresh in pose proof (Punw (th_stack x)) as X; clear - HI' X; lia
         | S : _ = FUnwind :: ?st |- _ =>
             let X := fresh in pose proof (Punw st) as X; rewrite S in HI'; cbn [wsum] in HI';
             clear - HI' X; lia
         end.
    rewrite apply_tr, wsum_app.
    pose proof (ev_actor _ _ _ _ _ _ _ _ _ Hfs) as EA.
    destruct (Ploc _ _ _ _ _ _ _ _ Hfs) as (L1 & L2).
    destruct (e_child e) eqn:HC.
    - destruct (child_shape _ _ _ _ _ _ _ _ _ Hfs HC) as (_ & _ & _ & _ & _ & HN & HK & _).
      rewrite apply_stack_child by auto.
      destruct (Z.eqb_spec t' t) as [->|X].
      + rewrite wsum_app, mine_all by auto. rewrite Hst in HI'. cbn [wsum] in HI'. clear - L1 HI'. lia.
      + rewrite mine_other; [clear - HI'; cbn; lia|]. intros x I. rewrite (EA x I). congruence.
    - rewrite apply_stack by auto.
      assert (D : wsum wf (if Z.eqb t' t then e_fr e ++ r else th_stack (s_th s t')) +
                  (wsum (mine t') (e_ev e) + wsum (mine t') (s_tr s)) <= 1).
      { destruct (Z.eqb_spec t' t) as [->|X].
        - rewrite wsum_app, mine_all by auto. rewrite Hst in HI'. cbn [wsum] in HI'. clear - L1 HI'. lia.
        - rewrite mine_other; [exact HI'|]. intros x I. rewrite (EA x I). congruence. }
      destruct (e_new e) as [st|] eqn:EN; [|exact D].
      destruct (Z.eqb_spec t' (s_next s)) as [->|X]; [|exact D].
      destruct (born_fresh _ B (s_next s) (Z.le_refl _)) as (F1 & F2 & F3).
      rewrite (mine_other _ (s_tr s)) by auto. rewrite mine_other.
      + specialize (L2 st eq_refl). clear - L2. lia.
      + intros x I. rewrite (EA x I). intros ->. rewrite LV in F2. discriminate.
  Qed.
End PerThread.

Ltac once_life H :=
  fs_cases H; brk H; inversion H; subst; clear H; cbn;
  (split; [repeat match goal with |- context [if ?x then _ else _] => destruct x end; cbn; lia
          |intros st EN; try discriminate EN; inversion EN; subst; cbn; lia]).

Lemma count_mine (we : event -> nat) p t tr :
  (forall e, b2n (p e) = if Z.eqb (actor e) t then we e else 0) -> count p tr = wsum (mine we t) tr.
Proof.
  intros H. rewrite count_wsum. induction tr as [|e r IH]; [reflexivity|].
  cbn [wsum]. rewrite IH, H. reflexivity.
Qed.

Ltac once_tac :=
  match goal with
  | |- forall t, life _ _ init t <= 1 =>
      intros t; unfold life; cbn; rewrite upd_if; destruct (Z.eqb t MAIN); cbn; lia
  | |- forall f, In f _ -> _ = 0 =>
      let J := fresh in intros f J; cbn in J; destruct J as [<-|[<-|[<-|[<-|[<-|[<-|[]]]]]]]; reflexivity
  | |- forall st, wsum _ (unwind st) <= _ =>
      let U := fresh in
      intros st; destruct (unwind_shape st) as [U|(? & ? & U & _)]; rewrite U; cbn; lia
  | |- forall n : Z, _ /\ _ => split; reflexivity
  | |- _ => let H := fresh in intros ? ? ? ? ? ? ? ? H; once_life H
  end.

Definition w_reg (f : frame) : nat :=
  match f with
  | FBT p _ => match p with
               | BTSelf | BTTsd | BTLock | BTChk | BTRead | BTNum _ => 1 | _ => 0 end
  | _ => 0
  end.

Lemma reg_once dyn s t : reach dyn any s -> count (reg_of t) (s_tr s) <= 1.
Proof.
  intros R. rewrite (count_mine (fun e => match e with EReg _ _ => 1 | _ => 0 end) _ t).
  - assert (L : life w_reg (fun e => match e with EReg _ _ => 1 | _ => 0 end) s t <= 1).
    { revert t. revert s R. apply life_reach; once_tac. }
    unfold life in L. lia.
  - intros e. destruct e; cbn; try (destruct (Z.eqb _ _); reflexivity).
Qed.

Definition w_init (f : frame) : nat :=
  match f with
  | FBT p _ => match p with
               | BTSelf | BTTsd | BTLock | BTChk | BTRead | BTNum _ | BTIns | BTUnlock | BTInit => 1
               | _ => 0 end
  | _ => 0
  end.

Lemma init_thread_once dyn s t : reach dyn any s -> count (init_thread_of t) (s_tr s) <= 1.
Proof.
  intros R. rewrite (count_mine (fun e => match e with ECall _ (CbInitThread _ _) => 1 | _ => 0 end) _ t).
  - assert (L : life w_init (fun e => match e with ECall _ (CbInitThread _ _) => 1 | _ => 0 end) s t <= 1).
    { revert t. revert s R. apply life_reach; once_tac. }
    unfold life in L. lia.
  - intros e. destruct e; cbn; try (destruct (Z.eqb _ _); reflexivity).
    destruct c; cbn; destruct (Z.eqb _ _); reflexivity.
Qed.

Definition w_start (f : frame) : nat :=
  match f with
  | FRun _ _ => 1
  | FBT p _ => match p with BTRefuse | BTPop => 0 | _ => 1 end
  | FCb _ (KInitThread _) => 1
  | _ => 0
  end.

Lemma start_once dyn s t : reach dyn any s -> count (start_of t) (s_tr s) <= 1.
Proof.
  intros R. rewrite (count_mine (fun e => match e with EStart _ _ _ => 1 | _ => 0 end) _ t).
  - assert (L : life w_start (fun e => match e with EStart _ _ _ => 1 | _ => 0 end) s t <= 1).
    { revert t. revert s R. apply life_reach; once_tac. }
    unfold life in L. lia.
  - intros e. destruct e; cbn; try (destruct (Z.eqb _ _); reflexivity).
Qed.

(** A thread is created once, with an id not in use. *)
Lemma create_local dyn t u g tsd nc f c e :
  frame_step dyn t u g tsd nc f c = Some e ->
  match e_new e with
  | Some _ => exists q m, e_ev e = [ECreate t q u m]
  | None => forall u', count (create_of u') (e_ev e) = 0
  end.
Proof.
  intros H. fs_cases H; brk H; inversion H; subst; clear H; cbn; eauto;
    intros; repeat match goal with |- context [if ?x then _ else _] => destruct x end; reflexivity.
Qed.

Lemma create_once dyn s : reach dyn any s ->
  forall u, count (create_of u) (s_tr s) <= if Z.ltb u (s_next s) then 1 else 0.
Proof.
  apply (reach_invariant dyn any
    (fun s => forall u, count (create_of u) (s_tr s) <= if Z.ltb u (s_next s) then 1 else 0)).
  - intros u. cbn. lia.
  - clear s. intros s t c s' R HI _ HS. apply step_view in HS. destruct HS as (_ & LV & V).
    destruct V as [| | | | | | |f r e Hst Hun Hbar Hfs Es']; subst; try exact HI.
    intros u. specialize (HI u). rewrite apply_tr, apply_next, count_app.
    pose proof (create_local _ _ _ _ _ _ _ _ _ Hfs) as C. destruct (e_new e).
    + destruct C as (q & m & ->). cbn.
      destruct (Z.eqb_spec (s_next s) u) as [E0|N];
      destruct (Z.ltb_spec u (s_next s)); destruct (Z.ltb_spec u (s_next s + 1)); lia.
    + rewrite C. exact HI.
Qed.

(** ** Frame invariants that mention thread-specific data *)

Section FrameTsd.
  Context (dyn : bool) (ok : state -> Z -> choice -> Prop).
  Context (Q : glob -> list event -> option Z -> Z -> frame -> Prop).
  Definition ft_inv (s : state) : Prop :=
    forall t f, In f (th_stack (s_th s t)) -> Q (s_g s) (s_tr s) (th_tsd (s_th s t)) t f.

  Hypothesis Qinit : ft_inv init.
  Hypothesis Qev : forall g tr d t f e t', e = EDeliver t' \/ e = EEnd t' ->
    Q g tr d t f -> Q g (e :: tr) d t f.
  Hypothesis Qpush : forall s t c f, reach dyn ok s -> ok s t c -> ft_inv s ->
    c <> CStep -> th_live (s_th s t) = true ->
    (In f [FHGet; FWGet] -> th_pend (s_th s t) = true) ->
    In f [FApp AppHandler; FEPGet EXIT_SIGNAL; FEndLibDyn; FSigEnd; FHGet; FWGet] ->
    Q (s_g s) (s_tr s) (th_tsd (s_th s t)) t f.
  Hypothesis Qtsd : forall g tr d t, Q g tr d t (FApp AppTsd).
  Hypothesis Qunw : forall g tr d t n f, pushed_frame n f ->
    Q g tr d t f -> Q g tr d t (FClean CLChk n).
  Hypothesis Qstep : forall s t c f r e,
    reach dyn ok s -> ft_inv s -> ok s t c -> th_stack (s_th s t) = f :: r ->
    th_live (s_th s t) = true ->
    frame_step dyn t (s_next s) (s_g s) (th_tsd (s_th s t)) (th_nc (s_th s t)) f c = Some e ->
    (forall f', In f' (e_fr e) -> Q (e_g e) (e_ev e ++ s_tr s) (e_tsd e) t f') /\
    (forall f', In f' r -> Q (s_g s) (s_tr s) (th_tsd (s_th s t)) t f' ->
                   Q (e_g e) (e_ev e ++ s_tr s) (e_tsd e) t f') /\
    (e_child e = false -> forall t' f', t' <> t -> In f' (th_stack (s_th s t')) ->
                   Q (s_g s) (s_tr s) (th_tsd (s_th s t')) t' f' ->
                   Q (e_g e) (e_ev e ++ s_tr s) (th_tsd (s_th s t')) t' f') /\
    (forall st f', e_new e = Some st -> In f' st -> Q (e_g e) (e_ev e ++ s_tr s) None (s_next s) f').

  Lemma ft_reach s : reach dyn ok s -> ft_inv s.
  Proof.
    apply reach_invariant; [exact Qinit|]. clear s.
    intros s t c s' R HI HO HS. apply step_view in HS. destruct HS as (_ & LV & V).
    assert (UW : forall st t' f', (forall f, In f st -> In f (th_stack (s_th s t))) ->
       In f' (th_stack (upd (s_th s) t (with_stack (s_th s t) (unwind st)) t')) ->
       Q (s_g s) (s_tr s) (th_tsd (upd (s_th s) t (with_stack (s_th s t) (unwind st)) t')) t' f').
    { intros st t' f' I0 I. rewrite upd_if in I |- *.
      destruct (Z.eqb_spec t' t); [subst t'; cbn in I |- *|auto].
      destruct (unwind_shape st) as [U|(n & p & U & IB & P)]; rewrite U in I; cbn in I.
      - destruct I as [<-|[]]. apply Qtsd.
      - destruct I as [<-|[<-|[]]]; [|apply Qtsd]. eapply Qunw; eauto. }
    destruct V as [| | | | | | |f r e Hst Hun Hbar Hfs Es']; intros t' f' I.
    - subst. cbn in I |- *. rewrite upd_if in I |- *. destruct (Z.eqb_spec t' t); [subst; cbn in I |- *|auto].
      destruct I as [<-|I]; auto. apply (Qpush s t CSignal); auto; try discriminate; cbn; try tauto.
      intros [X|[X|[]]]; discriminate.
    - subst. cbn in I |- *. rewrite upd_if in I |- *. destruct (Z.eqb_spec t' t); [subst; cbn in I |- *|auto].
      destruct I as [<-|[<-|[<-|I]]]; auto; apply (Qpush s t CFatal); auto; try discriminate; cbn; try tauto;
        intros [X|[X|[]]]; discriminate.
    - subst s' c. cbn in I |- *. apply (Qev _ _ _ _ _ _ t); [now left|].
      rewrite upd_if in I |- *. destruct (Z.eqb_spec t' t); [subst; cbn in I |- *|auto].
      destruct I as [<-|I]; auto. apply (Qpush s t CShoot); auto; try discriminate; cbn; tauto.
    - subst s' c. cbn in I |- *. apply (Qev _ _ _ _ _ _ t); [now left|].
      rewrite upd_if in I |- *. destruct (Z.eqb_spec t' t); [subst; cbn in I |- *|auto].
      destruct I as [<-|I]; auto. apply (Qpush s t CSync); auto; try discriminate; cbn; tauto.
    - subst. eapply (UW (th_stack (s_th s t))); eauto.
    - subst. eapply (UW r); eauto. intros x Hx. rewrite H0. now right.
    - subst. cbn in I |- *. apply (Qev _ _ _ _ _ _ t); [now right|].
      rewrite upd_if in I |- *. destruct (Z.eqb_spec t' t); [subst; cbn in I; tauto|auto].
    - subst s'. rewrite apply_g, apply_tr.
      destruct (Qstep _ _ _ _ _ _ R HI HO Hst LV Hfs) as (A & B & B' & C).
      assert (HR : forall f0, In f0 r -> Q (s_g s) (s_tr s) (th_tsd (s_th s t)) t f0).
      { intros f0 J. apply HI. rewrite Hst. now right. }
      destruct (e_child e) eqn:HC.
      + destruct (child_shape _ _ _ _ _ _ _ _ _ Hfs HC) as (_ & _ & _ & _ & _ & HN & HK & _).
        rewrite apply_stack_child in I by auto.
        destruct (Z.eqb_spec t' t); [|destruct I]. subst t'.
        replace (th_tsd (s_th (apply_eff s t (s_th s t) r e) t)) with (e_tsd e).
        2: { unfold apply_eff. rewrite HN, HK. cbn [s_th]. now rewrite upd_same. }
        apply in_app_or in I. destruct I as [I|I]; auto.
      + rewrite apply_stack in I by auto. rewrite apply_tsd by auto.
        assert (D : In f' (if Z.eqb t' t then e_fr e ++ r else th_stack (s_th s t')) ->
                    Q (e_g e) (e_ev e ++ s_tr s) (if Z.eqb t' t then e_tsd e else th_tsd (s_th s t')) t' f').
        { destruct (Z.eqb_spec t' t); intros J.
          - subst t'. apply in_app_or in J. destruct J as [J|J]; auto.
          - apply B'; auto. }
        destruct (e_new e) as [st|] eqn:EN; auto.
        destruct (Z.eqb_spec t' (s_next s)); auto. subst t'. eapply C; eauto.
  Qed.
End FrameTsd.
