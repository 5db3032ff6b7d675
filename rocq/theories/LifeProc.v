(** The invariant on the data of the process. *)
From Verif Require Export LifeProc1.

Local Open Scope Z_scope.

Lemma stores_clean dyn s : reach dyn stores s -> reach dyn clean_forks s.
Proof. intros R. induction R; [constructor|]. econstructor; eauto. exact (proj1 H). Qed.

Record proc_inv (s : state) : Prop := mkproc {
  pi_none : g_initp (s_g s) = false -> forall t f, In f (th_stack (s_th s t)) -> initing f = false;
  pi_one : forall t t' f f', In f (th_stack (s_th s t)) -> In f' (th_stack (s_th s t')) ->
    initing f = true -> initing f' = true -> t = t';
  pi_top : forall t f r v, th_stack (s_th s t) = f :: r -> ~ In (FBPStore v) r;
  pi_new : forall t v, In (FBPStore v) (th_stack (s_th s t)) -> exists b, proc (s_tr s) = Some (t, v, b);
  pi_reset : forall t, existsb resetting (th_stack (s_th s t)) = true -> exists b, s_tr s = EFork t :: b;
  pi_data : forall w v b, proc (s_tr s) = Some (w, v, b) ->
    n_data (nd (s_g s) MAIN_TN) = v \/ (b = false /\ exists r, th_stack (s_th s w) = FBPStore v :: r)
}.

Lemma existsb_In {A} (p : A -> bool) l x : In x l -> p x = true -> existsb p l = true.
Proof. intros I P. apply existsb_exists. eauto. Qed.

Lemma unwind_in st f : In f (unwind st) -> initing f = false /\ resetting f = false.
Proof.
  destruct (unwind_shape st) as [U|(n & p & U & _)]; rewrite U; cbn; intuition; subst; reflexivity.
Qed.

Lemma proc_reach dyn s : reach dyn stores s -> proc_inv s.
Proof.
  apply reach_invariant.
  - constructor; cbn; intros; rewrite ?upd_if in *; try discriminate.
    + destruct (Z.eqb t MAIN); cbn in H0; repeat (destruct H0 as [<-|H0]; [reflexivity|]); destruct H0.
    + destruct (Z.eqb t MAIN); cbn in H; repeat (destruct H as [<-|H]; [discriminate|]); destruct H.
    + destruct (Z.eqb t MAIN); cbn in H; inversion H; subst; cbn; intros X;
        repeat (destruct X as [X|X]; [discriminate X|]); destruct X.
    + destruct (Z.eqb t MAIN); cbn in H; repeat (destruct H as [H|H]; [discriminate H|]); destruct H.
    + destruct (Z.eqb t MAIN); cbn in H; discriminate H.
  - clear s. intros s t c s' R HI HO HS.
    pose proof (stores_clean _ _ R) as RC. pose proof (who_reach _ _ RC) as W.
    destruct HO as [CF HSt]. destruct HI as [I1 I2 I3 I4 I5 I6].
    apply step_view in HS. destruct HS as (_ & LV & V).
    (* a step of t that does not touch the globals *)
    assert (SIMPLE : forall ev st,
      (forall e, In e ev -> quiet e /\ actor e = t) -> c <> CStep \/ (forall v r, th_stack (s_th s t) <> FBPStore v :: r) ->
      s_g s' = s_g s -> s_tr s' = ev ++ s_tr s ->
      (forall t', th_stack (s_th s' t') = if t' =? t then st else th_stack (s_th s t')) ->
      (forall f, In f st -> In f (th_stack (s_th s t)) \/ (initing f = false /\ resetting f = false)) ->
      (ev <> [] -> existsb resetting (th_stack (s_th s t)) = false) ->
      proc_inv s').
    { intros ev st EV' CC EG ET ES EF ER.
      assert (EV : forall e, In e ev -> quiet e) by (intros e X; now apply EV').
      assert (NT : forall v r, th_stack (s_th s t) <> FBPStore v :: r).
      { destruct CC as [CC|CC]; [|exact CC]. intros v r X. apply CC. eapply HSt; eauto. }
      assert (NS : forall v, ~ In (FBPStore v) (th_stack (s_th s t))).
      { intros v X. destruct (th_stack (s_th s t)) as [|f r] eqn:E; [exact X|]. destruct X as [->|X].
        - eapply NT; reflexivity.
        - eapply I3; eauto. }
      assert (IN : forall t' f, In f (th_stack (s_th s' t')) -> In f (th_stack (s_th s t')) \/ (initing f = false /\ resetting f = false)).
      { intros t' f X. rewrite ES in X. destruct (Z.eqb_spec t' t) as [->|N]; auto. }
      constructor; rewrite ?EG, ?ET.
      - intros G t' f X. destruct (IN _ _ X) as [Y|[Y _]]; eauto.
      - intros t1 t2 f1 f2 X1 X2 A1 A2. destruct (IN _ _ X1) as [Y1|[Y1 _]]; [|congruence].
        destruct (IN _ _ X2) as [Y2|[Y2 _]]; [eauto|congruence].
      - intros t' f r v E X. rewrite ES in E. destruct (Z.eqb_spec t' t) as [->|N]; [|eapply I3; eauto].
        destruct (EF (FBPStore v)) as [Y|[Y _]]; [rewrite E; now right|eapply NS; eauto|discriminate Y].
      - intros t' v X. rewrite ES in X. destruct (Z.eqb_spec t' t) as [->|N].
        + destruct (EF _ X) as [Y|[Y _]]; [exfalso; eapply NS; eauto|discriminate Y].
        + destruct (I4 _ _ X) as [b B]. rewrite proc_app, B by exact EV. eauto.
      - intros t' X. apply existsb_exists in X. destruct X as (f & X & F). destruct (IN _ _ X) as [Y|[_ Y]]; [|congruence].
        pose proof (existsb_In _ _ _ Y F) as Z. destruct (who_reset _ W _ Z) as (-> & _ & AL).
        destruct (Z.eq_dec t MAIN) as [->|N]; [|rewrite (AL _ N) in LV; discriminate LV].
        destruct ev as [|x ev]; [exact (I5 _ Z)|]. rewrite ER in Z by discriminate. discriminate Z.
      - intros w v b E. rewrite proc_app in E by exact EV. destruct (proc (s_tr s)) as [[[w0 v0] b0]|] eqn:P; [|discriminate E].
        inversion E; subst. destruct (I6 _ _ _ eq_refl) as [X|(-> & r & X)]; [now left|].
        assert (NW : w <> t) by (intros ->; eapply NT; eauto).
        right. rewrite orb_false_r. split.
        + destruct (existsb (fun e => actor e =? w) ev) eqn:Y; [|reflexivity]. exfalso.
          apply existsb_exists in Y. destruct Y as (x & Y & Z). apply Z.eqb_eq in Z. destruct (EV' _ Y) as [_ A]. congruence.
        + exists r. rewrite ES. rewrite (proj2 (Z.eqb_neq w t) NW). exact X. }
    assert (UP : forall th t', th_stack (upd (s_th s) t th t') = if t' =? t then th_stack th else th_stack (s_th s t')).
    { intros th t'. rewrite upd_if. destruct (t' =? t); reflexivity. }
    assert (RS : c <> CStep -> existsb resetting (th_stack (s_th s t)) = false).
    { intros N. destruct (existsb resetting (th_stack (s_th s t))) eqn:X; [|reflexivity]. elim N. now apply CF. }
    destruct V as [C E|C E|C P G NS E|f r C P ST O NS E|f r C ST NC L E|r C ST L E|C ST E|f r e Hst Hun Hbar Hfs E].
    + eapply (SIMPLE []); rewrite ?E; cbn; try reflexivity; [intros ? []|left; congruence|apply UP| |congruence].
      cbn. intros f [<-|X]; auto.
    + eapply (SIMPLE []); rewrite ?E; cbn; try reflexivity; [intros ? []|left; congruence|apply UP| |congruence].
      cbn. intros f [<-|[<-|[<-|X]]]; auto.
    + eapply (SIMPLE [EDeliver t]); rewrite ?E; cbn; try reflexivity; [intros ? [<-|[]]; repeat split|left; congruence|apply UP| |].
      * cbn. intros f [<-|X]; auto.
      * intros _. apply RS. congruence.
    + eapply (SIMPLE [EDeliver t]); rewrite ?E; cbn; try reflexivity; [intros ? [<-|[]]; repeat split|left; congruence|apply UP| |].
      * cbn. intros f' [<-|X]; auto.
      * intros _. apply RS. congruence.
    + eapply (SIMPLE []); rewrite ?E; cbn; try reflexivity; [intros ? []|left; congruence|apply UP| |congruence].
      cbn. intros f' X. right. eapply unwind_in; eauto.
    + eapply (SIMPLE []); rewrite ?E; cbn; try reflexivity; [intros ? []|right; rewrite ST; discriminate|apply UP| |congruence].
      cbn. intros f' X. right. eapply unwind_in; eauto.
    + eapply (SIMPLE [EEnd t]); rewrite ?E; cbn; try reflexivity; [intros ? [<-|[]]; repeat split|right; rewrite ST; discriminate|apply UP| |].
      * cbn. intros f' [].
      * intros _. rewrite ST. reflexivity.
    + clear SIMPLE UP. assert (IN : In f (th_stack (s_th s t))) by (rewrite Hst; now left).
      assert (NX : t <> s_next s).
      { intros ->. destruct (who_fresh _ W (s_next s) (Z.le_refl _)) as [_ F]. congruence. }
      assert (CB : cb_ok f) by exact (cb_reach _ _ _ R t f IN).
      assert (GR : resetting f = true -> t = MAIN /\ forall t', t' <> MAIN -> th_stack (s_th s t') = []).
      { intros X. destruct (who_reset _ W _ (existsb_In _ _ _ IN X)) as (-> & _ & AL). split; [reflexivity|].
        intros t' N. apply (who_dead _ W). auto. }
      pose proof (init_local _ _ _ _ _ _ _ _ _ Hfs) as L1. pose proof (initp_local _ _ _ _ _ _ _ _ _ Hfs) as L3.
      destruct (reset_local _ _ _ _ _ _ _ _ _ Hfs) as [L4 L5].
      pose proof (fun v => store_local _ _ _ _ _ _ _ _ _ v Hfs) as L6.
      pose proof (fun w x v => ret_local _ _ _ _ _ _ _ _ _ w x v Hfs) as L7.
      pose proof (ev_actor _ _ _ _ _ _ _ _ _ Hfs) as AC.
      (* the stacks after the step *)
      assert (STK : forall t' f', In f' (th_stack (s_th s' t')) ->
        (t' = t /\ In f' (e_fr e)) \/ (t' = t /\ In f' r) \/
        (t' <> t /\ e_child e = false /\ In f' (th_stack (s_th s t'))) \/ (initing f' = false /\ resetting f' = false)).
      { intros t' f' X. subst s'. destruct (e_child e) eqn:HC.
        - destruct (child_shape _ _ _ _ _ _ _ _ _ Hfs HC) as (_ & _ & _ & _ & _ & N & K & _).
          rewrite (apply_stack_child _ _ _ _ _ _ HC N K) in X. destruct (Z.eqb_spec t' t) as [->|NT]; [|destruct X].
          apply in_app_or in X. tauto.
        - rewrite apply_stack in X by exact HC. destruct (e_new e) as [st|] eqn:NE.
          + destruct (Z.eqb_spec t' (s_next s)) as [->|NN].
            * right. right. right. eapply new_local; eauto.
            * destruct (Z.eqb_spec t' t) as [->|NT]; [apply in_app_or in X; tauto|tauto].
          + destruct (Z.eqb_spec t' t) as [->|NT]; [apply in_app_or in X; tauto|tauto]. }
      assert (TR : s_tr s' = e_ev e ++ s_tr s) by (subst s'; apply apply_tr).
      assert (GG : s_g s' = e_g e) by (subst s'; apply apply_g).
      assert (OWN : forall f', In f' (e_fr e) -> initing f' = true ->
         (exists f0, In f0 (th_stack (s_th s t)) /\ initing f0 = true) \/
         (forall t' f0, In f0 (th_stack (s_th s t')) -> initing f0 = true -> t' = t)).
      { intros f' X F. destruct (L1 (existsb_In _ _ _ X F)) as [Y|[(d & -> & Y)|(d & ->)]].
        - left. eauto.
        - right. intros t' f0 Z0 Z1. rewrite (I1 Y _ _ Z0) in Z1. discriminate Z1.
        - right. destruct (GR eq_refl) as [-> AL]. intros t' f0 Z0 _. destruct (Z.eq_dec t' MAIN) as [|N]; [assumption|].
          rewrite (AL _ N) in Z0. destruct Z0. }
      constructor.
      * rewrite GG. intros G. destruct (L3 G) as [G0 NB]. intros t' f' X.
        destruct (initing f') eqn:F; [exfalso|reflexivity].
        destruct (STK _ _ X) as [[-> Y]|[[-> Y]|[(_ & _ & Y)|[Y _]]]].
        -- destruct (L1 (existsb_In _ _ _ Y F)) as [Z0|[(d & -> & _)|(d & ->)]]; [|eapply NB; reflexivity..].
           rewrite (I1 G0 _ _ IN) in Z0. discriminate Z0.
        -- assert (Z0 : In f' (th_stack (s_th s t))) by (rewrite Hst; now right). rewrite (I1 G0 _ _ Z0) in F. discriminate F.
        -- rewrite (I1 G0 _ _ Y) in F. discriminate F.
        -- congruence.
      * assert (ALL : forall t' f', In f' (th_stack (s_th s' t')) -> initing f' = true ->
           (exists f0, In f0 (th_stack (s_th s t')) /\ initing f0 = true) \/
           (t' = t /\ forall t2 f0, In f0 (th_stack (s_th s t2)) -> initing f0 = true -> t2 = t)).
        { intros t' f' X F. destruct (STK _ _ X) as [[-> Y]|[[-> Y]|[(_ & _ & Y)|[Y _]]]].
          - destruct (OWN _ Y F) as [Z0|Z0]; [now left|right; now split].
          - left. exists f'. split; [rewrite Hst; now right|exact F].
          - left. eauto.
          - congruence. }
        intros t1 t2 f1 f2 X1 X2 F1 F2. destruct (ALL _ _ X1 F1) as [(g1 & A1 & B1)|(-> & A1)], (ALL _ _ X2 F2) as [(g2 & A2 & B2)|(-> & A2)]; eauto.
        symmetry. eauto.
      * intros t' f' r' v E' X.
        destruct (Z.eq_dec t' t) as [->|NT].
        -- assert (Z0 : th_stack (s_th s' t) = e_fr e ++ r).
           { subst s'. destruct (e_child e) eqn:HC.
             - destruct (child_shape _ _ _ _ _ _ _ _ _ Hfs HC) as (_ & _ & _ & _ & _ & N & K & _).
               rewrite (apply_stack_child _ _ _ _ _ _ HC N K), Z.eqb_refl. reflexivity.
             - rewrite apply_stack by exact HC. rewrite (proj2 (Z.eqb_neq t (s_next s)) NX), Z.eqb_refl. destruct (e_new e); reflexivity. }
           rewrite Z0 in E'. pose proof (I3 _ _ _ v Hst) as NR.
           destruct (e_fr e) as [|g0 l] eqn:FR; cbn in E'.
           ++ apply NR. rewrite E'. now right.
           ++ inversion E'; subst g0 r'. apply in_app_or in X. destruct X as [X|X]; [|now apply NR].
              destruct (L6 v) as (x & _ & _ & Y); [now right|]. inversion Y; subst. destruct X.
        -- assert (Y : In (FBPStore v) (th_stack (s_th s t'))).
           { destruct (STK t' (FBPStore v)) as [[-> Y]|[[-> Y]|[(_ & _ & Y)|[Y _]]]]; try congruence; [rewrite E'; now right|discriminate Y]. }
           subst s'. destruct (e_child e) eqn:HC.
           { destruct (child_shape _ _ _ _ _ _ _ _ _ Hfs HC) as (_ & _ & _ & _ & _ & N & K & _).
             rewrite (apply_stack_child _ _ _ _ _ _ HC N K) in E'. rewrite (proj2 (Z.eqb_neq t' t) NT) in E'. discriminate E'. }
           rewrite apply_stack in E' by exact HC. rewrite (proj2 (Z.eqb_neq t' t) NT) in E'.
           destruct (e_new e); [destruct (Z.eqb_spec t' (s_next s)) as [->|]|]; try (eapply I3; eauto; fail).
           destruct (who_fresh _ W (s_next s) (Z.le_refl _)) as [F _]. rewrite F in Y. destruct Y.
      * intros t' v X. rewrite TR. destruct (STK _ _ X) as [[-> Y]|[[-> Y]|[(NT & HC & Y)|[Y _]]]]; [| | |discriminate Y].
        -- destruct (L6 v Y) as (x & -> & -> & _). destruct (proj2 CB eq_refl) as [d ->]. cbn. eauto.
        -- elim (I3 _ _ _ v Hst Y).
        -- destruct (I4 _ _ Y) as [b B]. rewrite proc_app.
           ++ rewrite B. eauto.
           ++ intros z Z0. split; [destruct (is_init_ret z) eqn:Q; [exfalso|reflexivity]|destruct (is_fork z) eqn:Q; [exfalso|reflexivity]].
              ** destruct z; try discriminate Q. match goal with c : cb |- _ => destruct c; try discriminate Q end.
                 destruct (L7 _ _ _ Z0) as (k & -> & _). pose proof (proj1 CB (ex_intro _ _ eq_refl)) as ->.
                 apply NT. eapply I2; eauto.
              ** pose proof (no_fork_ev _ _ _ _ _ _ _ _ _ Hfs HC) as NF. rewrite (existsb_In _ _ _ Z0 Q) in NF. discriminate NF.
      * intros t' X. apply existsb_exists in X. destruct X as (f' & X & F). rewrite TR.
        destruct (STK _ _ X) as [[-> Y]|[[-> Y]|[(NT & HC & Y)|[_ Y]]]]; [| | |congruence].
        -- destruct (L4 (existsb_In _ _ _ Y F)) as [HC|Z0].
           ++ destruct (child_shape _ _ _ _ _ _ _ _ _ Hfs HC) as (_ & _ & _ & _ & -> & _). cbn. eauto.
           ++ destruct (L5 Z0) as [_ ->]. apply I5. eapply existsb_In; eauto.
        -- assert (Z0 : existsb resetting (th_stack (s_th s t)) = true) by (rewrite Hst; cbn; rewrite (existsb_In _ _ _ Y F); apply orb_true_r).
           destruct (who_reset _ W _ Z0) as (_ & (f0 & r0 & A & B & C & _) & _). rewrite Hst in A. inversion A; subst.
           rewrite (existsb_In _ _ _ Y F) in C. discriminate C.
        -- destruct (who_reset _ W _ (existsb_In _ _ _ Y F)) as (-> & _ & AL). rewrite (AL t) in LV by congruence. discriminate LV.
      * intros w v b E'. rewrite TR in E'. rewrite GG.
        destruct (existsb is_init_ret (e_ev e)) eqn:IR.
        { apply existsb_exists in IR. destruct IR as (z & Z0 & Z1). destruct z; try discriminate Z1.
          match goal with c : cb |- _ => destruct c; try discriminate Z1 end.
          destruct (L7 _ _ _ Z0) as (k & -> & EV & FR & _ & HC). pose proof (proj1 CB (ex_intro _ _ eq_refl)) as ->.
          rewrite EV in E'. cbn in E'. inversion E'; subst. right. split; [reflexivity|]. exists r.
          rewrite apply_stack by exact HC. rewrite (proj2 (Z.eqb_neq w (s_next s)) NX), Z.eqb_refl, FR. destruct (e_new e); reflexivity. }
        destruct (e_child e) eqn:HC.
        { destruct (child_shape _ _ _ _ _ _ _ _ _ Hfs HC) as (_ & _ & _ & _ & EV & _). rewrite EV in E'. discriminate E'. }
        assert (EV : forall z, In z (e_ev e) -> quiet z).
        { intros z Z0. split; [destruct (is_init_ret z) eqn:Q; [exfalso|reflexivity]|destruct (is_fork z) eqn:Q; [exfalso|reflexivity]].
          - rewrite (existsb_In _ _ _ Z0 Q) in IR. discriminate IR.
          - pose proof (no_fork_ev _ _ _ _ _ _ _ _ _ Hfs HC) as NF. rewrite (existsb_In _ _ _ Z0 Q) in NF. discriminate NF. }
        rewrite proc_app in E' by exact EV. destruct (proc (s_tr s)) as [[[w0 v0] b0]|] eqn:P; [|discriminate E'].
        inversion E'; subst w0 v0 b. clear E'. destruct (I6 _ _ _ eq_refl) as [X|(-> & r0 & X)].
        -- destruct (data_local _ _ _ _ _ _ _ _ _ Hfs) as [D|[(v' & -> & D)|[D|D]]].
           ++ left. congruence.
           ++ left. destruct (I4 _ _ IN) as [b' B]. congruence.
           ++ exfalso. destruct (I5 _ (existsb_In _ _ _ IN D)) as [b' B]. rewrite B in P. discriminate P.
           ++ rewrite (hold_main _ _ _ _ RC IN) in D. discriminate D.
        -- destruct (Z.eq_dec w t) as [->|NW].
           ++ left. rewrite Hst in X. inversion X; subst. destruct (data_local _ _ _ _ _ _ _ _ _ Hfs) as [D|[(v' & Q & D)|[D|D]]]; try discriminate D.
              ** cbn in Hfs. destruct c; try discriminate Hfs. cbn in Hfs. inversion Hfs; subst. unfold nd. cbn. reflexivity.
              ** congruence.
           ++ right. rewrite orb_false_r. split.
              ** destruct (existsb (fun e0 => actor e0 =? w) (e_ev e)) eqn:Q; [exfalso|reflexivity].
                 apply existsb_exists in Q. destruct Q as (z & Z0 & Z1). apply Z.eqb_eq in Z1. rewrite (AC _ Z0) in Z1. congruence.
              ** exists r0. subst s'. rewrite apply_stack by exact HC. rewrite (proj2 (Z.eqb_neq w t) NW).
                 assert (w <> s_next s). { intros ->. destruct (who_fresh _ W (s_next s) (Z.le_refl _)) as [F _]. rewrite F in X. discriminate X. }
                 destruct (e_new e); [rewrite (proj2 (Z.eqb_neq w (s_next s))) by assumption|]; exact X.
Qed.

(** ** What is observed *)

Definition Jproc (tr : list event) (e : event) : Prop :=
  forall w v b, proc tr = Some (w, v, b) -> b = true \/ actor e = w ->
  (forall w' how d, e = ECall w' (CbFiniProcess how d) -> d = v) /\
  (forall r, e = EQuery MAIN QData r -> r = v).

Lemma main_tn s : main_inv s -> get_tn (s_g s) (th_tsd (s_th s MAIN)) = Some MAIN_TN.
Proof.
  intros M. unfold get_tn. destruct (g_used (s_g s)) eqn:U; [|reflexivity].
  rewrite (mi_used _ M U). destruct (mi_node _ M) as (_ & -> & _). reflexivity.
Qed.

Lemma fini_local dyn t u g tsd nc f c e x : frame_step dyn t u g tsd nc f c = Some e -> In x (e_ev e) ->
  (forall w how d, x = ECall w (CbFiniProcess how d) -> f = FEPFini how /\ d = n_data (nd g MAIN_TN) /\ e_ev e = [x]) /\
  (forall w q r, x = EQuery w q r -> f = FQuery q /\ r = answer g tsd q /\ e_ev e = [x]).
Proof.
  intros H I. fs_cases H; brk H; inversion H; subst; clear H; cbn in I;
    repeat match type of I with context [if ?b then _ else _] => destruct b; cbn in I end;
    repeat (destruct I as [<-|I]; [split; intros; try discriminate;
      match goal with E : _ = _ |- _ => inversion E; subst; cbn; auto end|]); try (destruct I; fail).
Qed.

Lemma proc_hist dyn s : reach dyn stores s -> hist Jproc (s_tr s).
Proof.
  apply hist_reach.
  1-2: intros; intros w v b _ _; split; intros; discriminate.
  intros s0 t c f r e R HI HO Hst LV Hfs. pose proof (stores_clean _ _ R) as RC.
  pose proof (main_reach _ _ RC) as M. pose proof (proc_reach _ _ R) as P.
  pose proof (fun x => fini_local _ _ _ _ _ _ _ _ _ x Hfs) as L.
  pose proof (ev_actor _ _ _ _ _ _ _ _ _ Hfs) as AC.
  assert (D : forall x, In x (e_ev e) -> (forall w' how d, x <> ECall w' (CbFiniProcess how d)) ->
     (forall r, x <> EQuery MAIN QData r) -> forall tr, Jproc tr x).
  { intros x _ N1 N2 tr w v b _ _. split; intros; exfalso; [eapply N1|eapply N2]; eauto. }
  assert (V : forall w v b, proc (s_tr s0) = Some (w, v, b) -> (forall v, f <> FBPStore v) -> b = true \/ t = w ->
     n_data (nd (s_g s0) MAIN_TN) = v).
  { intros w v b E N X. destruct (pi_data _ P _ _ _ E) as [Y|(-> & r0 & Y)]; [exact Y|].
    destruct X as [X| ->]; [discriminate X|]. rewrite Hst in Y. inversion Y; subst. elim (N v). reflexivity. }
  assert (K : (exists x, e_ev e = [x] /\ ((exists w' how d, x = ECall w' (CbFiniProcess how d)) \/ (exists r, x = EQuery MAIN QData r))) \/
     forall x, In x (e_ev e) -> forall tr, Jproc tr x).
  { clear V P. assert (G : forall l, (forall x, In x l -> In x (e_ev e)) ->
       (exists x, In x l /\ ((exists w' how d, x = ECall w' (CbFiniProcess how d)) \/ (exists r, x = EQuery MAIN QData r))) \/
       forall x, In x l -> forall tr, Jproc tr x).
    { induction l as [|x l IH]; intros S; [right; intros ? []|].
      destruct IH as [(y & Y & Z)|Z]; [intros y Y; apply S; now right|left; exists y; split; [now right|exact Z]|].
      assert (Q : ((exists w' how d, x = ECall w' (CbFiniProcess how d)) \/ (exists r, x = EQuery MAIN QData r)) \/
         ((forall w' how d, x <> ECall w' (CbFiniProcess how d)) /\ (forall r, x <> EQuery MAIN QData r))).
      { destruct x; try (right; split; intros; discriminate).
        - match goal with c : cb |- _ => destruct c end; try (right; split; intros; discriminate). left. left. eauto.
        - match goal with |- context [EQuery ?u ?q _] => destruct q, (Z.eq_dec u MAIN) as [->|N] end;
            try (right; split; intros; congruence). left. right. eauto. }
      destruct Q as [Q|[Q1 Q2]]; [left; exists x; split; [now left|exact Q]|right].
      intros y [<-|Y]; [apply D; auto; apply S; now left|now apply Z]. }
    destruct (G (e_ev e)) as [(x & X & Q)|Q]; [auto|left|now right]. exists x. split; [|exact Q].
    destruct Q as [(w' & how & d & E)|(r0 & E)].
    - eapply (proj1 (L x X)); eauto.
    - eapply (proj2 (L x X)); eauto. }
  destruct K as [(x & E & Q)|K].
  - rewrite E. cbn [justified app]. split; [|exact I]. assert (X : In x (e_ev e)) by (rewrite E; now left).
    intros w v b PR B. rewrite (AC _ X) in B.
    split.
    + intros w' how d E'. destruct (proj1 (L x X) _ _ _ E') as (-> & -> & _). eapply V; eauto. discriminate.
    + intros r0 E'. destruct (proj2 (L x X) _ _ _ E') as (-> & -> & _).
      assert (t = MAIN) as -> by (rewrite <- (AC _ X); subst x; reflexivity).
      cbn. rewrite (main_tn _ M). eapply V; eauto. discriminate.
  - clear - K. induction (e_ev e) as [|x l IH]; [exact I|]. split; [apply K; now left|apply IH; intros y J; apply K; now right].
Qed.

(** The start routine in main's node is never set. *)
Lemma start_reach dyn s : reach dyn clean_forks s -> n_start (nd (s_g s) MAIN_TN) = 0.
Proof.
  apply (reach_invariant dyn clean_forks (fun s => n_start (nd (s_g s) MAIN_TN) = 0)); [reflexivity|]. clear s. intros s t c s' R HI HO HS.
  apply step_view in HS. destruct HS as (_ & LV & V).
  destruct V as [| | | | | | |f r e Hst Hun Hbar Hfs Es']; subst; cbn; auto.
  rewrite apply_g. assert (IN : In f (th_stack (s_th s t))) by (rewrite Hst; now left).
  pose proof (hold_main _ _ _ _ R IN) as N.
  assert (X : n_start (nd (e_g e) MAIN_TN) = n_start (nd (s_g s) MAIN_TN) \/ n_start (nd (e_g e) MAIN_TN) = 0 \/ holds MAIN_TN f = true).
  { clear - Hfs. unfold nd. fs_cases Hfs; brk Hfs; inversion Hfs; subst; clear Hfs; cbn [e_g]; auto;
    unfold reset_list, nd; cbn; try g_brk; cbn; rewrite ?upd_if; auto;
    repeat match goal with |- context [Z.eqb ?a ?b] => destruct (Z.eqb_spec a b); subst end; cbn; auto. }
  destruct X as [X|[X|X]]; congruence.
Qed.

Definition Jstart (tr : list event) (e : event) : Prop := forall r, e = EQuery MAIN QStart r -> r = 0.

Lemma start_hist dyn s : reach dyn clean_forks s -> hist Jstart (s_tr s).
Proof.
  apply hist_reach; try (intros; intros ?; discriminate).
  intros s0 t c f r e R HI HO Hst LV Hfs. pose proof (main_reach _ _ R) as M. pose proof (start_reach _ _ R) as ST.
  pose proof (fun x => fini_local _ _ _ _ _ _ _ _ _ x Hfs) as L.
  pose proof (ev_actor _ _ _ _ _ _ _ _ _ Hfs) as AC.
  assert (D : forall x, In x (e_ev e) -> forall tr, Jstart tr x).
  { intros x X tr r0 E. destruct (proj2 (L x X) _ _ _ E) as (_ & -> & _).
    assert (t = MAIN) as -> by (rewrite <- (AC _ X); subst x; reflexivity). cbn. now rewrite (main_tn _ M). }
  clear - D. induction (e_ev e) as [|x l IH]; [exact I|]. split; [apply D; now left|apply IH; intros y J; apply D; now right].
Qed.
