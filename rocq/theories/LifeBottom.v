(** The stack bottom of the main thread. *)
From Verif Require Export LifeProc.

Local Open Scope Z_scope.

(** monitor_main is run by the main thread; once it has got to at_main, the stack
    bottom in main's node is its own. *)
Definition Qbot (g : glob) (tr : list event) (t : Z) (f : frame) : Prop :=
  match f with
  | FMain => t = MAIN
  | FCall PAtMain => n_bottom (nd g MAIN_TN) = MAIN
  | _ => True
  end.

Lemma bottom_local dyn t u g tsd nc f c e :
  frame_step dyn t u g tsd nc f c = Some e -> holds MAIN_TN f = false ->
  (resetting f = true -> tsd = None \/ tsd = Some MAIN_TN) ->
  n_bottom (nd (e_g e) MAIN_TN) = n_bottom (nd g MAIN_TN) \/
  (f = FMain /\ n_bottom (nd (e_g e) MAIN_TN) = t).
Proof.
  intros H O T. assert (T' : resetting f = true -> forall n, nd (reset_list tsd g) n = nd g n).
  { intros R n. apply reset_main. auto. }
  clear T.
  fs_cases H; cbn [holds] in O; try (apply Z.eqb_neq in O); brk H; inversion H; subst; clear H; cbn [e_g]; auto;
    try (left; rewrite nd_set_other by exact O; reflexivity);
    try (left; specialize (T' eq_refl); rewrite ?nd_set_same, ?T'; reflexivity);
    try (right; split; [reflexivity|rewrite nd_set_same; reflexivity]);
    left; unfold nd; cbn; rewrite ?upd_other by exact O; g_brk; rewrite ?upd_if;
    repeat match goal with |- context [Z.eqb ?a ?b] => destruct (Z.eqb_spec a b); subst end;
    cbn; try reflexivity.
Qed.

Lemma bottom_step dyn s t c f r e :
  reach dyn clean_forks s -> th_stack (s_th s t) = f :: r ->
  frame_step dyn t (s_next s) (s_g s) (th_tsd (s_th s t)) (th_nc (s_th s t)) f c = Some e ->
  n_bottom (nd (e_g e) MAIN_TN) = n_bottom (nd (s_g s) MAIN_TN) \/ (f = FMain /\ n_bottom (nd (e_g e) MAIN_TN) = t).
Proof.
  intros R Hst Hfs. pose proof (who_reach _ _ R) as W. pose proof (nodes_reach _ _ R) as (N & _ & _).
  assert (IN : In f (th_stack (s_th s t))) by (rewrite Hst; now left).
  apply (bottom_local _ _ _ _ _ _ _ _ _ Hfs (holds_main _ _ _ N IN)).
  intros RS. destruct (who_reset _ W t) as (-> & _); [rewrite Hst; cbn; now rewrite RS|].
  exact (mi_tsd _ (main_reach _ _ R)).
Qed.

Lemma qbot_reach dyn s : reach dyn clean_forks s -> fr_inv Qbot s.
Proof.
  apply fr_reach.
  - intros t f I. cbn in I. rewrite upd_if in I. destruct (Z.eqb_spec t MAIN) as [->|]; [|destruct I].
    cbn in I. repeat (destruct I as [<-|I]; [first [exact Logic.I|reflexivity]|]). destruct I.
  - intros g tr t f e t' _ Q. exact Q.
  - intros g tr t f I. cbn in I. repeat (destruct I as [<-|I]; [exact Logic.I|]). destruct I.
  - intros. exact Logic.I.
  - clear s. intros s t c f r e R FI _ Hst LV Hfs.
    assert (IN : In f (th_stack (s_th s t))) by (rewrite Hst; now left).
    pose proof (FI t f IN) as QF. pose proof (bottom_step _ _ _ _ _ _ _ R Hst Hfs) as B.
    assert (UP : n_bottom (nd (s_g s) MAIN_TN) = MAIN -> n_bottom (nd (e_g e) MAIN_TN) = MAIN).
    { intros X. destruct B as [->|[-> ->]]; [exact X|exact QF]. }
    split; [|split].
    + assert (X : forall f', In f' (e_fr e) -> f' = f \/ (f' <> FMain /\ f' <> FCall PAtMain) \/ (f = FMain /\ f' <> FMain)).
      { clear - Hfs. fs_cases Hfs; brk Hfs; inversion Hfs; subst; clear Hfs; cbn; intros f' I;
          repeat match type of I with context [if ?b then _ else _] => destruct b; cbn in I end;
          repeat (destruct I as [<-|I]; [first [left; reflexivity|right; left; split; discriminate|right; right; split; [reflexivity|discriminate]]|]);
          try (destruct I; fail). }
      intros f' I. destruct (X f' I) as [->|[[A1 A2]|[-> A]]].
      * destruct f as []; cbn in *; auto. match goal with p : plain |- _ => destruct p; auto end.
      * destruct f' as []; cbn; auto; [match goal with p : plain |- _ => destruct p; auto; congruence end|congruence].
      * destruct c; try discriminate Hfs. cbn in Hfs. inversion Hfs; subst. cbn in QF.
        destruct f' as []; cbn; auto; try congruence; match goal with p : plain |- _ => destruct p; auto end;
        cbn; rewrite nd_set_same; exact QF.
    + intros t' f' _ Q. destruct f'; cbn in *; auto. match goal with p : plain |- _ => destruct p; auto end.
    + intros st f' EN I. fs_cases Hfs; brk Hfs; inversion Hfs; subst; clear Hfs; cbn in EN; try discriminate EN; inversion EN; subst;
        cbn in I; repeat (destruct I as [<-|I]; [exact Logic.I|]); destruct I.
Qed.

Lemma bottom_reach dyn s : reach dyn clean_forks s ->
  forall w, In (ECall w CbAtMain) (s_tr s) -> n_bottom (nd (s_g s) MAIN_TN) = MAIN.
Proof.
  intros R. apply (reach_invariant dyn clean_forks
    (fun s => forall w, In (ECall w CbAtMain) (s_tr s) -> n_bottom (nd (s_g s) MAIN_TN) = MAIN)); [..|exact R].
  - intros w [].
  - clear s R. intros s t c s' R H1 HO HS. apply step_view in HS. destruct HS as (_ & LV & V).
    destruct V as [| | | | | | |f r e Hst Hun Hbar Hfs Es']; subst; unfold add_ev; cbn [set_th s_tr s_g app];
      try exact H1; try (intros w [X|X]; [discriminate X|eauto]; fail).
    rewrite apply_g, apply_tr. intros w X.
    assert (Q : Qbot (s_g s) (s_tr s) t f) by (apply (qbot_reach _ _ R); rewrite Hst; now left).
    assert (UP : n_bottom (nd (s_g s) MAIN_TN) = MAIN -> n_bottom (nd (e_g e) MAIN_TN) = MAIN).
    { intros Y. destruct (bottom_step _ _ _ _ _ _ _ R Hst Hfs) as [->|[-> ->]]; [exact Y|exact Q]. }
    apply UP. apply in_app_or in X. destruct X as [X|X]; [|eauto].
    assert (F : f = FCall PAtMain); [|subst; exact Q]. revert X. clear - Hfs.
    fs_cases Hfs; brk Hfs; inversion Hfs; subst; clear Hfs; cbn; intros X;
      repeat match type of X with context [if ?b then _ else _] => destruct b; cbn in X end;
      repeat (destruct X as [X|X]; [try discriminate X|]); try (destruct X; fail).
    all: reflexivity.
Qed.

Definition Jbot (tr : list event) (e : event) : Prop :=
  forall r w, e = EQuery MAIN QBottom r -> In (ECall w CbAtMain) tr -> r = MAIN.
Lemma bottom_hist dyn s : reach dyn clean_forks s -> hist Jbot (s_tr s).
Proof.
  apply hist_reach; try (intros; intros ? ?; discriminate).
  intros s0 t c f r e R HI HO Hst LV Hfs. pose proof (main_reach _ _ R) as M. pose proof (bottom_reach _ _ R) as BT.
  pose proof (fun x => fini_local _ _ _ _ _ _ _ _ _ x Hfs) as L.
  pose proof (ev_actor _ _ _ _ _ _ _ _ _ Hfs) as AC.
  assert (D : (exists r0, e_ev e = [EQuery t QBottom r0] /\ t = MAIN /\ r0 = n_bottom (nd (s_g s0) MAIN_TN)) \/
    forall x, In x (e_ev e) -> forall tr, Jbot tr x).
  { destruct (existsb (fun x => match x with EQuery _ QBottom _ => true | _ => false end) (e_ev e)) eqn:EX.
    - apply existsb_exists in EX. destruct EX as (x & X & EX). destruct x; try discriminate EX. destruct q; try discriminate EX.
      destruct (proj2 (L _ X) _ _ _ eq_refl) as (-> & -> & Z). rewrite Z.
      assert (ET : t = t0) by (rewrite <- (AC _ X); reflexivity). subst t0.
      destruct (Z.eq_dec t MAIN) as [->|NE].
      + left. eexists. split; [reflexivity|]. split; [reflexivity|]. cbn. now rewrite (main_tn _ M).
      + right. intros y [<-|[]] tr r0 w E. congruence.
    - right. intros x X tr r0 w ->. 
      assert (Y := proj2 (existsb_exists (fun x => match x with EQuery _ QBottom _ => true | _ => false end) (e_ev e))
        (ex_intro _ _ (conj X eq_refl))). congruence. }
  destruct D as [(r0 & -> & -> & ->)|D].
  - cbn. split; [|exact I]. intros r1 w E IW. inversion E; subst. exact (BT w IW).
  - clear - D. induction (e_ev e) as [|x l IH]; [exact I|]. split; [apply D; now left|apply IH; intros y J; apply D; now right].
Qed.
