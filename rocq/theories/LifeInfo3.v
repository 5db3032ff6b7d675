(** monitor_get_new_thread_info: what it reports. *)
From Verif Require Export LifeInfo2.

Local Open Scope nat_scope.

(** ** The calls of the history *)

Definition mti_inv (s : state) : Prop := forall t q, In (ECreateCall t q) (s_tr s) ->
  g_mti (s_g s) (q_id q) = (q_start q, q_ra q) /\ (q_id q < g_calls (s_g s))%Z.

Lemma mti_local dyn t u g tsd nc f c e : frame_step dyn t u g tsd nc f c = Some e ->
  (exists q, e_ev e = [ECreateCall t q] /\ q_id q = g_calls g /\ g_calls (e_g e) = (g_calls g + 1)%Z /\
     g_mti (e_g e) = upd (g_mti g) (g_calls g) (q_start q, q_ra q)) \/
  (g_calls (e_g e) = g_calls g /\ g_mti (e_g e) = g_mti g /\ forall t' q, ~ In (ECreateCall t' q) (e_ev e)).
Proof.
  assert (T : g_mti (reset_list tsd g) = g_mti g /\ g_calls (reset_list tsd g) = g_calls g).
  { unfold reset_list. destruct (g_used g); destruct (get_tn g tsd); try destruct (Z.eqb z MAIN_TN); auto. }
  destruct T as [T1 T2].
  intros H. fs_cases H; brk H; inversion H; subst; clear H; cbn; g_brk; cbn; rewrite ?T1, ?T2;
    try (left; eexists; repeat split; reflexivity);
    right; (split; [reflexivity|split; [reflexivity|]]); intros t' q' I;
    repeat match type of I with context [if ?b then _ else _] => destruct b; cbn in I end;
    repeat (destruct I as [I|I]; [discriminate I|]); try (destruct I; fail).
Qed.

Lemma mti_reach dyn s : reach dyn any s -> mti_inv s.
Proof.
  apply (reach_invariant dyn any mti_inv).
  - intros t q [].
  - clear s. intros s t c s' R HI _ HS. apply step_view in HS. destruct HS as (_ & LV & V).
    destruct V as [| | | | | | |f r e Hst Hun Hbar Hfs Es']; subst; intros t0 q0 I0; unfold add_ev in *; cbn [set_th s_tr s_g app] in *;
      try (apply (HI t0 q0); exact I0); try (destruct I0 as [I0|I0]; [discriminate I0|apply (HI t0 q0); exact I0]).
    rewrite apply_g. rewrite apply_tr in I0. apply in_app_or in I0.
    destruct (mti_local _ _ _ _ _ _ _ _ _ Hfs) as [(q & E & Q & C & M)|(C & M & N)].
    + rewrite E in I0. rewrite C, M. destruct I0 as [[I0|[]]|I0].
      * inversion I0; subst. rewrite Q, upd_same. split; [reflexivity|lia].
      * destruct (HI t0 q0 I0) as (A & B). rewrite upd_other by lia. split; [exact A|lia].
    + rewrite C, M. destruct I0 as [I0|I0]; [elim (N _ _ I0)|exact (HI t0 q0 I0)].
Qed.

Definition Qcall (g : glob) (tr : list event) (t : Z) (f : frame) : Prop :=
  match of_call f with Some q => In (ECreateCall t q) tr | None => True end.

Lemma call_frames dyn s : reach dyn any s -> fr_inv Qcall s.
Proof.
  apply fr_reach.
  - intros t f I. cbn in I. rewrite upd_if in I. destruct (Z.eqb t MAIN); [|destruct I].
    cbn in I. repeat (destruct I as [<-|I]; [exact Logic.I|]). destruct I.
  - intros g tr t f e t' _ Q. unfold Qcall in *. destruct (of_call f); [now right|exact I].
  - intros g tr t f I. cbn in I. repeat (destruct I as [<-|I]; [exact Logic.I|]). destruct I.
  - intros. exact I.
  - clear s. intros s t c f r e R FI _ Hst LV Hfs.
    assert (IN : In f (th_stack (s_th s t))) by (rewrite Hst; now left).
    pose proof (FI t f IN) as Q.
    assert (MON : forall t0 f0, Qcall (s_g s) (s_tr s) t0 f0 -> Qcall (e_g e) (e_ev e ++ s_tr s) t0 f0).
    { intros t0 f0 X. unfold Qcall in *. destruct (of_call f0); [|exact I]. apply in_or_app; auto. }
    split; [|split].
    + intros f' I'.
      assert (X : (exists q, of_call f' = Some q /\ e_ev e = [ECreateCall t q]) \/ of_call f' = None \/ of_call f' = of_call f).
      { clear - Hfs I'. fs_cases Hfs; brk Hfs; inversion Hfs; subst; clear Hfs; cbn in I';
          repeat match type of I' with context [if ?b then _ else _] => destruct b; cbn in I' end;
          repeat (destruct I' as [<-|I']; [cbn; auto; left; eexists; split; reflexivity|]); try (destruct I'; fail). }
      destruct X as [(q & X & E)|[X|X]]; unfold Qcall; rewrite X.
      * rewrite E. now left.
      * exact I.
      * apply (MON t f) in Q. exact Q.
    + intros t' f' _ X. auto.
    + intros st f' EN I'. unfold Qcall.
      assert (X : of_call f' = None); [|now rewrite X].
      clear - Hfs EN I'. fs_cases Hfs; brk Hfs; inversion Hfs; subst; clear Hfs; cbn in EN; try discriminate EN; inversion EN; subst;
        cbn in I'; repeat (destruct I' as [<-|I']; [reflexivity|]); destruct I'.
Qed.

Lemma one_call dyn s t q t' q' : reach dyn any s ->
  In (ECreateCall t q) (s_tr s) -> In (ECreateCall t' q') (s_tr s) -> q_id q = q_id q' -> t = t' /\ q = q'.
Proof.
  intros R A B E. destruct (ids_reach _ _ R) as (_ & O). specialize (O (q_id q)).
  assert (D : ECreateCall t q = ECreateCall t' q' \/ ECreateCall t q <> ECreateCall t' q').
  { repeat decide equality; apply Z.eq_dec. }
  destruct D as [D|N]; [inversion D; auto|exfalso].
  assert (X : 2 <= count (call_id (q_id q)) (s_tr s)).
  { eapply two_in; [exact A|exact B|exact N|cbn; apply Z.eqb_refl|cbn; rewrite E; apply Z.eqb_refl]. }
  destruct (Z.ltb _ _); lia.
Qed.

(** A frame of a call means the call has not returned. *)
Definition w_ret (i : Z) (f : frame) : nat := match of_call f with Some q => id_is i q | None => 0 end.
Definition e_ret (i : Z) (e : event) : bool := match e with ECreateRet _ q => (q_id q =? i)%Z | _ => false end.
Lemma stage_ret dyn : stage dyn w_ret e_ret.
Proof. intros s. apply (calls_reach _ (fun _ => True)); [calls_init|calls_push|split; reflexivity|split; reflexivity|exact (fun _ _ _ _ _ => I)|calls_step]. Qed.

Lemma stage_frame dyn wf p s t f e i : stage dyn wf p -> reach dyn any s -> In f (th_stack (s_th s t)) -> 1 <= wf i f ->
  In e (s_tr s) -> actor e = t -> p i e = true -> False.
Proof.
  intros ST R IF W IE A P. pose proof (ST s R t i) as C. destruct (ids_reach _ _ R) as (_ & D). specialize (D i).
  assert (D1 : count (call_by t i) (s_tr s) <= count (call_id i) (s_tr s)).
  { generalize (s_tr s). induction l as [|x l IH]; cbn; [lia|]. destruct x; cbn; try lia.
    destruct (t0 =? t)%Z; cbn; destruct (q_id q =? i)%Z; cbn; lia. }
  pose proof (wsum_in (wf i) _ _ IF) as X1.
  pose proof (wsum_in (fun x => if Z.eqb (actor x) t then b2n (p i x) else 0) _ _ IE) as X2. cbn beta in X2.
  rewrite A, Z.eqb_refl, P in X2. cbn in X2, C. destruct (Z.ltb _ _); lia.
Qed.

Lemma open_call dyn s t f q : reach dyn any s -> In f (th_stack (s_th s t)) -> of_call f = Some q ->
  In (ECreateCall t q) (s_tr s) /\ ~ In (ECreateRet t q) (s_tr s).
Proof.
  intros R IN E. split.
  - pose proof (call_frames _ _ R t f IN) as Q. unfold Qcall in Q. now rewrite E in Q.
  - intros X. eapply (stage_frame dyn w_ret e_ret s t f (ECreateRet t q) (q_id q)); eauto.
    + apply stage_ret.
    + unfold w_ret. rewrite E. unfold id_is. now rewrite Z.eqb_refl.
    + cbn. apply Z.eqb_refl.
Qed.

(** ** The end of a call *)

Definition post_over (t : Z) (i : Z) (tr : list event) : Prop := exists x v, In (ERet t (CbPostCreate i x) v) tr.

Definition end_inv (s : state) : Prop := forall t a b q my, th_stack (s_th s t) = a ++ FPCEnd q my :: b ->
  post_over t (q_id q) (s_tr s) \/ exists a' x, a = a' ++ [FCb (CbPostCreate (q_id q) x) KNone].

Lemma end_local dyn t u g tsd nc f c e q my : frame_step dyn t u g tsd nc f c = Some e ->
  (forall a b, e_fr e = a ++ FPCEnd q my :: b -> exists x, a = [FCb (CbPostCreate (q_id q) x) KNone]) /\
  (forall st, e_new e = Some st -> ~ In (FPCEnd q my) st) /\
  (forall i x, f = FCb (CbPostCreate i x) KNone ->
     (exists v, In (ERet t (CbPostCreate i x) v) (e_ev e)) \/ exists a, e_fr e = a ++ [f]).
Proof.
  intros H. split; [|split].
  - intros a b E.
    assert (IN : In (FPCEnd q my) (e_fr e)) by (rewrite E; apply in_or_app; right; now left).
    assert (F : exists n, f = FPCPost q my n).
    { clear E. fs_cases H; brk H; inversion H; subst; clear H; cbn in IN;
        repeat match type of IN with context [if ?b then _ else _] => destruct b; cbn in IN end;
        repeat (destruct IN as [IN|IN]; [try discriminate IN; inversion IN; subst; eauto|]); try (destruct IN; fail). }
    destruct F as (n & ->). destruct c; try discriminate H. cbn in H. inversion H; subst. cbn in E.
    destruct a as [|x a]; [discriminate E|]. inversion E as [[E1 E2]]. destruct a as [|y a]; [eauto|].
    inversion E2 as [[E3 E4]]. destruct a; discriminate E4.
  - intros st EN I. fs_cases H; brk H; inversion H; subst; clear H; cbn in EN; try discriminate EN; inversion EN; subst;
      cbn in I; repeat (destruct I as [I|I]; [discriminate I|]); destruct I.
  - intros i x ->. destruct c; cbn in H; try discriminate H.
    + right. exists (api_frames a (g_calls g)). destruct a; try discriminate H; inversion H; subst; reflexivity.
    + inversion H; subst. left. cbn. eauto.
Qed.

Lemma unwind_end l q my : ~ In (FPCEnd q my) (unwind l).
Proof.
  intros I. destruct (unwind_shape l) as [U|(n & f & U & _)]; rewrite U in I;
    repeat (destruct I as [I|I]; [discriminate I|]); destruct I.
Qed.

Lemma end_reach dyn s : reach dyn any s -> end_inv s.
Proof.
  apply (reach_invariant dyn any end_inv).
  - intros t a b q my E. exfalso. assert (I : In (FPCEnd q my) (th_stack (s_th init t))) by (rewrite E; apply in_or_app; right; now left).
    cbn in I. rewrite upd_if in I. destruct (Z.eqb t MAIN); [|destruct I].
    cbn in I. repeat (destruct I as [I|I]; [discriminate I|]). destruct I.
  - clear s. intros s t c s' R HI _ HS v a b q my E.
    apply step_view in HS. destruct HS as (_ & LV & V).
    assert (MON : forall ev, post_over v (q_id q) (s_tr s) -> post_over v (q_id q) (ev ++ s_tr s)).
    { intros ev (x & y & I). exists x, y. apply in_or_app; auto. }
    assert (PUSH : forall l st, ~ In (FPCEnd q my) l -> l ++ st = a ++ FPCEnd q my :: b -> st = th_stack (s_th s v) ->
       post_over v (q_id q) (s_tr s) \/ exists a' x, a = a' ++ [FCb (CbPostCreate (q_id q) x) KNone]).
    { intros l st N X ->. apply app_eq_app in X. destruct X as (m & [[X1 X2]|[X1 X2]]).
      - destruct m as [|y m]; cbn in X2.
        + rewrite app_nil_r in X1. subst. destruct (HI v [] b q my (eq_sym X2)) as [Y|(a' & x & Y)]; [now left|].
          destruct a'; discriminate Y.
        + inversion X2; subst. elim N. apply in_or_app. right. now left.
      - subst. destruct (HI v m b q my X2) as [Y|(a' & x & ->)]; [now left|]. right. exists (l ++ a'), x. now rewrite app_assoc. }
    destruct V as [| | | |f1 r1 Ec Est Enc Elk|r1 Ec Est Elk| |f r e Hst Hun Hbar Hfs Es']; subst; unfold add_ev in *; cbn [set_th s_th s_tr app] in *;
      try (rewrite upd_if in E; destruct (Z.eqb_spec v t); [subst v; cbn [with_stack th_stack] in E|
        destruct (HI v a b q my E) as [Y|Y]; [left; first [exact Y|apply (MON [_]); exact Y]|now right]]).
    + apply (PUSH [FApp AppHandler] _) in E; auto. intros [X|[]]; discriminate X.
    + apply (PUSH [FEPGet EXIT_SIGNAL; FEndLibDyn; FSigEnd] _) in E; auto. intros [X|[X|[X|[]]]]; discriminate X.
    + apply (PUSH [FHGet] _) in E; auto. destruct E as [E|E]; [left; now apply (MON [_])|now right]. intros [X|[]]; discriminate X.
    + apply (PUSH [FWGet] _) in E; auto. destruct E as [E|E]; [left; now apply (MON [_])|now right]. intros [X|[]]; discriminate X.
    + exfalso. eapply unwind_end. rewrite E. apply in_or_app. right. now left.
    + exfalso. eapply unwind_end. rewrite E. apply in_or_app. right. now left.
    + destruct a; discriminate E.
    + rewrite apply_tr. destruct (end_local _ _ _ _ _ _ _ _ _ q my Hfs) as (A & B & C).
      assert (OWN : v = t -> e_fr e ++ r = a ++ FPCEnd q my :: b -> post_over v (q_id q) (e_ev e ++ s_tr s) \/
         exists a' x, a = a' ++ [FCb (CbPostCreate (q_id q) x) KNone]).
      { intros -> X. apply app_eq_app in X. destruct X as (m & [[X1 X2]|[X1 X2]]).
        - destruct m as [|y m]; cbn in X2.
          + rewrite app_nil_r in X1. subst r a.
            destruct (HI t [f] b q my Hst) as [Y|(a' & x & Y)]; [left; auto|].
            destruct a' as [|z a']; [|destruct a'; discriminate Y]. inversion Y; subst f.
            destruct (C _ _ eq_refl) as [(w & Z)|(a1 & Z)]; [left; exists x, w; apply in_or_app; auto|].
            right. eauto.
          + inversion X2; subst. destruct (A a m X1) as (x & ->). right. exists [], x. reflexivity.
        - subst. destruct (HI t (f :: m) b q my Hst) as [Y|(a' & x & Y)]; [left; auto|].
          destruct a' as [|z a'].
          + inversion Y; subst. rewrite app_nil_r. destruct (C _ _ eq_refl) as [(w & Z)|(a1 & Z)]; [left; exists x, w; apply in_or_app; auto|].
            right. eauto.
          + inversion Y; subst. right. exists (e_fr e ++ a'), x. now rewrite app_assoc. }
      assert (OTH : th_stack (s_th s v) = a ++ FPCEnd q my :: b -> post_over v (q_id q) (e_ev e ++ s_tr s) \/
         exists a' x, a = a' ++ [FCb (CbPostCreate (q_id q) x) KNone]).
      { intros X. destruct (HI v a b q my X) as [Y|Y]; auto. }
      destruct (e_child e) eqn:HC.
      * destruct (child_shape _ _ _ _ _ _ _ _ _ Hfs HC) as (_ & _ & _ & _ & _ & N & K & _).
        rewrite apply_stack_child in E by auto. destruct (Z.eqb_spec v t); [auto|destruct a; discriminate E].
      * rewrite apply_stack in E by auto. destruct (e_new e) as [st|] eqn:EN.
        -- destruct (Z.eqb_spec v (s_next s)); [|destruct (Z.eqb_spec v t); auto].
           exfalso. eapply (B st eq_refl). rewrite E. apply in_or_app. right. now left.
        -- destruct (Z.eqb_spec v t); auto.
Qed.

(** From pre_create until post_create returns, the call is on the stack. *)
Definition during_inv (s : state) : Prop := forall t i, th_live (s_th s t) = true ->
  In (ECall t (CbPreCreate i)) (s_tr s) -> ~ post_over t i (s_tr s) ->
  exists f q my, In f (th_stack (s_th s t)) /\ informed f = Some (q, my) /\ q_id q = i.

Lemma pre_ev dyn t u g tsd nc f c e t' i : frame_step dyn t u g tsd nc f c = Some e -> In (ECall t' (CbPreCreate i)) (e_ev e) ->
  t' = t /\ exists q my, In (FCb (CbPreCreate i) (KPreCreate q my)) (e_fr e) /\ q_id q = i.
Proof.
  intros H I. fs_cases H; brk H; inversion H; subst; clear H; cbn in I;
    repeat match type of I with context [if ?b then _ else _] => destruct b; cbn in I end;
    repeat (destruct I as [I|I]; [try discriminate I; inversion I; subst|]); try (destruct I; fail).
  split; [reflexivity|]. exists q, my. cbn. auto.
Qed.

Lemma during_reach dyn s : reach dyn tidy s -> during_inv s.
Proof.
  apply (reach_invariant dyn tidy during_inv).
  - intros t i _ [].
  - clear s. intros s t c s' R HI HO HS v i LV' PC NP.
    pose proof (tidy_orderly _ _ R) as RO. pose proof (orderly_clean _ _ RO) as RC. pose proof (clean_any _ _ RC) as RA.
    pose proof (born_reach _ _ RA) as BO. destruct (born_fresh _ BO (s_next s) (Z.le_refl _)) as (_ & NL & NE).
    destruct HO as (HOO & _ & RET & HEED).
    apply step_view in HS. destruct HS as (_ & LV & V).
    assert (PUSH : forall l ev, s_tr s' = ev ++ s_tr s -> (forall e, In e ev -> exists u, e = EDeliver u \/ e = EEnd u) ->
      (forall w, th_live (s_th s' w) = th_live (s_th s w)) ->
      (forall w, th_stack (s_th s' w) = if Z.eqb w t then l ++ th_stack (s_th s t) else th_stack (s_th s w)) ->
      exists f q my, In f (th_stack (s_th s' v)) /\ informed f = Some (q, my) /\ q_id q = i).
    { intros l ev ET EV EL ES. rewrite EL in LV'. rewrite ET in PC, NP.
      destruct (HI v i LV') as (f & q & my & I & E1 & E2).
      { apply in_app_or in PC. destruct PC as [X|X]; [|exact X]. destruct (EV _ X) as (u & [Y|Y]); discriminate Y. }
      { intros (x & y & X). apply NP. exists x, y. apply in_or_app; auto. }
      exists f, q, my. rewrite ES. destruct (Z.eqb_spec v t); [subst|]; auto. repeat split; auto. apply in_or_app; auto. }
    assert (UNW : forall ev, existsb in_create (th_stack (s_th s t)) = false -> s_tr s' = ev ++ s_tr s -> (forall e, In e ev -> exists u, e = EDeliver u \/ e = EEnd u) ->
      (forall w, th_live (s_th s' w) = true -> th_live (s_th s w) = true) ->
      (forall w, w <> t -> th_stack (s_th s' w) = th_stack (s_th s w)) ->
      exists f q my, In f (th_stack (s_th s' v)) /\ informed f = Some (q, my) /\ q_id q = i).
    { intros ev NC ET EV EL ES. apply EL in LV'. rewrite ET in PC, NP.
      destruct (HI v i LV') as (f & q & my & I & E1 & E2).
      { apply in_app_or in PC. destruct PC as [X|X]; [|exact X]. destruct (EV _ X) as (u & [Y|Y]); discriminate Y. }
      { intros (x & y & X). apply NP. exists x, y. apply in_or_app; auto. }
      exists f, q, my. rewrite ES; auto. intros ->.
      pose proof (creating_in _ (informed_in _ _ E1)) as X. rewrite (existsb_false_in _ _ _ NC I) in X. discriminate X. }
    destruct V as [| | | |f1 r1 Ec Est Enc Elk|r1 Ec Est Elk| |f r e Hst Hun Hbar Hfs Es'].
    + apply (PUSH [FApp AppHandler] []); subst; cbn; auto; try (intros ? []); intros w; rewrite upd_if; now destruct (Z.eqb_spec w t); subst.
    + apply (PUSH [FEPGet EXIT_SIGNAL; FEndLibDyn; FSigEnd] []); subst; cbn; auto; try (intros ? []); intros w; rewrite upd_if; now destruct (Z.eqb_spec w t); subst.
    + apply (PUSH [FHGet] [EDeliver t]); subst; cbn; auto; [intros ? [<-|[]]; eauto|..]; intros w; rewrite upd_if; now destruct (Z.eqb_spec w t); subst.
    + apply (PUSH [FWGet] [EDeliver t]); subst; cbn; auto; [intros ? [<-|[]]; eauto|..]; intros w; rewrite upd_if; now destruct (Z.eqb_spec w t); subst.
    + apply (UNW []); [apply RET; now left|subst; reflexivity|intros ? []|subst; cbn; intros w; rewrite upd_if; destruct (Z.eqb_spec w t); subst; cbn; auto; congruence..].
    + apply (UNW []); [apply RET; right; eauto|subst; reflexivity|intros ? []|subst; cbn; intros w; rewrite upd_if; destruct (Z.eqb_spec w t); subst; cbn; auto; congruence..].
    + apply (UNW [EEnd t]); subst; cbn; auto.
      * match goal with H : th_stack _ = [] |- _ => now rewrite H end.
      * intros ? [<-|[]]; eauto.
      * intros w; rewrite upd_if; destruct (Z.eqb_spec w t); subst; cbn; auto; congruence.
      * intros w; rewrite upd_if; destruct (Z.eqb_spec w t); subst; cbn; auto; congruence.
    + subst s'. rewrite apply_tr in PC, NP. assert (IN : In f (th_stack (s_th s t))) by (rewrite Hst; now left).
      assert (NP0 : ~ post_over v i (s_tr s)).
      { intros (x & y & X). apply NP. exists x, y. apply in_or_app; auto. }
      assert (OWN : v = t -> exists f q my, In f (e_fr e ++ r) /\ informed f = Some (q, my) /\ q_id q = i).
      { intros ->. apply in_app_or in PC. destruct PC as [PC|PC].
        - destruct (pre_ev _ _ _ _ _ _ _ _ _ _ _ Hfs PC) as (_ & q & my & X & Y). exists (FCb (CbPreCreate i) (KPreCreate q my)), q, my.
          repeat split; auto. apply in_or_app; auto.
        - destruct (HI t i LV PC NP0) as (f2 & q & my & I2 & E2 & K). rewrite Hst in I2.
          destruct I2 as [<-|I2]; [|exists f2, q, my; repeat split; auto; apply in_or_app; auto].
          unfold heeded in HEED. rewrite Hst in HEED.
          destruct (informed_next _ _ _ _ _ _ _ _ _ _ _ Hfs E2) as [(f3 & I3 & E3)|[->|[[-> Y]|[(m & -> & Y)| ->]]]].
          + exists f3, q, my. repeat split; auto. apply in_or_app; auto.
          + exfalso. destruct (end_reach _ _ RA t [] r q my Hst) as [Y|(a' & x & Y)]; [|destruct a'; discriminate Y].
            rewrite K in Y. auto.
          + exfalso. eapply (stage_frame dyn w_prec e_prec s t _ (ECall t (CbPreCreate i)) i (stage_prec dyn) RA IN); eauto; cbn.
            * unfold id_is. now rewrite K, Z.eqb_refl.
            * apply Z.eqb_refl.
          + congruence.
          + congruence. }
      assert (OTH : v <> t -> th_live (s_th s v) = true -> exists f q my, In f (th_stack (s_th s v)) /\ informed f = Some (q, my) /\ q_id q = i).
      { intros N L. apply (HI v i L); auto. apply in_app_or in PC. destruct PC as [PC|PC]; [|exact PC].
        destruct (pre_ev _ _ _ _ _ _ _ _ _ _ _ Hfs PC) as (X & _). congruence. }
      destruct (e_child e) eqn:HC.
      * destruct (child_shape _ _ _ _ _ _ _ _ _ Hfs HC) as (_ & _ & _ & _ & _ & N & K & _).
        rewrite apply_stack_child by auto. destruct (Z.eqb_spec v t); [auto|exfalso].
        unfold apply_eff in LV'. rewrite HC, N, K in LV'. cbn in LV'. rewrite upd_other in LV' by auto. discriminate LV'.
      * rewrite apply_live in LV' by auto. rewrite apply_stack by auto. destruct (e_new e) as [st|] eqn:EN.
        -- destruct (Z.eqb_spec v (s_next s)).
           ++ exfalso. subst v. apply in_app_or in PC. destruct PC as [PC|PC].
              ** destruct (pre_ev _ _ _ _ _ _ _ _ _ _ _ Hfs PC) as (X & _). rewrite X in NL. congruence.
              ** exact (NE _ PC eq_refl).
           ++ destruct (Z.eqb_spec v t); auto.
        -- destruct (Z.eqb_spec v t); auto.
Qed.

(** ** What the function reports *)

Definition Jinfo (tr : list event) (e : event) : Prop :=
  match e with
  | EInfo t r =>
      (forall k st ra, r = Some (k, (st, ra)) ->
         exists q, q_id q = k /\ q_start q = st /\ q_ra q = ra /\ in_call t q tr) /\
      (forall q, in_hooks t q tr -> r = Some (q_id q, (q_start q, q_ra q)))
  | _ => True
  end.

Definition Qmine (g : glob) (tr : list event) (t : Z) (f : frame) : Prop :=
  forall q, informed f = Some (q, None) -> f = FPCIgn q None.
Lemma mine_reach dyn s : reach dyn any s -> fr_inv Qmine s.
Proof.
  apply fr_reach.
  - intros t f I. cbn in I. rewrite upd_if in I. destruct (Z.eqb t MAIN); [|destruct I].
    cbn in I. repeat (destruct I as [<-|I]; [intros q X; discriminate X|]). destruct I.
  - auto.
  - intros g tr t f I. cbn in I. repeat (destruct I as [<-|I]; [intros q X; discriminate X|]). destruct I.
  - intros g tr t n f _ _ q X. discriminate X.
  - clear s. intros s t c f r e R FI _ Hst LV Hfs.
    assert (IN : In f (th_stack (s_th s t))) by (rewrite Hst; now left).
    pose proof (FI t f IN) as Q. split; [|split].
    + intros f' I' q E'. unfold Qmine in Q. clear - Q Hfs I' E'.
      fs_cases Hfs; brk Hfs; inversion Hfs; subst; clear Hfs; cbn in I';
        repeat match type of I' with context [if ?b then _ else _] => destruct b; cbn in I' end;
        repeat (destruct I' as [<-|I']; [try discriminate E'; cbn in E'; inversion E'; subst; try reflexivity; try (specialize (Q _ eq_refl); discriminate Q)|]); try (destruct I'; fail); try (apply Q; exact E').
    + auto.
    + intros st f' EN I' q E'. destruct (informed_local _ _ _ _ _ _ _ _ _ Hfs) as (_ & B).
      rewrite (B st f' EN I') in E'. discriminate E'.
Qed.

Lemma info_hist dyn s : reach dyn tidy s -> hist Jinfo (s_tr s).
Proof.
  apply hist_reach; try (intros; exact I).
  clear s. intros s t c f r e R HI HO Hst LV Hfs.
  pose proof (tidy_orderly _ _ R) as RO. pose proof (orderly_clean _ _ RO) as RC. pose proof (clean_any _ _ RC) as RA.
  assert (IN : In f (th_stack (s_th s t))) by (rewrite Hst; now left).
  assert (D : f = FInfo \/ forall t' x, ~ In (EInfo t' x) (e_ev e)).
  { clear - Hfs. fs_cases Hfs; brk Hfs; inversion Hfs; subst; clear Hfs; auto; right; intros tt xx I; cbn in I;
      repeat match type of I with context [if ?b then _ else _] => destruct b; cbn in I end;
      repeat (destruct I as [I|I]; [discriminate I|]); try (destruct I; fail). }
  destruct D as [->|D].
  2: { clear - D. revert D. generalize (s_tr s). induction (e_ev e) as [|x l IH]; intros tr D; [exact I|].
       split; [|apply IH; intros t' y Y; apply (D t' y); now right].
       destruct x; try exact I. eelim D. now left. }
  destruct c; try discriminate Hfs. cbn in Hfs. inversion Hfs; subst; clear Hfs. split; [|exact I]. split.
  - intros k st ra E. destruct (get_tn (s_g s) (th_tsd (s_th s t))) as [n|] eqn:G; [|discriminate E].
    destruct (n_info (nd (s_g s) n)) as [k0|] eqn:NI; [|discriminate E]. inversion E; subst k0. 
    pose proof (tn_node _ _ _ _ _ RO LV IN eq_refl G) as ON.
    destruct (from_reach _ _ R t n k LV ON NI) as (f & q & I2 & E2 & K).
    assert (OC : of_call f = Some q).
    { unfold of_call. destruct f; try discriminate E2; try (rewrite E2; reflexivity). }
    destruct (open_call _ _ _ _ _ RA I2 OC) as (A & B). destruct (mti_reach _ _ RA t q A) as (M & _).
    exists q. rewrite K in M. rewrite M in H1. inversion H1. repeat split; auto.
  - intros q (A & B & C). destruct (during_reach _ _ R t (q_id q) LV B C) as (f & q' & my & I2 & E2 & K).
    assert (OC : of_call f = Some q').
    { unfold of_call. destruct f; try discriminate E2; try (rewrite E2; reflexivity). }
    destruct (open_call _ _ _ _ _ RA I2 OC) as (A' & _).
    destruct (one_call _ _ _ _ _ _ RA A' A K) as (_ & ->).
    destruct my as [n|].
    + destruct (my_node _ _ _ _ _ _ RO I2 E2) as (G & _). rewrite G, (set_reach _ _ R t f q n I2 E2).
      destruct (mti_reach _ _ RA t q A) as (M & _). now rewrite M.
    + exfalso. pose proof (mine_reach _ _ RA t f I2 q E2) as ->.
      eapply (stage_frame dyn w_prec e_prec s t _ (ECall t (CbPreCreate (q_id q))) (q_id q) (stage_prec dyn) RA I2); eauto; cbn.
      * unfold id_is. now rewrite Z.eqb_refl.
      * apply Z.eqb_refl.
Qed.

(** ** In every schedule, what is reported is the data of some call *)

Definition real_inv (s : state) : Prop := forall n k, n_info (nd (s_g s) n) = Some k ->
  exists t q, In (ECreateCall t q) (s_tr s) /\ q_id q = k.

Lemma real_reach dyn s : reach dyn any s -> real_inv s.
Proof.
  apply (reach_invariant dyn any real_inv).
  - intros n k E. exfalso. unfold nd, init, glob0 in E. cbn in E. rewrite ?upd_if in E. destruct (Z.eqb n MAIN_TN); discriminate E.
  - clear s. intros s t c s' R HI _ HS n k E. apply step_view in HS. destruct HS as (_ & LV & V).
    destruct V as [| | | | | | |f r e Hst Hun Hbar Hfs Es']; subst; unfold add_ev in *; cbn [set_th s_tr s_g app] in *;
      try (apply (HI n k); exact E); try (destruct (HI n k E) as (t0 & q0 & A & B); exists t0, q0; split; [now right|exact B]).
    rewrite apply_g in E. rewrite apply_tr.
    destruct (info_local _ _ _ _ _ _ _ _ _ n Hfs) as [X|[(q & -> & G & X)|(X & _)]]; [| |congruence].
    + rewrite X in E. destruct (HI n k E) as (t0 & q0 & A & B). exists t0, q0. split; [apply in_or_app; auto|exact B].
    + exists t, q. split; [|congruence]. apply in_or_app. right.
      assert (IN : In (FPCInfo q) (th_stack (s_th s t))) by (rewrite Hst; now left).
      exact (call_frames _ _ R t _ IN).
Qed.

Definition Jreal (tr : list event) (e : event) : Prop :=
  match e with
  | EInfo t (Some (k, (st, ra))) => exists t' q, In (ECreateCall t' q) tr /\ q_id q = k /\ q_start q = st /\ q_ra q = ra
  | _ => True
  end.

Lemma real_hist dyn s : reach dyn any s -> hist Jreal (s_tr s).
Proof.
  apply hist_reach; try (intros; exact I).
  clear s. intros s t c f r e R HI HO Hst LV Hfs.
  assert (IN : In f (th_stack (s_th s t))) by (rewrite Hst; now left).
  assert (D : f = FInfo \/ forall t' x, ~ In (EInfo t' x) (e_ev e)).
  { clear - Hfs. fs_cases Hfs; brk Hfs; inversion Hfs; subst; clear Hfs; auto; right; intros tt xx I; cbn in I;
      repeat match type of I with context [if ?b then _ else _] => destruct b; cbn in I end;
      repeat (destruct I as [I|I]; [discriminate I|]); try (destruct I; fail). }
  destruct D as [->|D].
  2: { clear - D. revert D. generalize (s_tr s). induction (e_ev e) as [|x l IH]; intros tr D; [exact I|].
       split; [|apply IH; intros t' y Y; apply (D t' y); now right].
       destruct x; try exact I. eelim D. now left. }
  destruct c; try discriminate Hfs. cbn in Hfs. inversion Hfs; subst; clear Hfs. split; [|exact I].
  unfold Jreal. destruct (get_tn (s_g s) (th_tsd (s_th s t))) as [n|] eqn:G; [|exact I].
  destruct (n_info (nd (s_g s) n)) as [k|] eqn:NI; [|exact I].
  destruct (real_reach _ _ R n k NI) as (t0 & q & A & B). destruct (mti_reach _ _ R t0 q A) as (M & _). subst k. rewrite M.
  exists t0, q. auto.
Qed.
