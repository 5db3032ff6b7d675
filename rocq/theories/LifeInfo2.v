(** monitor_get_new_thread_info: the invariants. *)
From Verif Require Export LifeInfo.

Local Open Scope nat_scope.

Lemma dead_stack dyn s t f : reach dyn any s -> In f (th_stack (s_th s t)) -> th_live (s_th s t) = true.
Proof.
  intros R I. destruct (th_live (s_th s t)) eqn:L; [reflexivity|].
  rewrite (born_dead _ (born_reach _ _ R) t L) in I. destruct I.
Qed.

(** The node a call remembers is the caller's. *)
Definition Qmy (g : glob) (tr : list event) (tsd : option Z) (t : Z) (f : frame) : Prop :=
  match informed f with
  | Some (_, Some n) => (t = MAIN -> n = MAIN_TN) /\ (t <> MAIN -> tsd = Some n)
  | _ => True
  end.
Lemma Qmy_none g tr d t f : informed f = None -> Qmy g tr d t f.
Proof. unfold Qmy. intros ->. exact I. Qed.

Lemma my_reach dyn s : reach dyn orderly s -> ft_inv Qmy s.
Proof.
  apply ft_reach.
  - intros t f I. cbn in I. rewrite upd_if in I. destruct (Z.eqb t MAIN); [|destruct I].
    cbn in I. repeat (destruct I as [<-|I]; [exact Logic.I|]). destruct I.
  - auto.
  - intros s0 t c f _ _ _ _ _ _ I. cbn in I. repeat (destruct I as [<-|I]; [exact Logic.I|]). destruct I.
  - intros. exact I.
  - intros. exact I.
  - clear s. intros s t c f r e R FI HO Hst LV Hfs. pose proof (orderly_clean _ _ R) as RC.
    pose proof (who_reach _ _ RC) as W. pose proof (main_reach _ _ RC) as M.
    assert (IN : In f (th_stack (s_th s t))) by (rewrite Hst; now left).
    destruct (informed_local _ _ _ _ _ _ _ _ _ Hfs) as (A & B).
    split; [|split; [|split]].
    + intros f' I'. unfold Qmy. destruct (informed f') as [[q [n|]]|] eqn:E; try exact I.
      destruct (A f' q (Some n) I' E) as [X|(-> & X & ET & _)].
      * pose proof (FI t f IN) as Q. unfold Qmy in Q. rewrite X in Q. destruct Q as [Q1 Q2]. split; [exact Q1|].
        intros N. rewrite <- (Q2 N). destruct (tsd_local _ _ _ _ _ _ _ _ _ Hfs) as [T|[(m & ->)|[(q' & -> & _)|RS]]]; [exact T|discriminate X..|].
        destruct f; try discriminate X; try discriminate RS.
      * assert (U : g_used (s_g s) = true) by (eapply who_create; [exact W|exact IN|reflexivity]).
        unfold get_tn in X. rewrite U in X. split.
        -- intros ->. rewrite (mi_used _ M U) in X. destruct (n_magic _); congruence.
        -- intros _. rewrite ET. destruct (th_tsd (s_th s t)) as [m|]; [|discriminate X]. destruct (n_magic _); congruence.
    + intros f' J Q. unfold Qmy in *. destruct (informed f') as [[q [n|]]|] eqn:E; try exact I.
      destruct Q as [Q1 Q2]. split; [exact Q1|]. intros N. rewrite <- (Q2 N).
      destruct (tsd_local _ _ _ _ _ _ _ _ _ Hfs) as [T|[(m & ->)|[(q' & -> & U)|RS]]]; [exact T|exfalso..].
      * pose proof (bt_top _ _ _ _ _ (clean_any _ _ RC) Hst eq_refl) as ->. destruct J as [<-|[]]. discriminate E.
      * assert (X : g_used (s_g s) = true); [|congruence].
        eapply (who_create _ W t f'); [rewrite Hst; now right|eapply informed_in; eauto].
      * destruct (who_reset _ W t) as (-> & _); [rewrite Hst; cbn; now rewrite RS|]. congruence.
    + auto.
    + intros st f' EN I'. apply Qmy_none. eapply B; eauto.
Qed.

Lemma my_node dyn s t f q n : reach dyn orderly s -> In f (th_stack (s_th s t)) -> informed f = Some (q, Some n) ->
  get_tn (s_g s) (th_tsd (s_th s t)) = Some n /\ own_node s t n.
Proof.
  intros R IN E. pose proof (orderly_clean _ _ R) as RC. pose proof (who_reach _ _ RC) as W. pose proof (main_reach _ _ RC) as M.
  pose proof (dead_stack _ _ _ _ (clean_any _ _ RC) IN) as LV.
  pose proof (my_reach _ _ R t f IN) as Q. unfold Qmy in Q. rewrite E in Q. destruct Q as [Q1 Q2].
  pose proof (informed_in _ _ E) as CR.
  assert (U : g_used (s_g s) = true) by (eapply who_create; eauto).
  assert (QF : quiet f = false) by (destruct f; try discriminate E; auto; destruct k; try discriminate E; auto).
  assert (RF : resetting f = false) by (destruct f; try discriminate E; auto).
  assert (G : get_tn (s_g s) (th_tsd (s_th s t)) = Some n).
  { destruct (get_tn (s_g s) (th_tsd (s_th s t))) as [m|] eqn:G.
    - f_equal. unfold get_tn in G. rewrite U in G. destruct (th_tsd (s_th s t)) as [k|] eqn:T; [|discriminate G].
      assert (m = k) by (destruct (n_magic _); congruence). subst k.
      destruct (Z.eq_dec t MAIN) as [->|N]; [|specialize (Q2 N); congruence].
      rewrite (mi_used _ M U) in T. rewrite (Q1 eq_refl). congruence.
    - exfalso. destruct (tn_none _ _ _ _ R LV IN QF RF G) as (N & T). rewrite (Q2 N) in T. discriminate T. }
  split; [exact G|]. eapply tn_node; eauto.
Qed.

(** ** The pointer is set inside a call *)

Lemma reset_tsd dyn s t f : reach dyn clean_forks s -> In f (th_stack (s_th s t)) -> resetting f = true ->
  th_tsd (s_th s t) = None \/ th_tsd (s_th s t) = Some MAIN_TN.
Proof.
  intros R IN E. destruct (who_reset _ (who_reach _ _ R) t) as (-> & _); [apply existsb_exists; eauto|].
  apply (mi_tsd _ (main_reach _ _ R)).
Qed.

Definition set_inv (s : state) : Prop := forall t f q n, In f (th_stack (s_th s t)) -> informed f = Some (q, Some n) ->
  n_info (nd (s_g s) n) = Some (q_id q).

Lemma set_reach dyn s : reach dyn tidy s -> set_inv s.
Proof.
  apply (reach_invariant dyn tidy set_inv).
  - intros t f q n I E. cbn in I. rewrite upd_if in I. destruct (Z.eqb t MAIN); [|destruct I].
    cbn in I. repeat (destruct I as [<-|I]; [discriminate E|]). destruct I.
  - clear s. intros s t c s' R HI HO HS v f' q n I' E.
    pose proof (tidy_orderly _ _ R) as RO. pose proof (orderly_clean _ _ RO) as RC. pose proof (clean_any _ _ RC) as RA.
    apply step_view in HS. destruct HS as (_ & LV & V).
    assert (UW : forall l, In f' (unwind l) -> False).
    { intros l J. destruct (unwind_shape l) as [U|(m & f & U & _)]; rewrite U in J;
        repeat (destruct J as [<-|J]; [discriminate E|]); destruct J. }
    assert (OLD : In f' (th_stack (s_th s v)) -> n_info (nd (s_g s) n) = Some (q_id q)) by eauto.
    destruct V as [| | | |f1 r1 Ec Est Enc Elk|r1 Ec Est Elk| |f r e Hst Hun Hbar Hfs Es']; subst; unfold add_ev in *; cbn [set_th s_th s_g] in *;
      try (rewrite upd_if in I'; destruct (Z.eqb_spec v t); [subst v; cbn [with_stack th_stack] in I'|auto]).
    + destruct I' as [<-|I']; [discriminate E|auto].
    + repeat (destruct I' as [<-|I']; [discriminate E|]). auto.
    + destruct I' as [<-|I']; [discriminate E|auto].
    + destruct I' as [<-|I']; [discriminate E|auto].
    + elim (UW _ I').
    + elim (UW _ I').
    + destruct I'.
    + rewrite apply_g. assert (IN : In f (th_stack (s_th s t))) by (rewrite Hst; now left).
      destruct (informed_local _ _ _ _ _ _ _ _ _ Hfs) as (A & B).
      (* a frame that stays: the pointer stays *)
      assert (STAY : forall f2, In f2 (th_stack (s_th s v)) -> informed f2 = Some (q, Some n) ->
        (v = t -> In f2 r \/ (f2 = f /\ (exists f3, In f3 (e_fr e) /\ informed f3 = Some (q, Some n)))) -> n_info (nd (e_g e) n) = Some (q_id q)).
      { intros f2 I2 E2 PL. pose proof (HI _ _ _ _ I2 E2) as SET. pose proof (my_node _ _ _ _ _ _ RO I2 E2) as (_ & ON).
        destruct (info_local _ _ _ _ _ _ _ _ _ n Hfs) as [X|[(q0 & -> & G & X)|(X & [(q0 & ->)|[->|[(q0 & my & d & ->)|(RS & T)]]])]].
        - now rewrite X.
        - exfalso. pose proof (tn_node _ _ _ _ _ RO LV IN eq_refl G) as O2.
          assert (v = t) by (eapply own_node_who; eauto). subst v. destruct (PL eq_refl) as [J|(-> & _)]; [|discriminate E2].
          eapply (not_two dyn s t (FPCInfo q0) r f2); eauto. apply creating_in. eapply informed_in; eauto.
        - exfalso. pose proof (my_node _ _ _ _ _ _ RO IN eq_refl) as (_ & O2).
          assert (v = t) by (eapply own_node_who; eauto). subst v. destruct (PL eq_refl) as [J|(-> & f3 & J & E3)].
          + eapply (not_two dyn s t _ r f2); eauto. apply creating_in. eapply informed_in; eauto.
          + destruct c; try discriminate Hfs. cbn in Hfs. inversion Hfs; subst. destruct J as [<-|[]]. discriminate E3.
        - exfalso. assert (NMT : t <> MAIN) by (intros ->; pose proof (who_bt _ (who_reach _ _ RC) _ IN) as Y; discriminate Y).
          assert (O2 : own_node s t n). { right. split; [exact NMT|]. left. eexists. split; [exact IN|]. cbn. rewrite Z.eqb_refl. auto. }
          assert (v = t) by (eapply own_node_who; eauto). subst v.
          pose proof (bt_top _ _ _ _ _ RA Hst eq_refl) as ->. destruct (PL eq_refl) as [[<-|[]]|(-> & _)]; discriminate E2.
        - exfalso. destruct ON as [[-> ->]|[NM BL]].
          + pose proof (hold_main _ _ _ _ RC IN) as Y. discriminate Y.
          + eapply (belongs_not_making dyn s v n t (FPCZero q0 my d n)); eauto. unfold making. cbn. now rewrite Z.eqb_refl.
        - elim T. eapply reset_tsd; eauto. }
      assert (OWN : v = t -> In f' (e_fr e ++ r) -> n_info (nd (e_g e) n) = Some (q_id q)).
      { intros -> J. apply in_app_or in J. destruct J as [J|J].
        - destruct (A _ _ _ J E) as [X|(-> & _ & _ & X)]; [|now apply X].
          apply (STAY f); auto. intros _. right. split; [reflexivity|]. eauto.
        - apply (STAY f'); auto. rewrite Hst. now right. }
      destruct (e_child e) eqn:HC.
      * destruct (child_shape _ _ _ _ _ _ _ _ _ Hfs HC) as (_ & _ & _ & _ & _ & N & K & _).
        rewrite apply_stack_child in I' by auto. destruct (Z.eqb_spec v t); [auto|destruct I'].
      * rewrite apply_stack in I' by auto. destruct (e_new e) as [st|] eqn:EN.
        -- destruct (Z.eqb_spec v (s_next s)); [rewrite (B st f' eq_refl I') in E; discriminate E|].
           destruct (Z.eqb_spec v t); [auto|]. apply (STAY f'); auto. congruence.
        -- destruct (Z.eqb_spec v t); [auto|]. apply (STAY f'); auto. congruence.
Qed.

(** ** A pointer that is set belongs to a call *)

Definition from_inv (s : state) : Prop := forall t n k, th_live (s_th s t) = true -> own_node s t n ->
  n_info (nd (s_g s) n) = Some k ->
  exists f q, In f (th_stack (s_th s t)) /\ informed f = Some (q, Some n) /\ q_id q = k.

Lemma from_reach dyn s : reach dyn tidy s -> from_inv s.
Proof.
  apply (reach_invariant dyn tidy from_inv).
  - intros t n k _ _ E. exfalso. unfold nd, init, glob0 in E. cbn in E. rewrite ?upd_if in E. destruct (Z.eqb n MAIN_TN); discriminate E.
  - clear s. intros s t c s' R HI HO HS v n k LV' ON' SET.
    pose proof (tidy_orderly _ _ R) as RO. pose proof (orderly_clean _ _ RO) as RC. pose proof (clean_any _ _ RC) as RA.
    pose proof (born_reach _ _ RA) as BO. destruct (born_fresh _ BO (s_next s) (Z.le_refl _)) as (_ & NL & _).
    destruct HO as (HOO & _ & RET & HEED).
    assert (ON : own_node s v n \/ v = s_next s).
    { eapply own_node_new; [exact RC| |exact HS|exact ON']. exact (proj1 HOO). }
    pose proof HS as HS0. apply step_view in HS. destruct HS as (_ & LV & V).
    assert (SIMPLE : s_g s' = s_g s -> th_live (s_th s v) = true -> exists f q, In f (th_stack (s_th s v)) /\ informed f = Some (q, Some n) /\ q_id q = k).
    { intros EG L. rewrite EG in SET. destruct ON as [ON| ->]; [eauto|congruence]. }
    assert (PUSH : forall l, s_g s' = s_g s -> (forall w, th_live (s_th s' w) = th_live (s_th s w)) ->
      (forall w, th_stack (s_th s' w) = if Z.eqb w t then l ++ th_stack (s_th s t) else th_stack (s_th s w)) ->
      exists f q, In f (th_stack (s_th s' v)) /\ informed f = Some (q, Some n) /\ q_id q = k).
    { intros l EG EL ES. rewrite EL in LV'. destruct (SIMPLE EG LV') as (f & q & I & E1 & E2). exists f, q. rewrite ES.
      destruct (Z.eqb_spec v t); [subst|]; auto. repeat split; auto. apply in_or_app; auto. }
    assert (UNW : existsb in_create (th_stack (s_th s t)) = false -> s_g s' = s_g s ->
      (forall w, th_live (s_th s' w) = true -> th_live (s_th s w) = true) ->
      (forall w, w <> t -> th_stack (s_th s' w) = th_stack (s_th s w)) ->
      exists f q, In f (th_stack (s_th s' v)) /\ informed f = Some (q, Some n) /\ q_id q = k).
    { intros NC EG EL ES. destruct (SIMPLE EG (EL _ LV')) as (f & q & I & E1 & E2). exists f, q. rewrite ES; auto.
      intros ->.
      pose proof (creating_in _ (informed_in _ _ E1)) as X. rewrite (existsb_false_in _ _ _ NC I) in X. discriminate X. }
    destruct V as [| | | |f1 r1 Ec Est Enc Elk|r1 Ec Est Elk| |f r e Hst Hun Hbar Hfs Es'].
    + apply (PUSH [FApp AppHandler]); subst; cbn; auto; intros w; rewrite upd_if; now destruct (Z.eqb_spec w t); subst.
    + apply (PUSH [FEPGet EXIT_SIGNAL; FEndLibDyn; FSigEnd]); subst; cbn; auto; intros w; rewrite upd_if; now destruct (Z.eqb_spec w t); subst.
    + apply (PUSH [FHGet]); subst; cbn; auto; intros w; rewrite upd_if; now destruct (Z.eqb_spec w t); subst.
    + apply (PUSH [FWGet]); subst; cbn; auto; intros w; rewrite upd_if; now destruct (Z.eqb_spec w t); subst.
    + apply UNW; [apply RET; now left|subst; cbn; auto..]; intros w; rewrite upd_if; destruct (Z.eqb_spec w t); subst; cbn; auto; congruence.
    + apply UNW; [apply RET; right; eauto|subst; cbn; auto..]; intros w; rewrite upd_if; destruct (Z.eqb_spec w t); subst; cbn; auto; congruence.
    + apply UNW; subst; cbn; auto.
      * match goal with H : th_stack _ = [] |- _ => now rewrite H end.
      * intros w; rewrite upd_if; destruct (Z.eqb_spec w t); subst; cbn; auto; congruence.
      * intros w; rewrite upd_if; destruct (Z.eqb_spec w t); subst; cbn; auto; congruence.
    + subst s'. rewrite apply_g in SET. assert (IN : In f (th_stack (s_th s t))) by (rewrite Hst; now left).
      destruct (e_new e) as [st|] eqn:EN.
      { assert (HC : e_child e = false).
        { destruct (e_child e) eqn:HC; [|reflexivity]. destruct (child_shape _ _ _ _ _ _ _ _ _ Hfs HC) as (_ & _ & _ & _ & _ & N & _). congruence. }
        rewrite apply_stack, EN by exact HC. rewrite apply_live, EN in LV' by exact HC.
        assert (FC : (exists q my m, f = FPCReal q my m) \/ exists q, f = FPCReal0 q).
        { clear - Hfs EN. fs_cases Hfs; brk Hfs; inversion Hfs; subst; clear Hfs; cbn in EN; try discriminate EN; eauto. }
        assert (EG : e_g e = s_g s).
        { destruct FC as [(q & my & m & ->)|(q & ->)]; destruct c; try discriminate Hfs; cbn in Hfs; brk Hfs; inversion Hfs; subst; reflexivity. }
        rewrite EG in SET. destruct (Z.eqb_spec v (s_next s)).
        - exfalso. subst v. destruct ON' as [[X _]|[NM B]]; [pose proof (born_next _ BO); unfold MAIN in X; lia|].
          destruct (belongs_new _ _ _ _ _ _ _ RC (proj1 HOO) HS0 B) as [X|(_ & _ & q & my & r0 & X)].
          + eapply (belongs_old dyn s t c f r e); eauto. exact (proj1 HOO). congruence.
          + pose proof (blank_reach _ _ RO t (FPCReal q my n)) as Y. rewrite X in Y.
            specialize (Y (or_introl eq_refl)). cbn in Y. unfold blank in Y. destruct Y as (_ & _ & _ & _ & _ & _ & Y). congruence.
        - destruct ON as [ON|]; [|contradiction].
          assert (LO : th_live (s_th s v) = true) by (destruct (Z.eqb_spec v t); [now subst|exact LV']).
          destruct (HI v n k LO ON SET) as (f2 & q & I2 & E2 & K). destruct (Z.eqb_spec v t); [|eauto 6]. subst v.
          rewrite Hst in I2. destruct I2 as [<-|I2]; [|exists f2, q; repeat split; auto; apply in_or_app; auto].
          destruct (informed_next _ _ _ _ _ _ _ _ _ _ _ Hfs E2) as [(f3 & I3 & E3)|X].
          + exists f3, q. repeat split; auto. apply in_or_app; auto.
          + exfalso. destruct FC as [(q1 & my & m & ->)|(q1 & ->)]; [|discriminate E2].
            destruct X as [X|[[X _]|[(m' & X & _)|X]]]; discriminate X. }
      assert (ST : th_stack (s_th (apply_eff s t (s_th s t) r e) v) = if Z.eqb v t then e_fr e ++ r else th_stack (s_th s v)).
      { destruct (e_child e) eqn:HC; [|rewrite apply_stack, EN by exact HC; reflexivity].
        destruct (child_shape _ _ _ _ _ _ _ _ _ Hfs HC) as (_ & _ & _ & _ & _ & N & K & _).
        rewrite apply_stack_child by auto. destruct (Z.eqb_spec v t); [reflexivity|].
        unfold apply_eff in LV'. rewrite HC, N, K in LV'. cbn in LV'. rewrite upd_other in LV' by auto. discriminate LV'. }
      assert (LO : th_live (s_th s v) = true).
      { destruct (Z.eqb_spec v t); [now subst|]. destruct (e_child e) eqn:HC.
        - destruct (child_shape _ _ _ _ _ _ _ _ _ Hfs HC) as (_ & _ & _ & _ & _ & N & K & _).
          unfold apply_eff in LV'. rewrite HC, N, K in LV'. cbn in LV'. rewrite upd_other in LV' by auto. discriminate LV'.
        - rewrite apply_live, EN in LV' by exact HC. destruct (Z.eqb_spec v t); [contradiction|exact LV']. }
      destruct ON as [ON| ->]; [|congruence]. rewrite ST.
      destruct (info_local _ _ _ _ _ _ _ _ _ n Hfs) as [X|[(q0 & -> & G & X)|(X & _)]]; [| |congruence].
      * rewrite X in SET. destruct (HI v n k LO ON SET) as (f2 & q & I2 & E2 & K). destruct (Z.eqb_spec v t); [|eauto 6]. subst v.
        rewrite Hst in I2. destruct I2 as [<-|I2]; [|exists f2, q; repeat split; auto; apply in_or_app; auto].
        unfold heeded in HEED. rewrite Hst in HEED.
        destruct (informed_next _ _ _ _ _ _ _ _ _ _ _ Hfs E2) as [(f3 & I3 & E3)|[->|[[_ Y]|[(m & -> & Y)| ->]]]].
        -- exists f3, q. repeat split; auto. apply in_or_app; auto.
        -- exfalso. destruct c; try discriminate Hfs. cbn in Hfs. inversion Hfs; subst. clear Hfs. cbn in X.
           unfold nd in X. cbn in X. rewrite upd_same in X. cbn in X. unfold nd in SET. rewrite <- X in SET. discriminate SET.
        -- discriminate Y.
        -- congruence.
        -- congruence.
      * pose proof (tn_node _ _ _ _ _ RO LV IN eq_refl G) as O2.
        assert (v = t) by (eapply own_node_who; eauto). subst v. rewrite Z.eqb_refl.
        rewrite X in SET. inversion SET; subst k.
        exists (FPCIgn q0 (Some n)), q0. repeat split; auto. apply in_or_app. left.
        destruct c; try discriminate Hfs. cbn in Hfs. rewrite G in Hfs. inversion Hfs; subst. cbn. auto.
Qed.
