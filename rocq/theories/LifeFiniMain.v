(** fini_thread at most once in the main thread. *)
From Verif Require Export LifeFiniOnce.

Local Open Scope nat_scope.

Lemma main_flags_local dyn t u g tsd nc f c e : frame_step dyn t u g tsd nc f c = Some e ->
  holds MAIN_TN f = false ->
  (n_appl (nd (e_g e) MAIN_TN) = n_appl (nd g MAIN_TN) /\ n_fstart (nd (e_g e) MAIN_TN) = n_fstart (nd g MAIN_TN)) \/
  (exists old, f = FSMain old /\ n_self (nd g MAIN_TN) <> t /\ n_fstart (nd (e_g e) MAIN_TN) = false /\
     In MAIN_TN (g_list (e_g e))) \/
  resetting f = true \/
  (sets g f = Some MAIN_TN /\ n_appl (nd (e_g e) MAIN_TN) = n_appl (nd g MAIN_TN) /\ n_fstart (nd (e_g e) MAIN_TN) = true).
Proof.
  intros H HM. fs_cases H; brk H; inversion H; subst; clear H; cbn [e_g]; auto;
    cbn [sets holds] in *;
    repeat match goal with E : Z.eqb MAIN_TN _ = false |- _ => apply Z.eqb_neq in E end;
    try (left; split; unfold nd; cbn; g_brk; rewrite ?upd_if;
         repeat match goal with |- context [Z.eqb ?a ?b] => destruct (Z.eqb_spec a b); subst end; cbn; auto; congruence).
  - right. left. exists old. split; [reflexivity|]. split; [now apply Z.eqb_neq|]. split; [unfold nd; cbn; reflexivity|now left].
  - right. left. exists old. split; [reflexivity|]. split; [now apply Z.eqb_neq|]. split; [unfold nd; cbn; reflexivity|now left].
  - rewrite E, E0. unfold nd; cbn. rewrite upd_if. destruct (Z.eqb_spec MAIN_TN z); [subst|auto]. cbn. tauto.
  - unfold nd; cbn. rewrite upd_if. destruct (Z.eqb_spec MAIN_TN n); [subst|auto]. cbn. tauto.
Qed.

Lemma wdm_local dyn t u g tsd nc f c e : frame_step dyn t u g tsd nc f c = Some e ->
  forall f' n, In f' (e_fr e) -> win_node f' = Some n ->
  e_g e = g /\ (win_node f = Some n \/ (n_appl (nd g n) = true /\ n_fstart (nd g n) = false)).
Proof.
  intros H f' n I F. fs_cases H; brk H; inversion H; subst; clear H; cbn in I;
    repeat (destruct I as [<-|I]; [cbn in F |- *; try discriminate F; auto|]); try (destruct I; fail);
    inversion F; subst; split; auto; right;
    repeat match goal with E : _ || _ = false |- _ => apply orb_false_elim in E; destruct E end;
    repeat match goal with E : negb _ = false |- _ => apply negb_false_iff in E end; auto.
  repeat match goal with E : _ && _ = true |- _ => apply andb_true_iff in E; destruct E end.
  split; auto. now apply negb_true_iff.
Qed.

Record main_fini (s : state) : Prop := mkmf {
  mf_off : ~ In MAIN_TN (g_list (s_g s)) -> n_appl (nd (s_g s) MAIN_TN) = false /\ fini_count s MAIN = 0;
  mf_win : forall f n, In f (th_stack (s_th s MAIN)) -> win_node f = Some n ->
    n_appl (nd (s_g s) MAIN_TN) = true /\ n_fstart (nd (s_g s) MAIN_TN) = false;
  mf_zero : n_fstart (nd (s_g s) MAIN_TN) = false -> fini_count s MAIN = 0;
  mf_one : fini_count s MAIN <= 1
}.

Lemma main_window dyn s f n : reach dyn orderly s -> In f (th_stack (s_th s MAIN)) -> win_node f = Some n -> n = MAIN_TN.
Proof.
  intros R I F. pose proof (orderly_clean _ _ R) as RC. pose proof (mine_reach _ _ RC MAIN f I) as M.
  pose proof (who_bt _ (who_reach _ _ RC) f I) as B.
  destruct f; try discriminate F; try discriminate B; inversion F; subst; cbn in M; destruct M as [[_ M]|[M _]]; auto; congruence.
Qed.

Lemma window_unwind st f : In f (unwind st) -> win_node f = None.
Proof.
  intros I. destruct (unwind_shape st) as [U|(n & p & U & _)]; rewrite U in I; cbn in I;
    repeat (destruct I as [<-|I]; [reflexivity|]); destruct I.
Qed.

Lemma main_fini_reach dyn s : reach dyn fini_safe s -> main_fini s.
Proof.
  apply (reach_invariant dyn fini_safe main_fini).
  - constructor; cbn; auto. intros f n I F. repeat (destruct I as [<-|I]; [discriminate F|]). destruct I.
  - clear s. intros s t c s' R HI HO HS. pose proof (safe_orderly _ _ R) as RO. pose proof (orderly_clean _ _ RO) as RC.
    assert (R' : reach dyn fini_safe s') by (eapply reach_step; eauto).
    pose proof (born_reach _ _ (orderly_any _ _ RO)) as BO.
    assert (MN : MAIN <> s_next s) by (pose proof (born_next _ BO) as X; unfold MAIN; lia).
    assert (MONO : fini_count s' MAIN <= fini_count s MAIN -> s_g s' = s_g s ->
       (forall f n, In f (th_stack (s_th s' MAIN)) -> win_node f = Some n -> In f (th_stack (s_th s MAIN))) -> main_fini s').
    { intros L G W. destruct HI as [A B C D]. constructor; rewrite ?G.
      - intros X. destruct (A X). split; [assumption|lia].
      - intros f n I F. eapply B; eauto.
      - intros X. specialize (C X). lia.
      - lia. }
    apply step_view in HS. destruct HS as (_ & LV & V).
    destruct V as [| | | | | | |f r e Hst Hun Hbar Hfs Es']; subst;
      try (apply MONO; [unfold fini_count; cbn [add_ev set_th s_th s_tr app count fini_thread_of];
             rewrite upd_if; destruct (Z.eqb_spec MAIN t) as [E|E]; [rewrite ?E; cbn; rewrite ?pend_unwind; lia|lia]
           | reflexivity
           | intros f0 n I F; cbn [add_ev set_th s_th] in I; rewrite upd_if in I; destruct (Z.eqb_spec MAIN t) as [E|E];
             [rewrite ?E; cbn in I; try (rewrite (window_unwind _ _ I) in F; discriminate F);
              repeat (destruct I as [<-|I]; [discriminate F|]); auto; try destruct I|exact I]]).
    assert (IN : In f (th_stack (s_th s t))) by (rewrite Hst; now left).
    pose proof (nodes_reach _ _ RC) as (N & MO & _).
    destruct (pend_local _ _ _ _ _ _ _ _ _ Hfs) as (PA & PB & PC).
    (* the list keeps main *)
    assert (KEEP : In MAIN_TN (g_list (s_g s)) -> In MAIN_TN (g_list (e_g e)) /\ resetting f = false).
    { intros L. destruct (MO L) as [CK _]. pose proof (no_reset_exit _ _ t RO CK) as NR.
      pose proof (existsb_false_in _ _ _ NR IN) as NRF. split; [|exact NRF].
      assert (U : g_used (s_g s) = true).
      { destruct (g_used (s_g s)) eqn:U; [reflexivity|]. rewrite (li_used _ (listed_reach _ _ RC) U) in L. destruct L. }
      destruct (list_stay _ _ _ _ _ _ _ _ _ _ Hfs L NRF U) as [X| ->]; [exact X|].
      pose proof (hold_main _ _ _ _ RC IN) as X. discriminate X. }
    (* windows of main after the step *)
    assert (WIN : forall f' n, In f' (th_stack (s_th (apply_eff s t (s_th s t) r e) MAIN)) -> win_node f' = Some n ->
       (t <> MAIN /\ In f' (th_stack (s_th s MAIN))) \/
       (t = MAIN /\ e_g e = s_g s /\ n_appl (nd (s_g s) MAIN_TN) = true /\ n_fstart (nd (s_g s) MAIN_TN) = false)).
    { intros f' n I F.
      assert (I2 : (t <> MAIN /\ In f' (th_stack (s_th s MAIN))) \/ (t = MAIN /\ In f' (e_fr e ++ r))).
      { destruct (e_child e) eqn:HC.
        - destruct (child_shape _ _ _ _ _ _ _ _ _ Hfs HC) as (_ & _ & _ & _ & _ & NN & KK & _).
          rewrite apply_stack_child in I by auto. destruct (Z.eqb_spec MAIN t); [auto|destruct I].
        - rewrite apply_stack in I by auto. destruct (e_new e).
          + destruct (Z.eqb_spec MAIN (s_next s)); [contradiction|]. destruct (Z.eqb_spec MAIN t); auto.
          + destruct (Z.eqb_spec MAIN t); auto. }
      destruct I2 as [I2|[-> I2]]; [now left|right]. split; [reflexivity|].
      apply in_app_or in I2. destruct I2 as [I2|I2].
      - destruct (wdm_local _ _ _ _ _ _ _ _ _ Hfs f' n I2 F) as [G D]. split; [exact G|].
        destruct D as [D|D]; [now apply (mf_win _ HI f n IN)|].
        assert (X : n = MAIN_TN); [|now subst].
        eapply main_window; [exact (safe_orderly _ _ R')|exact I|exact F].
      - pose proof (window_top _ _ R MAIN) as X. rewrite Hst in X. cbn in X.
        pose proof (existsb_false_in _ _ _ X I2) as Y. destruct f'; try discriminate F; try discriminate Y.
        destruct p; try discriminate F; discriminate Y. }
    assert (CNT : t <> MAIN -> fini_count (apply_eff s t (s_th s t) r e) MAIN <= fini_count s MAIN).
    { intros NE. unfold fini_count. rewrite apply_tr, count_app, (PB MAIN) by auto. destruct (e_child e) eqn:HC.
      - destruct (child_shape _ _ _ _ _ _ _ _ _ Hfs HC) as (_ & _ & _ & _ & _ & NN & KK & _).
        rewrite apply_stack_child by auto. destruct (Z.eqb_spec MAIN t); [congruence|]. cbn. lia.
      - rewrite apply_stack by auto. destruct (e_new e) as [st|].
        + destruct (Z.eqb_spec MAIN (s_next s)); [contradiction|]. destruct (Z.eqb_spec MAIN t); [congruence|]. lia.
        + destruct (Z.eqb_spec MAIN t); [congruence|]. lia. }
    assert (P' : t = MAIN -> fini_count (apply_eff s t (s_th s t) r e) MAIN =
        (wsum w_pend (e_fr e) + count (fini_thread_of MAIN) (e_ev e)) + (wsum w_pend r + count (fini_thread_of MAIN) (s_tr s))).
    { intros ->. unfold fini_count. rewrite apply_tr, count_app. destruct (e_child e) eqn:HC.
      - destruct (child_shape _ _ _ _ _ _ _ _ _ Hfs HC) as (_ & _ & _ & _ & _ & NN & KK & _).
        rewrite apply_stack_child, Z.eqb_refl by auto. rewrite wsum_app. lia.
      - rewrite apply_stack by auto. destruct (e_new e).
        + destruct (Z.eqb_spec MAIN (s_next s)); [contradiction|]. rewrite Z.eqb_refl, wsum_app. lia.
        + rewrite Z.eqb_refl, wsum_app. lia. }
    assert (P0 : t = MAIN -> fini_count s MAIN = w_pend f + (wsum w_pend r + count (fini_thread_of MAIN) (s_tr s))).
    { intros ->. unfold fini_count. rewrite Hst. cbn [wsum]. lia. }
    assert (OWNM : t = MAIN -> forall m, sets (s_g s) f = Some m ->
       m = MAIN_TN /\ n_fstart (nd (s_g s) MAIN_TN) = false /\ In MAIN_TN (g_list (s_g s))).
    { intros -> m S.
      assert (W : win_node f = Some m -> m = MAIN_TN /\ n_fstart (nd (s_g s) MAIN_TN) = false /\ In MAIN_TN (g_list (s_g s))).
      { intros F. split; [eapply main_window; eauto|]. destruct (mf_win _ HI f m IN F) as [X Y]. split; [exact Y|].
        destruct (in_dec Z.eq_dec MAIN_TN (g_list (s_g s))) as [|NI]; [assumption|].
        destruct (mf_off _ HI NI) as [Z _]. congruence. }
      destruct f; try discriminate S; try (apply W; exact S); try (destruct p; try discriminate S; apply W; exact S).
      cbn in S. destruct (sc_my l) as [n|] eqn:E; [|discriminate]. destruct (n_fstart (nd (s_g s) n)) eqn:E1; [discriminate|].
      inversion S; subst m.
      destruct (sc_reach _ _ RO MAIN _ IN n E) as [(A & B & C & _)|(_ & -> & L & _)]; [|auto].
      destruct (self_heap _ _ RC n A C). }
    destruct (main_flags_local _ _ _ _ _ _ _ _ _ Hfs (hold_main _ _ _ _ RC IN)) as [[F1 F2]|[(old & -> & SL & F1 & F2)|[RS|(S & F1 & F2)]]].
    + (* flags unchanged *)
      assert (LE : fini_count (apply_eff s t (s_th s t) r e) MAIN <= fini_count s MAIN).
      { destruct (Z.eq_dec t MAIN) as [E|NE]; [|auto]. rewrite (P' E), (P0 E). rewrite E in PA.
        destruct PA as [PA|(m & S & _ & X)]; [lia|]. exfalso.
        destruct (OWNM E m S) as (-> & Y & _). congruence. }
      destruct HI as [A B C D]. constructor; rewrite ?apply_g.
      * intros NI. destruct A as [A1 A2]; [intros L; apply NI; now apply KEEP|]. split; [congruence|lia].
      * intros f' n I F. destruct (WIN f' n I F) as [[_ X]|(_ & _ & X & Y)]; [|split; congruence].
        destruct (B f' n X F). split; congruence.
      * intros X. rewrite F2 in X. specialize (C X). lia.
      * lia.
    + (* main is put on the list *)
      assert (NI : ~ In MAIN_TN (g_list (s_g s))).
      { intros L. destruct (MO L) as [_ X]. specialize (X t). rewrite Hst in X. cbn in X. lia. }
      assert (NE : t <> MAIN).
      { intros ->. apply SL. apply (mi_self _ (main_reach _ _ RC)). left.
        destruct (fz_reach _ _ RO MAIN _ IN) as (_ & _ & X). now apply X. }
      specialize (CNT NE). destruct (mf_off _ HI NI) as [A1 A2].
      clear - CNT A1 A2 F1 F2 WIN NE HI. constructor; rewrite ?apply_g; [| |lia|lia].
      * intros X. destruct (X F2).
      * intros f' n I F. destruct (WIN f' n I F) as [[_ X]|(X & _)]; [|contradiction].
        destruct (mf_win _ HI f' n X F). congruence.
    + (* the child resets the list *)
      destruct (who_reset _ (who_reach _ _ RC) t) as (E & _); [apply existsb_exists; eauto|].
      assert (NI : ~ In MAIN_TN (g_list (s_g s))) by (intros L; destruct (KEEP L); congruence).
      destruct (mf_off _ HI NI) as [A1 A2].
      assert (A1' : n_appl (nd (e_g e) MAIN_TN) = false).
      { clear - Hfs RS A1. fs_cases Hfs; try discriminate RS; brk Hfs; inversion Hfs; subst; clear Hfs; auto;
          unfold nd in *; cbn; unfold reset_list in *; repeat match goal with |- context [match ?x with _ => _ end] => destruct x end; cbn; auto. }
      assert (LE : fini_count (apply_eff s t (s_th s t) r e) MAIN <= fini_count s MAIN).
      { rewrite (P' E), (P0 E). rewrite E in PA. destruct PA as [PA|(m & S & _)]; [lia|].
        destruct f; try discriminate RS; discriminate S. }
      clear - A1' A2 A1 LE WIN E. constructor; rewrite ?apply_g.
      * intros _. split; [exact A1'|lia].
      * intros f' n I F. destruct (WIN f' n I F) as [[X _]|(_ & _ & X & _)]; [contradiction|congruence].
      * lia.
      * lia.
    + (* main starts its fini_thread *)
      destruct (Z.eq_dec t MAIN) as [E|NE].
      2:{ destruct (sets_belongs _ _ _ _ _ _ R Hst NE S) as [X _]. destruct (belongs_main _ _ _ _ RC X eq_refl). }
      destruct (OWNM E _ S) as (_ & Y & L). pose proof (mf_zero _ HI Y) as Z0.
      rewrite (P0 E) in Z0.
      assert (P1 : fini_count (apply_eff s t (s_th s t) r e) MAIN <= 1).
      { rewrite (P' E). rewrite E in PA. destruct PA as [PA|(m & _ & X & _)]; lia. }
      clear - P1 KEEP L WIN E F2. constructor; rewrite ?apply_g; [| |congruence|lia].
      * intros X. destruct X. now apply KEEP.
      * intros f' n I F. destruct (WIN f' n I F) as [[X _]|(_ & G & _ & X)]; [contradiction|]. rewrite G in F2. congruence.
Qed.

(** In every thread. *)
Lemma fini_once_all dyn s t : reach dyn fini_safe s -> count (fini_thread_of t) (s_tr s) <= 1.
Proof.
  intros R. destruct (Z.eq_dec t MAIN) as [->|NM]; [|eapply fini_once; eauto].
  pose proof (mf_one _ (main_fini_reach _ _ R)) as A. unfold fini_count in A. lia.
Qed.
