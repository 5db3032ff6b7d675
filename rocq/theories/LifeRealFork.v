(** The child of monitor_real_fork. *)
From Verif Require Export LifeFork LifeRealForkSpec.

Local Open Scope Z_scope.

Lemma asks_answer dyn s t f r q v : g_dead (s_g s) = false -> th_live (s_th s t) = true -> th_stack (s_th s t) = f :: r -> open f = true ->
  asks dyn s t q v <-> answer (s_g s) (th_tsd (s_th s t)) q = v.
Proof.
  intros D L ST O. unfold asks, run, step. rewrite D, L, ST. cbn [orb negb].
  assert (U : is_unwind f = false) by (destruct f; try discriminate O; reflexivity). rewrite U. cbn [barred].
  assert (F : frame_step dyn t (s_next s) (s_g s) (th_tsd (s_th s t)) (th_nc (s_th s t)) f (CCall (AQuery q)) =
    Some (mkeff (s_g s) [FQuery q; f] (th_tsd (s_th s t)) (th_nc (s_th s t)) [] None None false)).
  { destruct f; try discriminate O; reflexivity. }
  rewrite F. cbn. rewrite D, upd_same. cbn. split.
  - intros (s' & E & T). inversion E; subst. cbn in T. now inversion T.
  - intros <-. eexists. split; [reflexivity|]. reflexivity.
Qed.

(** The two ways the call ends in the parent. *)
Lemma real_fork_parent dyn s t f r c : g_dead (s_g s) = false -> th_live (s_th s t) = true -> th_stack (s_th s t) = f :: r -> open f = true ->
  c = COk \/ c = CFail ->
  exists s', run dyn s [(t, CCall ARealFork); (t, c)] = Some s' /\ s_g s' = s_g s /\ s_tr s' = s_tr s /\ s_next s' = s_next s /\
    forall u, s_th s' u = s_th s u.
Proof.
  intros D L ST O C. unfold run, step. rewrite D, L, ST. cbn [orb negb].
  assert (U : is_unwind f = false) by (destruct f; try discriminate O; reflexivity). rewrite U. cbn [barred].
  assert (F : frame_step dyn t (s_next s) (s_g s) (th_tsd (s_th s t)) (th_nc (s_th s t)) f (CCall ARealFork) =
    Some (mkeff (s_g s) [FRForkGo; f] (th_tsd (s_th s t)) (th_nc (s_th s t)) [] None None false)).
  { destruct f; try discriminate O; reflexivity. }
  rewrite F. cbn. rewrite D, upd_same. cbn.
  assert (X : forall u, upd (upd (s_th s) t (mkth (FRForkGo :: f :: r) (th_tsd (s_th s t)) true (th_nc (s_th s t)) (th_pend (s_th s t))))
     t (mkth (f :: r) (th_tsd (s_th s t)) true (th_nc (s_th s t)) (th_pend (s_th s t))) u = s_th s u).
  { intros u. rewrite upd_if. destruct (Z.eqb_spec u t) as [->|N]; [|now rewrite upd_other].
    destruct (s_th s t) as [a b l n p]. cbn in *. now subst. }
  destruct C as [->|C]; [|subst c]; cbn; (eexists; split; [reflexivity|]); cbn; auto.
Qed.

Lemma real_child_comes dyn s t f r :
  g_dead (s_g s) = false -> th_live (s_th s t) = true -> th_stack (s_th s t) = f :: r -> open f = true ->
  exists s1, run dyn s (real_child t) = Some s1 /\ s_next s1 = s_next s /\
     at_cfg s1 t (mkcfg (f :: r) (reset_list (th_tsd (s_th s t)) (s_g s)) (if g_used (s_g s) then None else th_tsd (s_th s t))
       (th_nc (s_th s t)) (EFork t :: s_tr s)) /\
     forall u, u <> t -> th_live (s_th s1 u) = false.
Proof.
  intros D L ST O. unfold real_child, run. unfold step at 1. rewrite D, L, ST. cbn [orb negb].
  assert (U : is_unwind f = false) by (destruct f; try discriminate O; reflexivity). rewrite U. cbn [barred].
  assert (F : frame_step dyn t (s_next s) (s_g s) (th_tsd (s_th s t)) (th_nc (s_th s t)) f (CCall ARealFork) =
    Some (mkeff (s_g s) [FRForkGo; f] (th_tsd (s_th s t)) (th_nc (s_th s t)) [] None None false)).
  { destruct f; try discriminate O; reflexivity. }
  rewrite F. cbn [option_map]. unfold step at 1. cbn. rewrite D, upd_same. cbn.
  unfold step. cbn. rewrite D, upd_same. cbn. eexists. split; [reflexivity|]. unfold at_cfg. cbn. rewrite upd_same. cbn.
  split; [reflexivity|]. split; [auto 10|]. intros u N. now rewrite !upd_other by exact N.
Qed.

Lemma real_child_goes dyn s t f r b x :
  g_dead (s_g s) = false -> th_live (s_th s t) = true -> th_stack (s_th s t) = f :: r -> open f = true ->
  g_cookie (s_g s) = false -> g_libdone (s_g s) = false ->
  exists s1 s2 g, let d := n_data (nd g MAIN_TN) in let lib := (dyn && negb (g_dtor (s_g s)))%bool in
    run dyn s (real_child t) = Some s1 /\ s_next s1 = s_next s /\ s_g s1 = g /\ g = reset_list (th_tsd (s_th s t)) (s_g s) /\
    image (s_tr s1) = [] /\ th_stack (s_th s1 t) = f :: r /\ th_live (s_th s1 t) = true /\
    (forall u, u <> t -> th_live (s_th s1 u) = false) /\
    run dyn s1 (steps t (child_out lib b x)) = Some s2 /\
    image (s_tr s2) = child_over t d b x lib.
Proof.
  intros D L ST O CK LD. set (g := reset_list (th_tsd (s_th s t)) (s_g s)).
  destruct (reset_facts (th_tsd (s_th s t)) (s_g s)) as (F1 & F2 & F3 & F4 & F5 & _).
  assert (LD' : g_libdone g = false).
  { unfold g, reset_list. destruct (g_used (s_g s)); [|exact LD]. destruct (get_tn (s_g s) (th_tsd (s_th s t))); [destruct (z =? MAIN_TN)|]; exact LD. }
  fold g in F1, F2, F3, F4, F5. rewrite D in F1. rewrite CK in F4.
  pose proof (real_child_comes dyn s t f r D L ST O) as S1. fold g in S1.
  destruct S1 as (s1 & S1 & N1 & A1 & U1).
  destruct (exit_solo dyn t b x f r g (if g_used (s_g s) then None else th_tsd (s_th s t)) (th_nc (s_th s t)) (EFork t :: s_tr s) O F1 F2 F4 LD' ) as (g2 & tsd2 & E & _).
  destruct (solo_run _ _ _ _ _ _ A1 E) as (s2 & S2 & A2 & _). rewrite F5 in S2, A2.
  destruct A1 as (B0 & B1 & B2 & _ & _ & B5). destruct A2 as (_ & _ & _ & _ & _ & C5). cbn [k_st k_tr k_g] in B1, B2, B5, C5.
  exists s1, s2, g. cbv zeta. repeat (split; [first [assumption|reflexivity|rewrite B5; reflexivity]|]).
  rewrite C5. unfold child_over. destruct (dyn && negb (g_dtor (s_g s)))%bool; reflexivity.
Qed.

Lemma reset_data dyn s t f r d k : g_dead (s_g s) = false -> th_live (s_th s t) = true -> th_stack (s_th s t) = f :: r -> open f = true ->
  asks dyn s t QNum k -> k <> -1 -> asks dyn s t QData d ->
  n_data (nd (reset_list (th_tsd (s_th s t)) (s_g s)) MAIN_TN) = d.
Proof.
  intros D L ST O QN K QD. apply (asks_answer _ _ _ _ _ _ _ D L ST O) in QN. apply (asks_answer _ _ _ _ _ _ _ D L ST O) in QD. cbn in QN, QD.
  destruct (get_tn (s_g s) (th_tsd (s_th s t))) as [n|] eqn:G; [|congruence].
  unfold reset_list. rewrite G. unfold get_tn in G. destruct (g_used (s_g s)); [|inversion G; subst; reflexivity].
  destruct (n =? MAIN_TN) eqn:E; [apply Z.eqb_eq in E; subst; reflexivity|].
  exact QD.
Qed.

Lemma reset_bottom dyn s t f r z k : g_dead (s_g s) = false -> th_live (s_th s t) = true -> th_stack (s_th s t) = f :: r -> open f = true ->
  asks dyn s t QNum k -> k <> -1 -> asks dyn s t QBottom z ->
  n_bottom (nd (reset_list (th_tsd (s_th s t)) (s_g s)) MAIN_TN) = z.
Proof.
  intros D L ST O QN K QD. apply (asks_answer _ _ _ _ _ _ _ D L ST O) in QN. apply (asks_answer _ _ _ _ _ _ _ D L ST O) in QD. cbn in QN, QD.
  destruct (get_tn (s_g s) (th_tsd (s_th s t))) as [n|] eqn:G; [|congruence].
  unfold reset_list. rewrite G. unfold get_tn in G. destruct (g_used (s_g s)); [|inversion G; subst; reflexivity].
  destruct (n =? MAIN_TN) eqn:E; [apply Z.eqb_eq in E; subst; reflexivity|]. exact QD.
Qed.

(** ** The flags, in terms of what was seen *)

Definition Qlib (g : glob) (tr : list event) (t : Z) (f : frame) : Prop :=
  match f with
  | FCb c KFiniLibrary => c = CbFiniLibrary
  | FEndLibSet => exists w v, In (ERet w CbFiniLibrary v) tr
  | _ => True
  end.
Lemma qlib_reach dyn s : reach dyn any s -> fr_inv Qlib s.
Proof.
  assert (MONO : forall g g' tr ev t f, Qlib g tr t f -> Qlib g' (ev ++ tr) t f).
  { intros g g' tr ev t f Q. destruct f; try exact I; cbn in *; try exact Q.
    destruct Q as (w & v & I). exists w, v. apply in_or_app. auto. }
  apply fr_reach.
  - intros t f I. cbn in I. rewrite upd_if in I. destruct (t =? MAIN); [|destruct I].
    cbn in I. repeat (destruct I as [<-|I]; [exact Logic.I|]). destruct I.
  - intros g tr t f e t' _ Q. apply (MONO g g tr [e]). exact Q.
  - intros g tr t f I. cbn in I. repeat (destruct I as [<-|I]; [exact Logic.I|]). destruct I.
  - intros. exact Logic.I.
  - clear s. intros s t c f r e R FI _ Hst LV Hfs.
    assert (IN : In f (th_stack (s_th s t))) by (rewrite Hst; now left). specialize (FI t f IN).
    split; [|split].
    + intros f' I. clear Hst LV IN. revert f' I.
      assert (X : forall f', In f' (e_fr e) -> match f' with FCb k KFiniLibrary => k = CbFiniLibrary
        | FEndLibSet => exists v, f = FCb CbFiniLibrary KFiniLibrary /\ e_ev e = [ERet t CbFiniLibrary v] | _ => True end \/ f' = f).
      { fs_cases Hfs; brk Hfs; inversion Hfs; subst; clear Hfs; cbn; intros f' I;
          repeat match type of I with context [if ?b then _ else _] => destruct b; cbn in I end;
          repeat (destruct I as [<-|I]; [try (left; exact Logic.I); try (left; reflexivity); try (right; reflexivity)|]); try (destruct I; fail).
        all: try (cbn in FI; subst; left; eexists; split; reflexivity). }
      intros f' I. destruct (X f' I) as [Y| -> ]; [|apply (MONO _ _ _ _ _ _ FI)].
      destruct f' as []; try exact Logic.I; cbn in *; auto.
      all: try (destruct Y as (v & -> & ->); exists t, v; now left).
    + intros t' f' _ Q. eapply MONO. exact Q.
    + intros st f' EN I. fs_cases Hfs; brk Hfs; inversion Hfs; subst; clear Hfs; cbn in EN; try discriminate EN; inversion EN; subst;
        cbn in I; repeat (destruct I as [<-|I]; [exact Logic.I|]); destruct I.
Qed.

Lemma libdone_seen dyn s : reach dyn any s -> g_libdone (s_g s) = true -> exists w v, In (ERet w CbFiniLibrary v) (s_tr s).
Proof.
  apply (reach_invariant dyn any (fun s => g_libdone (s_g s) = true -> exists w v, In (ERet w CbFiniLibrary v) (s_tr s))).
  - discriminate.
  - clear s. intros s t c s' R H1 HO HS. apply step_view in HS. destruct HS as (_ & LV & V).
    destruct V as [| | | | | | |f r e Hst Hun Hbar Hfs Es']; subst; unfold add_ev; cbn [set_th s_tr s_g app];
      try exact H1; try (intros X; destruct (H1 X) as (w & v & I); exists w, v; right; exact I).
    rewrite apply_g, apply_tr. intros X.
    assert (Q : Qlib (s_g s) (s_tr s) t f) by (apply (qlib_reach _ _ R); rewrite Hst; now left).
    assert (Y : g_libdone (s_g s) = true \/ exists w v, In (ERet w CbFiniLibrary v) (s_tr s)).
    { revert X. clear R Hst LV H1.
      assert (T : forall tsd g, g_libdone (reset_list tsd g) = g_libdone g).
      { intros. unfold reset_list. destruct (g_used g); [|reflexivity]. destruct (get_tn g tsd); [destruct (z =? MAIN_TN)|]; reflexivity. }
      fs_cases Hfs; brk Hfs; inversion Hfs; subst; clear Hfs; cbn; g_brk; cbn; rewrite ?T; auto; intros; congruence. }
    destruct Y as [Y|Y]; [apply H1 in Y|]; destruct Y as (w & v & I); exists w, v; apply in_or_app; auto.
Qed.

Definition Qini (g : glob) (tr : list event) (t : Z) (f : frame) : Prop :=
  match f with
  | FBPReset _ | FBPLib _ | FBPDone _ | FBPInit _ | FCb (CbInitProcess _) _ => g_initp g = true
  | _ => True
  end.
Lemma initp_up dyn t u g tsd nc f c e : frame_step dyn t u g tsd nc f c = Some e -> g_initp g = true -> g_initp (e_g e) = true.
Proof.
  assert (T : g_initp (reset_list tsd g) = g_initp g) by apply reset_facts.
  intros H X. fs_cases H; brk H; inversion H; subst; clear H; cbn; g_brk; cbn; rewrite ?T; auto.
Qed.
Lemma qini_reach dyn s : reach dyn any s -> fr_inv Qini s.
Proof.
  apply fr_reach.
  - intros t f I. cbn in I. rewrite upd_if in I. destruct (t =? MAIN); [|destruct I].
    cbn in I. repeat (destruct I as [<-|I]; [exact Logic.I|]). destruct I.
  - intros g tr t f e t' _ Q. exact Q.
  - intros g tr t f I. cbn in I. repeat (destruct I as [<-|I]; [exact Logic.I|]). destruct I.
  - intros. exact Logic.I.
  - clear s. intros s t c f r e R FI _ Hst LV Hfs.
    assert (IN : In f (th_stack (s_th s t))) by (rewrite Hst; now left). specialize (FI t f IN).
    assert (UP : forall t' f', Qini (s_g s) (s_tr s) t' f' -> Qini (e_g e) (e_ev e ++ s_tr s) t' f').
    { intros t' f' Q. pose proof (initp_up _ _ _ _ _ _ _ _ _ Hfs) as X. destruct f'; cbn in *; auto. destruct c0; auto. }
    split; [|split].
    + intros f' I. clear Hst LV IN. revert f' I.
      assert (X : forall f', In f' (e_fr e) -> Qini (e_g e) (e_ev e ++ s_tr s) t f' \/ f' = f).
      { clear UP. fs_cases Hfs; brk Hfs; inversion Hfs; subst; clear Hfs; cbn; intros f' I;
          repeat match type of I with context [if ?b then _ else _] => destruct b; cbn in I end;
          repeat (destruct I as [<-|I]; [try (left; exact Logic.I); try (left; reflexivity); try (right; reflexivity)|]); try (destruct I; fail).
        all: left; cbn in *; auto. all: rewrite ?(proj2 (proj2 (proj2 (proj2 (proj2 (proj2 (proj2 (proj2 (proj2 (reset_facts _ _)))))))))); auto. }
      intros f' I. destruct (X f' I) as [Y| -> ]; auto.
    + intros t' f' _ Q. auto.
    + intros st f' EN I. fs_cases Hfs; brk Hfs; inversion Hfs; subst; clear Hfs; cbn in EN; try discriminate EN; inversion EN; subst;
        cbn in I; repeat (destruct I as [<-|I]; [exact Logic.I|]); destruct I.
Qed.

Lemma called_initp dyn s w d : reach dyn any s -> In (ECall w (CbInitProcess d)) (s_tr s) -> g_initp (s_g s) = true.
Proof.
  intros R. revert w d.
  apply (reach_invariant dyn any (fun s => forall w d, In (ECall w (CbInitProcess d)) (s_tr s) -> g_initp (s_g s) = true)); [..|exact R].
  - intros w d [].
  - clear s R. intros s t c s' R H1 HO HS. apply step_view in HS. destruct HS as (_ & LV & V).
    destruct V as [| | | | | | |f r e Hst Hun Hbar Hfs Es']; subst; unfold add_ev; cbn [set_th s_tr s_g app];
      try exact H1; try (intros w d [X|X]; [discriminate X|eauto]; fail).
    rewrite apply_g, apply_tr. intros w d X. apply in_app_or in X. destruct X as [X|X]; [|eapply initp_up; eauto].
    assert (Q : Qini (s_g s) (s_tr s) t f) by (apply (qini_reach _ _ R); rewrite Hst; now left).
    eapply initp_up; [exact Hfs|]. revert X. clear R Hst LV H1.
    fs_cases Hfs; brk Hfs; inversion Hfs; subst; clear Hfs; cbn; g_brk; cbn; intros X;
      repeat match type of X with context [if ?b then _ else _] => destruct b; cbn in X end;
      repeat (destruct X as [X|X]; [try discriminate X|]); try (destruct X; fail); cbn in Q; auto.
    all: destruct p; discriminate X.
Qed.

(** ** The child makes a thread *)

Lemma real_child_makes dyn s st ar ra e f r : reach dyn clean_forks s -> g_dead (s_g s) = false -> th_live (s_th s MAIN) = true ->
  th_stack (s_th s MAIN) = f :: r -> open f = true -> existsb handling (f :: r) = false -> g_initp (s_g s) = true ->
  g_cookie (s_g s) = false -> g_lock (s_g s) = None -> n_ignore (nd (s_g s) MAIN_TN) = false -> e <> IGNORE_NEW_THREAD ->
  exists s1 s2 num, run dyn s (real_child MAIN) = Some s1 /\
    image (s_tr s1) = [] /\ th_stack (s_th s1 MAIN) = f :: r /\
    run dyn s1 (steps MAIN (making_in (g_support (s_g s)) st ar ra e) ++ (MAIN, COk) :: steps (s_next s) (repeat CStep 9)) = Some s2 /\
    exists q, q_start q = st /\ q_arg q = ar /\ In (ECreate MAIN q (s_next s) true) (image (s_tr s2)) /\
    In (ECall (s_next s) (CbInitThread num e)) (image (s_tr s2)).
Proof.
  intros R D L ST O NH IP CK LK NI NE. pose proof (main_reach _ _ R) as HM.
  assert (RA : reach dyn any s) by (eapply reach_weaken; [|exact R]; now intros).
  assert (IX : g_inexit (s_g s) = false).
  { destruct (g_inexit (s_g s)) eqn:X; [|reflexivity]. destruct (began_reach _ _ RA) as [B _]. rewrite (B X) in CK. discriminate CK. }
  assert (RS : nd (reset_list (th_tsd (s_th s MAIN)) (s_g s)) MAIN_TN = nd (s_g s) MAIN_TN).
  { unfold reset_list. destruct (g_used (s_g s)) eqn:U; [|reflexivity]. unfold get_tn. rewrite U, (mi_used _ HM U).
    destruct (mi_node _ HM) as (_ & M & _). rewrite M. reflexivity. }
  assert (SN : s_next s <> MAIN). { pose proof (born_next _ (born_reach _ _ RA)). unfold MAIN. lia. }
  destruct (real_child_comes dyn s MAIN f r D L ST O) as (s1 & S1 & N1 & A1 & U1).
  destruct (reset_facts (th_tsd (s_th s MAIN)) (s_g s)) as (F1 & F2 & _ & _ & _ & F6 & F7 & _ & F9 & F10).
  set (g := reset_list (th_tsd (s_th s MAIN)) (s_g s)) in *.
  rewrite D in F1. rewrite LK in F6. rewrite IX in F7. rewrite IP in F10.
  assert (M : n_magic (nd g MAIN_TN) = true) by (rewrite RS; apply (mi_node _ HM)). rewrite <- RS in NI.
  destruct (create_solo dyn MAIN st ar ra e f r g (if g_used (s_g s) then None else th_tsd (s_th s MAIN)) (th_nc (s_th s MAIN))
    (EFork MAIN :: s_tr s) O NH F1 F2 F6 F10 M NI NE) as (g2 & ev & E & NF & G1 & G2 & G3 & G4 & G5 & G6).
  destruct (solo_run _ _ _ _ _ _ A1 E) as (s2 & S2 & A2 & N2 & U2). rewrite F9 in S2. rewrite F7 in G3.
  assert (SN2 : s_next s2 <> MAIN) by congruence.
  destruct (made_step dyn s2 _ _ _ _ _ _ _ _ _ A2 G1 SN2) as (s3 & S3 & A3).
  assert (DT : n_data (nd g2 (array_node (g_chunk g) 0)) = e) by (rewrite G6; reflexivity).
  match type of A3 with at_cfg _ _ (mkcfg _ _ _ _ ?tr) =>
    destruct (thread_solo dyn (s_next s2) _ g2 None false tr e G1 G2 G3 G4 DT) as (g4 & tsd4 & E4) end.
  destruct (solo_run _ _ _ _ _ _ A3 E4) as (s4 & S4 & A4 & _). rewrite N2, N1 in *.
  destruct A1 as (_ & B1 & _ & _ & _ & B5). destruct A4 as (_ & _ & _ & _ & _ & C5). cbn [k_st k_tr] in B1, B5, C5.
  exists s1, s4, (g_num g2 + 1)%Z. split; [exact S1|]. split; [rewrite B5; reflexivity|]. split; [exact B1|]. split.
  - rewrite run_app; unfold steps at 1; rewrite S2. cbn [run]. rewrite S3. exact S4.
  - exists (mkcreq (g_calls g) st ar ra). split; [reflexivity|]. split; [reflexivity|].
    rewrite C5. cbn [app image]. split; [right; right; left; reflexivity|left; reflexivity].
Qed.

(** After the fork the child's thread is main. *)
Lemma real_child_number dyn s t f r : reach dyn clean_forks s -> g_dead (s_g s) = false -> th_live (s_th s t) = true ->
  th_stack (s_th s t) = f :: r -> open f = true ->
  n_num (nd (reset_list (th_tsd (s_th s t)) (s_g s)) MAIN_TN) = 0.
Proof.
  intros R D L ST O. pose proof (mi_node _ (main_reach _ _ R)) as (_ & _ & N). unfold reset_list.
  destruct (g_used (s_g s)); [|exact N]. destruct (get_tn (s_g s) (th_tsd (s_th s t))); [|exact N].
  destruct (z =? MAIN_TN); [exact N|reflexivity].
Qed.
