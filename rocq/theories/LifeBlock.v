(** monitor_block_shootdown. *)
From Verif Require Export LifeOwnFini LifeAlive LifeBlockSpec.

Local Open Scope nat_scope.

Lemma steady_orderly dyn s : reach dyn steady s -> reach dyn orderly s.
Proof. apply reach_weaken. intros s0 t c H. apply H. Qed.

(** ** Testing frames are on top *)

Lemma testing_local dyn t u g tsd nc f c e : frame_step dyn t u g tsd nc f c = Some e ->
  (forall x l f', e_fr e = x :: l -> In f' l -> f' = f \/ testing f' = false) /\
  (forall st f', e_new e = Some st -> In f' st -> testing f' = false) /\
  (forall x l, e_fr e = x :: l -> In f l -> open f = true).
Proof.
  intros H. split; [|split].
  - intros x l f' E I. fs_cases H; brk H; inversion H; subst; clear H; cbn in E;
      repeat match type of E with context [if ?b then _ else _] => destruct b; cbn in E end; try discriminate E;
      inversion E; subst; cbn in I; repeat (destruct I as [<-|I]; [auto|]); try (destruct I; fail).
  - intros st f' EN I. fs_cases H; brk H; inversion H; subst; clear H; cbn in EN; try discriminate EN; inversion EN; subst;
      cbn in I; repeat (destruct I as [<-|I]; [reflexivity|]); destruct I.
  - intros x l E I. fs_cases H; brk H; inversion H; subst; clear H; try reflexivity; cbn in E;
      repeat match type of E with context [if ?b then _ else _] => destruct b; cbn in E end; try discriminate E;
      inversion E; subst; cbn in I; repeat (destruct I as [I|I]; [discriminate I|]); destruct I.
Qed.

Definition top_inv (s : state) : Prop :=
  forall t f r f', th_stack (s_th s t) = f :: r -> In f' r -> testing f' = false.

Lemma top_reach dyn s : reach dyn steady s -> top_inv s.
Proof.
  apply (reach_invariant dyn steady top_inv).
  - intros t f r f' E I. cbn in E. rewrite upd_if in E. destruct (Z.eqb t MAIN); [|discriminate E].
    cbn in E. inversion E; subst. repeat (destruct I as [<-|I]; [reflexivity|]). destruct I.
  - clear s. intros s t c s' R HI HO HS v f0 r0 f' E I'.
    apply step_view in HS. destruct HS as (_ & LV & V).
    assert (PUSH : forall l, c <> CStep -> (forall f, In f l -> testing f = false) -> l <> [] ->
      l ++ th_stack (s_th s t) = f0 :: r0 -> testing f' = false).
    { intros l NC LT NL X. destruct l as [|x l]; [congruence|]. cbn in X. inversion X; subst.
      apply in_app_or in I'. destruct I' as [I'|I']; [apply LT; now right|].
      destruct (th_stack (s_th s t)) as [|f r] eqn:Hst; [destruct I'|]. destruct I' as [<-|I']; [|eapply HI; eauto].
      destruct (testing f) eqn:T; [|reflexivity]. elim NC. eapply (proj2 HO); eauto. }
    assert (UW : forall l, unwind l = f0 :: r0 -> testing f' = false).
    { intros l X. destruct (unwind_shape l) as [U|(n & f & U & _)]; rewrite U in X; inversion X; subst.
      - destruct I'.
      - destruct I' as [<-|[]]; reflexivity. }
    destruct V as [| | | |f1 r1 Ec Est Enc Elk|r1 Ec Est Elk| |f r e Hst Hun Hbar Hfs Es']; subst; unfold add_ev in *; cbn [set_th s_th] in E;
      try (rewrite upd_if in E; destruct (Z.eqb_spec v t); [subst v; cbn [with_stack th_stack] in E|eapply HI; eauto]).
    + apply (PUSH [FApp AppHandler]); auto; try discriminate. intros ff [<-|[]]; reflexivity.
    + apply (PUSH [FEPGet EXIT_SIGNAL; FEndLibDyn; FSigEnd]); auto; try discriminate. intros f [<-|[<-|[<-|[]]]]; reflexivity.
    + apply (PUSH [FHGet]); auto; try discriminate. intros ff [<-|[]]; reflexivity.
    + apply (PUSH [FWGet]); auto; try discriminate. intros ff [<-|[]]; reflexivity.
    + eapply UW; eauto.
    + eapply UW; eauto.
    + discriminate E.
    + destruct (testing_local _ _ _ _ _ _ _ _ _ Hfs) as (A & B & C).
      assert (OWN : e_fr e ++ r = f0 :: r0 -> testing f' = false).
      { intros X. destruct (e_fr e) as [|x l] eqn:EF; cbn in X.
        - eapply HI; [exact Hst|]. rewrite X. now right.
        - inversion X; subst. apply in_app_or in I'. destruct I' as [I'|I']; [|eapply HI; eauto].
          destruct (A _ _ f' eq_refl I') as [->|Y]; [|exact Y].
          pose proof (C _ _ eq_refl I') as O. destruct f; try discriminate O; reflexivity. }
      destruct (e_child e) eqn:HC.
      * destruct (child_shape _ _ _ _ _ _ _ _ _ Hfs HC) as (_ & _ & _ & _ & _ & N & K & _).
        rewrite apply_stack_child in E by auto. destruct (Z.eqb v t); [now apply OWN|discriminate E].
      * rewrite apply_stack in E by auto. destruct (e_new e) as [st|] eqn:EN.
        -- destruct (Z.eqb v (s_next s)); [|destruct (Z.eqb v t); [now apply OWN|eapply HI; eauto]].
           apply (B st f' eq_refl). rewrite E. now right.
        -- destruct (Z.eqb v t); [now apply OWN|eapply HI; eauto].
Qed.

(** ** A thread with a number has its data *)

Lemma reg_tsd dyn s : reach dyn clean_forks s -> forall u k, u <> MAIN -> In (EReg u k) (s_tr s) -> th_live (s_th s u) = true ->
  exists n, th_tsd (s_th s u) = Some n.
Proof.
  apply (reach_invariant dyn clean_forks (fun s => forall u k, u <> MAIN -> In (EReg u k) (s_tr s) -> th_live (s_th s u) = true ->
    exists n, th_tsd (s_th s u) = Some n)).
  - intros u k _ [].
  - clear s. intros s t c s' R HI HO HS u k NM I L.
    assert (OLD : In (EReg u k) (s_tr s) -> exists n, th_tsd (s_th s' u) = Some n).
    { intros J. assert (L0 : th_live (s_th s u) = true).
      { destruct (th_live (s_th s u)) eqn:X; [reflexivity|]. exfalso.
        pose proof (born_reach _ _ (clean_any _ _ R)) as BO.
        assert (UN : (u < s_next s)%Z).
        { destruct (Z.lt_ge_cases u (s_next s)) as [Y|Y]; [exact Y|]. destruct (born_fresh _ BO u Y) as (_ & _ & F). elim (F _ J). reflexivity. }
        apply step_view in HS. destruct HS as (_ & LV & V). assert (NE : u <> t) by congruence.
        destruct V as [| | | | | | |f r e Hst Hun Hbar Hfs Es']; subst; unfold add_ev in *; cbn [set_th s_th] in L;
          try (rewrite upd_other in L by auto; congruence).
        destruct (e_child e) eqn:HC.
        - unfold apply_eff in L. rewrite HC in L. destruct (child_shape _ _ _ _ _ _ _ _ _ Hfs HC) as (_ & _ & _ & _ & _ & N & K & _).
          rewrite N, K in L. cbn in L. rewrite upd_other in L by auto. discriminate L.
        - rewrite apply_live in L by auto. rewrite (proj2 (Z.eqb_neq u t) NE) in L.
          destruct (e_new e); [|congruence]. rewrite (proj2 (Z.eqb_neq u (s_next s))) in L by lia. congruence. }
      destruct (HI u k NM J L0) as (n & T). exists n.
      destruct (tsd_step _ _ _ _ _ _ _ R HO HS NM T) as [X|(_ & X)]; [exact X|]. rewrite X in L. discriminate L. }
    pose proof HS as HS0. apply step_view in HS. destruct HS as (_ & LV & V).
    destruct V as [| | | | | | |f r e Hst Hun Hbar Hfs Es']; subst; unfold add_ev in *; cbn [set_th s_th s_tr app] in *; auto;
      try (destruct I as [I|I]; [discriminate I|auto]; fail).
    rewrite apply_tr in I. apply in_app_or in I. destruct I as [I|I]; [|auto].
    destruct (reg_ev _ _ _ _ _ _ _ _ _ _ _ Hfs I) as (-> & n & EF). exists n.
    assert (R' : reach dyn clean_forks (apply_eff s t (s_th s t) r e)) by (eapply reach_step; eauto).
    assert (HC : e_child e = false).
    { destruct (e_child e) eqn:HC; [|reflexivity]. destruct (child_shape _ _ _ _ _ _ _ _ _ Hfs HC) as (_ & _ & _ & _ & E & _).
      rewrite E in I. destruct I as [I|[]]. discriminate I. }
    assert (IN : In (FBT BTIns n) (th_stack (s_th (apply_eff s t (s_th s t) r e) t))).
    { rewrite apply_stack by auto. rewrite Z.eqb_refl, EF. destruct (e_new e); [|now left].
      destruct (Z.eqb_spec t (s_next s)) as [E|]; [|now left].
      destruct (born_fresh _ (born_reach _ _ (clean_any _ _ R)) t) as (_ & X & _); [lia|congruence]. }
    pose proof (data_reach _ _ R' t _ IN) as D. cbn in D. apply D.
Qed.

(** ** The flag *)

Definition blockd (t : Z) (tr : list event) : Prop :=
  exists m r b, tr = m ++ EBlock t r :: b /\ ~ In (EUnblock t) m /\ known t b.

Lemma blockd_app t ev tr : blockd t (ev ++ tr) ->
  (blockd t tr /\ ~ In (EUnblock t) ev) \/ (exists e1 r e2, ev = e1 ++ EBlock t r :: e2 /\ known t (e2 ++ tr)).
Proof.
  intros (m & r & b & E & N & K). revert m E N. induction ev as [|x ev IH]; intros m E N.
  - left. split; [|intros []]. exists m, r, b. auto.
  - destruct m as [|y m]; cbn in E; inversion E; subst.
    + right. exists [], r, ev. auto.
    + destruct (IH m H1) as [(A & B)|(e1 & r' & e2 & A & B)].
      * intros X. apply N. now right.
      * left. split; [exact A|]. intros [X|X]; [apply N; now left|auto].
      * right. exists (y :: e1), r', e2. split; [cbn; now rewrite A|exact B].
Qed.

Lemma block_ev dyn t u g tsd nc f c e t' r : frame_step dyn t u g tsd nc f c = Some e -> In (EBlock t' r) (e_ev e) ->
  t' = t /\ e_ev e = [EBlock t r] /\ ((f = FBlock2 /\ r = g_inexit g /\ e_g e = g) \/ (f = FBlock /\ get_tn g tsd = None)).
Proof.
  intros H I. fs_cases H; brk H; inversion H; subst; clear H; cbn in I;
    repeat match type of I with context [if ?b then _ else _] => destruct b; cbn in I end;
    repeat (destruct I as [I|I]; [try discriminate I; inversion I; subst; cbn; auto 8|]); try (destruct I; fail).
Qed.

Lemma unblock_ev dyn t u g tsd nc c e : frame_step dyn t u g tsd nc FUnblock c = Some e -> e_ev e = [EUnblock t].
Proof. intros H. destruct c; try discriminate H. cbn in H. inversion H; subst. reflexivity. Qed.

Lemma block_keep dyn t u g tsd nc f c e n : frame_step dyn t u g tsd nc f c = Some e ->
  (resetting f = true -> tsd = None \/ tsd = Some MAIN_TN) -> n_block (nd g n) = true ->
  n_block (nd (e_g e) n) = true \/ (f = FUnblock /\ get_tn g tsd = Some n) \/ f = FClean CLZero n \/
  (exists q my d, f = FPCZero q my d n).
Proof.
  intros H T W.
  assert (T' : resetting f = true -> forall n, nd (reset_list tsd g) n = nd g n).
  { intros R m. apply reset_main. auto. }
  clear T. fs_cases H; brk H; inversion H; subst; clear H; cbn [e_g] in W |- *; auto;
    try (left; rewrite T' by reflexivity; exact W);
    try (left; unfold nd in *; cbn; rewrite upd_if; destruct (Z.eqb_spec n MAIN_TN); [subst; cbn|]; rewrite T' by reflexivity; exact W);
    revert W; unfold nd; cbn; try g_brk; cbn; rewrite ?upd_if; auto;
    repeat match goal with |- context [Z.eqb ?a ?b] => destruct (Z.eqb_spec a b); subst end;
    cbn; auto; try congruence; eauto 10; try discriminate.
Qed.

(** ** Whose node it is *)

Definition own_node (s : state) (t n : Z) : Prop := (t = MAIN /\ n = MAIN_TN) \/ (t <> MAIN /\ belongs s t n).

Lemma own_node_new dyn s t c s' u n : reach dyn clean_forks s -> clean_forks s t c -> step dyn s t c = Some s' ->
  own_node s' u n -> own_node s u n \/ u = s_next s.
Proof.
  intros R HO HS [X|[NM B]]; [left; now left|].
  destruct (belongs_new _ _ _ _ _ _ _ R HO HS B) as [X|(-> & _)]; [left; now right|now right].
Qed.

Lemma own_node_who dyn s t u n : reach dyn clean_forks s -> own_node s t n -> own_node s u n -> t = u.
Proof.
  intros R [[-> ->]|[NM B]] [[-> E]|[NM' B']]; auto.
  - now elim (belongs_main _ _ _ _ R B').
  - subst. now elim (belongs_main _ _ _ _ R B).
  - eapply belongs_unique; eauto.
Qed.

Lemma own_node_one dyn s t n m : reach dyn orderly s -> th_live (s_th s t) = true ->
  own_node s t n -> own_node s t m -> n = m.
Proof.
  intros R LV [[-> ->]|[NM B]] [[E ->]|[NM' B']]; auto; try congruence. eapply belongs_one; eauto.
Qed.

Lemma tn_node dyn s t f n : reach dyn orderly s -> th_live (s_th s t) = true -> In f (th_stack (s_th s t)) -> quiet f = false ->
  get_tn (s_g s) (th_tsd (s_th s t)) = Some n -> own_node s t n.
Proof.
  intros R LV IN Q G. pose proof (caller_ready _ _ _ (orderly_clean _ _ R) LV) as CA.
  apply (mine_belongs _ _ _ _ _ R IN Q). now apply (ca_tn _ _ _ _ CA).
Qed.

Lemma tn_known dyn s t f : reach dyn orderly s -> th_live (s_th s t) = true -> In f (th_stack (s_th s t)) -> quiet f = false ->
  resetting f = false -> known t (s_tr s) -> get_tn (s_g s) (th_tsd (s_th s t)) <> None.
Proof.
  intros R LV IN Q NR K G. destruct (tn_none _ _ _ _ R LV IN Q NR G) as (NM & T).
  destruct K as [K|(k & K)]; [contradiction|].
  destruct (reg_tsd _ _ (orderly_clean _ _ R) t k NM K LV) as (n & X). congruence.
Qed.

(** A step of t: the flag of a node of v stays set. *)
Lemma block_stay dyn s t c f r e v n : reach dyn orderly s -> orderly s t c -> th_live (s_th s t) = true -> 
  th_stack (s_th s t) = f :: r ->
  frame_step dyn t (s_next s) (s_g s) (th_tsd (s_th s t)) (th_nc (s_th s t)) f c = Some e ->
  own_node s v n -> own_node (apply_eff s t (s_th s t) r e) v n -> n_block (nd (s_g s) n) = true ->
  n_block (nd (e_g e) n) = true \/ In (EUnblock v) (e_ev e).
Proof.
  intros R HO LV Hst Hfs ON ON' BL. pose proof (orderly_clean _ _ R) as RC. pose proof (orderly_any _ _ R) as RA.
  pose proof (who_reach _ _ RC) as W. pose proof (nodes_reach _ _ RC) as (N & _ & _).
  assert (IN : In f (th_stack (s_th s t))) by (rewrite Hst; now left).
  assert (TS : resetting f = true -> th_tsd (s_th s t) = None \/ th_tsd (s_th s t) = Some MAIN_TN).
  { intros X. destruct (who_reset _ W t) as (-> & _); [apply existsb_exists; eauto|]. apply (mi_tsd _ (main_reach _ _ RC)). }
  destruct (block_keep _ _ _ _ _ _ _ _ _ n Hfs TS BL) as [X|[(-> & G)|[->|(q & my & d & ->)]]]; [now left|right| |]; [|exfalso|exfalso].
  - rewrite (unblock_ev _ _ _ _ _ _ _ _ Hfs). left. f_equal.
    pose proof (tn_node _ _ _ _ _ R LV IN eq_refl G) as O2. eapply own_node_who; eauto.
  - assert (NMT : t <> MAIN) by (intros ->; pose proof (who_bt _ W _ IN) as X; discriminate X).
    assert (O2 : own_node s t n). { right. split; [exact NMT|]. left. eexists. split; [exact IN|]. cbn. rewrite Z.eqb_refl. auto. }
    assert (v = t) by (eapply own_node_who; eauto). subst v.
    pose proof (bt_top _ _ _ _ _ RA Hst eq_refl) as ->.
    assert (NL : ~ In n (g_list (s_g s))) by exact (ni_q _ N t _ IN).
    destruct c; try discriminate Hfs. cbn in Hfs. inversion Hfs; subst; clear Hfs.
    destruct ON' as [[X _]|[_ [(b & IB & OB & _)|(_ & L & _)]]]; [contradiction| |].
    + rewrite apply_stack in IB by auto. cbn in IB. rewrite Z.eqb_refl in IB. cbn in IB.
      destruct IB as [<-|[<-|[]]]; discriminate OB.
    + rewrite apply_g in L. exact (NL L).
  - destruct ON as [[-> ->]|[NM B]].
    + pose proof (hold_main _ _ _ _ RC IN) as X. discriminate X.
    + eapply (belongs_not_making dyn s v n t (FPCZero q my d n)); eauto. unfold making. cbn. now rewrite Z.eqb_refl.
Qed.

(** ** The invariant *)

Definition checked (f : frame) : bool :=
  match f with
  | FHDone _ | FHSet _ | FHCall _ _ | FClean CLDone _ | FClean CLSet _ | FClean CLCall _ => true
  | _ => false
  end.

Record block_inv (s : state) : Prop := mkblockinv {
  bl_flag : forall t n, own_node s t n -> blockd t (s_tr s) -> n_block (nd (s_g s) n) = true;
  bl_top : forall t r n, th_stack (s_th s t) = FBlock2 :: r -> own_node s t n -> n_block (nd (s_g s) n) = true;
  bl_chk : forall t f r, th_stack (s_th s t) = f :: r -> checked f = true -> ~ blockd t (s_tr s)
}.

Lemma checked_from dyn t u g tsd nc f c e x l : frame_step dyn t u g tsd nc f c = Some e -> e_fr e = x :: l -> checked x = true ->
  (checked f = true \/
   (exists n, f = FHChk n /\ n_block (nd g n) = false) \/
   (exists n, f = FWGet /\ get_tn g tsd = Some n /\ n_block (nd g n) = false) \/
   (exists n, f = FClean CLChk n /\ n_block (nd g n) = false)) /\ e_ev e = [].
Proof.
  intros H E C. fs_cases H; brk H; inversion H; subst; clear H; cbn in E; try discriminate E;
    repeat match type of E with context [if ?b then _ else _] => destruct b eqn:?; cbn in E end;
    try discriminate E; inversion E; subst; try discriminate C; cbn; auto;
    split; auto; right;
    repeat match goal with X : (_ || _)%bool = false |- _ => apply orb_false_elim in X; destruct X
                         | X : (_ && _)%bool = true |- _ => apply andb_prop in X; destruct X end;
    repeat match goal with X : negb _ = true |- _ => apply negb_true_iff in X end; eauto 10.
Qed.

Lemma block2_from dyn t u g tsd nc f c e l : frame_step dyn t u g tsd nc f c = Some e -> e_fr e = FBlock2 :: l ->
  exists n, f = FBlock /\ get_tn g tsd = Some n /\ n_block (nd (e_g e) n) = true.
Proof.
  intros H E. fs_cases H; brk H; inversion H; subst; clear H; cbn in E; try discriminate E;
    repeat match type of E with context [if ?b then _ else _] => destruct b eqn:?; cbn in E end; try discriminate E.
  exists z. repeat split; auto. unfold nd. cbn. now rewrite upd_same.
Qed.

Lemma block_reach dyn s : reach dyn steady s -> block_inv s.
Proof.
  apply (reach_invariant dyn steady block_inv).
  - split.
    + intros t n _ (m & r & b & E & _). cbn in E. destruct m; discriminate E.
    + intros t r n E. cbn in E. rewrite upd_if in E. destruct (Z.eqb t MAIN); discriminate E.
    + intros t f r _ _ (m & r0 & b & E & _). cbn in E. destruct m; discriminate E.
  - clear s. intros s t c s' R HI HO HS. pose proof (steady_orderly _ _ R) as RO.
    pose proof (orderly_clean _ _ RO) as RC. pose proof (orderly_any _ _ RO) as RA. pose proof (born_reach _ _ RA) as BO.
    pose proof (top_reach _ _ R) as TP.
    assert (NEWB : forall v, v = s_next s -> ~ blockd v (s_tr s)).
    { intros v -> (m & r & b & E & _). destruct (born_fresh _ BO (s_next s) (Z.le_refl _)) as (_ & _ & F).
      apply (F (EBlock (s_next s) r)); [rewrite E; apply in_or_app; right; now left|reflexivity]. }
    assert (NT : t <> s_next s).
    { intros ->. apply step_view in HS. destruct HS as (_ & LV & _). destruct (born_fresh _ BO (s_next s) (Z.le_refl _)) as (_ & F & _). congruence. }
    assert (ON : forall v n, own_node s' v n -> own_node s v n \/ v = s_next s).
    { intros v n. eapply own_node_new; [exact RC| |exact HS]. exact (proj1 (proj1 HO)). }
    pose proof HS as HS0. apply step_view in HS. destruct HS as (_ & LV & V).
    (* a step that changes only stacks *)
    assert (SIMPLE : forall ev st, s_g s' = s_g s -> s_tr s' = ev ++ s_tr s ->
       (forall e, In e ev -> e = EDeliver t \/ e = EEnd t) ->
       (forall v, th_stack (s_th s' v) = if Z.eqb v t then st else th_stack (s_th s v)) ->
       match st with f :: _ => testing f = false | [] => True end -> block_inv s').
    { intros ev st EG ET EV ES HD.
      assert (BD : forall v, blockd v (s_tr s') -> blockd v (s_tr s)).
      { intros v X. rewrite ET in X. apply blockd_app in X. destruct X as [[X _]|(e1 & r & e2 & X & _)]; [exact X|].
        destruct (EV (EBlock v r)) as [Y|Y]; [rewrite X; apply in_or_app; right; now left|discriminate Y..]. }
      split.
      - intros v n O B. rewrite EG. destruct (ON v n O) as [X|X]; [eapply bl_flag; eauto|]. elim (NEWB v X); auto.
      - intros v r n E O. rewrite ES in E. rewrite EG. destruct (Z.eqb_spec v t).
        + subst. discriminate HD.
        + destruct (ON v n O) as [X|X]; [eapply bl_top; eauto|]. subst v.
          destruct (born_fresh _ BO (s_next s) (Z.le_refl _)) as (F & _). congruence.
      - intros v f r E C B. rewrite ES in E. destruct (Z.eqb_spec v t).
        + rewrite E in HD. destruct f; try discriminate C; try discriminate HD. destruct p; try discriminate C; discriminate HD.
        + eapply bl_chk; eauto. }
    destruct V as [| | | |f1 r1 Ec Est Enc Elk|r1 Ec Est Elk| |f r e Hst Hun Hbar Hfs Es'].
    + apply (SIMPLE [] (FApp AppHandler :: th_stack (s_th s t))); subst; cbn; auto. intros e []. intros v. rewrite upd_if. now destruct (Z.eqb v t).
    + apply (SIMPLE [] (FEPGet EXIT_SIGNAL :: FEndLibDyn :: FSigEnd :: th_stack (s_th s t))); subst; cbn; auto. intros e []. intros v. rewrite upd_if. now destruct (Z.eqb v t).
    + apply (SIMPLE [EDeliver t] (FHGet :: th_stack (s_th s t))); subst; cbn; auto. intros e [<-|[]]; auto. intros v. rewrite upd_if. now destruct (Z.eqb v t).
    + apply (SIMPLE [EDeliver t] (FWGet :: th_stack (s_th s t))); subst; cbn; auto. intros e [<-|[]]; auto. intros v. rewrite upd_if. now destruct (Z.eqb v t).
    + apply (SIMPLE [] (unwind (th_stack (s_th s t)))); subst; cbn; auto. intros e []. intros v. rewrite upd_if. now destruct (Z.eqb v t).
      destruct (unwind_shape (th_stack (s_th s t))) as [U|(n & f & U & _)]; rewrite U; reflexivity.
    + apply (SIMPLE [] (unwind r1)); subst; cbn; auto. intros e []. intros v. rewrite upd_if. now destruct (Z.eqb v t).
      destruct (unwind_shape r1) as [U|(n & f & U & _)]; rewrite U; reflexivity.
    + apply (SIMPLE [EEnd t] []); subst; cbn; auto. intros e [<-|[]]; auto. intros v. rewrite upd_if. now destruct (Z.eqb v t).
    + subst s'. assert (IN : In f (th_stack (s_th s t))) by (rewrite Hst; now left).
      assert (STK : forall v x l, th_stack (s_th (apply_eff s t (s_th s t) r e) v) = x :: l -> testing x = true ->
        (v = t /\ exists l', e_fr e = x :: l') \/ (v <> t /\ th_stack (s_th s v) = x :: l)).
      { intros v x l E T. destruct (testing_local _ _ _ _ _ _ _ _ _ Hfs) as (_ & B & _).
        assert (OWN : e_fr e ++ r = x :: l -> exists l', e_fr e = x :: l').
        { intros X. destruct (e_fr e) as [|y k]; cbn in X; [|inversion X; subst; eauto].
          rewrite (TP t f r x Hst) in T; [discriminate T|]. rewrite X. now left. }
        destruct (e_child e) eqn:HC.
        - destruct (child_shape _ _ _ _ _ _ _ _ _ Hfs HC) as (_ & _ & _ & _ & _ & N & K & _).
          rewrite apply_stack_child in E by auto. destruct (Z.eqb_spec v t); [left; auto|discriminate E].
        - rewrite apply_stack in E by auto. destruct (e_new e) as [st|] eqn:EN.
          + destruct (Z.eqb v (s_next s)).
            * rewrite (B st x eq_refl) in T; [discriminate T|]. rewrite E. now left.
            * destruct (Z.eqb_spec v t); auto.
          + destruct (Z.eqb_spec v t); auto. }
      assert (BD : forall v, blockd v (e_ev e ++ s_tr s) ->
        (blockd v (s_tr s) /\ ~ In (EUnblock v) (e_ev e)) \/
        (v = t /\ known t (s_tr s) /\ exists k, e_ev e = [EBlock t k])).
      { intros v X. apply blockd_app in X. destruct X as [X|(e1 & k & e2 & X & K)]; [now left|right].
        destruct (block_ev _ _ _ _ _ _ _ _ _ v k Hfs) as (-> & Y & _); [rewrite X; apply in_or_app; right; now left|].
        rewrite Y in X. destruct e1 as [|y e1]; [|destruct e1; discriminate X]. inversion X; subst. cbn in K. eauto. }
      split.
      * intros v n O B. rewrite apply_g. rewrite apply_tr in B.
        destruct (ON v n O) as [O0|X].
        2: { subst v. destruct (BD _ B) as [[Y _]|(Y & _)]; [elim (NEWB _ eq_refl Y)|congruence]. }
        destruct (BD v B) as [[Y NU]|(-> & K & k & EV)].
        -- destruct (block_stay _ _ _ _ _ _ _ v n RO (proj1 HO) LV Hst Hfs O0 O (bl_flag _ HI v n O0 Y)) as [X|X]; [exact X|contradiction].
        -- destruct (block_ev _ _ _ _ _ _ _ _ _ t k Hfs) as (_ & _ & [(-> & _ & EG)|(-> & G)]); [rewrite EV; now left| |].
           ++ rewrite EG. eapply bl_top; eauto.
           ++ elim (tn_known _ _ _ _ RO LV IN eq_refl eq_refl K G).
      * intros v l n E O. rewrite apply_g.
        destruct (STK v _ l E eq_refl) as [(-> & l' & EF)|(NE & E0)].
        -- destruct (block2_from _ _ _ _ _ _ _ _ _ _ Hfs EF) as (m & -> & G & BL).
           destruct (ON t n O) as [O0|]; [|contradiction].
           pose proof (tn_node _ _ _ _ _ RO LV IN eq_refl G) as O2.
           rewrite (own_node_one _ _ _ _ _ RO LV O0 O2). exact BL.
        -- destruct (ON v n O) as [O0|X].
           2: { subst v. destruct (born_fresh _ BO (s_next s) (Z.le_refl _)) as (F & _). congruence. }
           destruct (block_stay _ _ _ _ _ _ _ v n RO (proj1 HO) LV Hst Hfs O0 O (bl_top _ HI v _ n E0 O0)) as [X|X]; [exact X|].
           exfalso. apply NE. exact (ev_actor _ _ _ _ _ _ _ _ _ Hfs _ X).
      * intros v x l E C B. rewrite apply_tr in B.
        assert (T : testing x = true) by (destruct x; try discriminate C; auto; destruct p; try discriminate C; auto).
        destruct (STK v x l E T) as [(-> & l' & EF)|(NE & E0)].
        -- destruct (checked_from _ _ _ _ _ _ _ _ _ _ _ Hfs EF C) as (D & EV). rewrite EV in B. cbn in B.
           destruct D as [D|[(n & -> & BL)|[(n & -> & G & BL)|(n & -> & BL)]]].
           ++ eapply bl_chk; eauto.
           ++ pose proof (mine_reach _ _ RC t _ IN) as M. cbn in M.
              assert (O2 : own_node s t n) by exact (mine_belongs _ _ _ _ _ RO IN eq_refl M).
              rewrite (bl_flag _ HI t n O2 B) in BL. discriminate.
           ++ pose proof (tn_node _ _ _ _ _ RO LV IN eq_refl G) as O2.
              rewrite (bl_flag _ HI t n O2 B) in BL. discriminate.
           ++ assert (NMT : t <> MAIN) by (intros ->; pose proof (who_bt _ (who_reach _ _ RC) _ IN) as X; discriminate X).
              assert (O2 : own_node s t n). { right. split; [exact NMT|]. left. eexists. split; [exact IN|]. cbn. rewrite Z.eqb_refl. auto. }
              rewrite (bl_flag _ HI t n O2 B) in BL. discriminate.
        -- destruct (BD v B) as [[Y _]|(Y & _)]; [|contradiction]. eapply bl_chk; eauto.
Qed.

(** ** The calls of fini_thread *)

Lemma fini_call_ev dyn t u g tsd nc f c e t' d : frame_step dyn t u g tsd nc f c = Some e -> In (ECall t' (CbFiniThread d)) (e_ev e) ->
  t' = t /\ e_ev e = [ECall t (CbFiniThread d)] /\ (checked f = true \/ winning f = true).
Proof.
  intros H I. fs_cases H; brk H; inversion H; subst; clear H; cbn in I;
    repeat match type of I with context [if ?b then _ else _] => destruct b; cbn in I end;
    repeat (destruct I as [I|I]; [try discriminate I; inversion I; subst; cbn; auto 8|]); try (destruct I; fail).
Qed.

Definition fini_unblocked (tr : list event) (e : event) : Prop :=
  match e with ECall t (CbFiniThread _) => blockd t tr -> In (EWin t) tr | _ => True end.

Lemma fini_hist_block dyn s : reach dyn steady s -> hist fini_unblocked (s_tr s).
Proof.
  apply hist_reach.
  - intros tr t. exact I.
  - intros tr t. exact I.
  - clear s. intros s t c f r e R _ HO Hst LV Hfs.
    assert (IN : In f (th_stack (s_th s t))) by (rewrite Hst; now left).
    destruct (existsb (fun x => match x with ECall _ (CbFiniThread _) => true | _ => false end) (e_ev e)) eqn:X.
    + apply existsb_exists in X. destruct X as (x & I & X). destruct x; try discriminate X. destruct c0; try discriminate X.
      destruct (fini_call_ev _ _ _ _ _ _ _ _ _ _ _ Hfs I) as (-> & EV & D). rewrite EV. cbn. split; [|exact Logic.I].
      intros B. destruct D as [D|D].
      * elim (bl_chk _ (block_reach _ _ R) t f r Hst D B).
      * exact (proj1 (win_reach _ _ (orderly_any _ _ (steady_orderly _ _ R)) t f IN) D).
    + clear - X. induction (e_ev e) as [|x l IH]; [exact I|]. cbn in X. apply orb_false_elim in X. destruct X as [A B].
      split; [|now apply IH]. destruct x; try exact I. destruct c; try exact I. discriminate A.
Qed.

(** ** The value returned *)

Lemma freeze_inexit dyn s : reach dyn any s -> forall w, In (EFreeze w) (s_tr s) -> g_inexit (s_g s) = true.
Proof.
  apply (reach_invariant dyn any (fun s => forall w, In (EFreeze w) (s_tr s) -> g_inexit (s_g s) = true)).
  - intros w [].
  - clear s. intros s t c s' R HI _ HS w I. apply step_view in HS. destruct HS as (_ & LV & V).
    destruct V as [| | | | | | |f r e Hst Hun Hbar Hfs Es']; subst; unfold add_ev in *; cbn [set_th s_tr s_g app] in *;
      try (try (destruct I as [I|I]; [discriminate I|]); now apply (HI w)).
    rewrite apply_g. rewrite apply_tr in I. apply in_app_or in I.
    assert (G : In (EFreeze w) (e_ev e) \/ g_inexit (s_g s) = true) by (destruct I; [now left|right; now apply (HI w)]).
    clear - G Hfs. fs_cases Hfs; brk Hfs; inversion Hfs; subst; clear Hfs; cbn in G |- *; auto; try g_brk; cbn; auto;
      destruct G as [G|G]; auto;
      repeat match type of G with context [if ?b then _ else _] => destruct b; cbn in G end;
      repeat (destruct G as [G|G]; [discriminate G|]); try (destruct G; fail); discriminate G.
Qed.

Definition block_tells (tr : list event) (e : event) : Prop :=
  match e with EBlock t r => known t tr -> (r = true <-> exists w, In (EFreeze w) (image tr)) | _ => True end.

Lemma block_hist dyn s : reach dyn orderly s -> hist block_tells (s_tr s).
Proof.
  apply hist_reach.
  - intros tr t. exact I.
  - intros tr t. exact I.
  - clear s. intros s t c f r e R _ HO Hst LV Hfs.
    assert (IN : In f (th_stack (s_th s t))) by (rewrite Hst; now left).
    destruct (existsb (fun x => match x with EBlock _ _ => true | _ => false end) (e_ev e)) eqn:X.
    + apply existsb_exists in X. destruct X as (x & I & X). destruct x; try discriminate X.
      destruct (block_ev _ _ _ _ _ _ _ _ _ _ _ Hfs I) as (-> & EV & D). rewrite EV. cbn. split; [|exact Logic.I].
      intros K. destruct D as [(-> & -> & _)|(-> & G)].
      * split; [apply (inexit_freeze _ _ R)|]. intros (w & J). apply (freeze_inexit _ _ (orderly_any _ _ R) w). now apply image_in.
      * elim (tn_known _ _ _ _ R LV IN eq_refl eq_refl K G).
    + clear - X. induction (e_ev e) as [|x l IH]; [exact I|]. cbn in X. apply orb_false_elim in X. destruct X as [A B].
      split; [|now apply IH]. destruct x; try exact I. discriminate A.
Qed.
