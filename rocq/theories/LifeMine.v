(** Whose node a frame works on: the exit flag, the caller's own node, ignored
    threads. *)
From Verif Require Export LifeReg.

Local Open Scope nat_scope.

(** ** The exit flag, in every schedule *)

Definition before_exit (f : frame) : bool :=
  match f with
  | FClean CLRemove _ | FBT BTRead _ | FBT (BTNum _) _ | FBT BTIns _ => true
  | _ => false
  end.
Definition after_freeze (f : frame) : bool :=
  match f with
  | FClean CLMark1 _ | FClean CLMark2 _ => true
  | FSUnlock _ | FSInstall _ | FSMain _ | FSPass _ | FSNode _ _ | FSStarted _ _ _ | FSDone _ _ _
  | FSEnd _ | FSOwn _ | FSOwnCall _ _ | FSOwnDone _ _ | FSRestore _ => true
  | FCb _ (KFiniOwn _ _) => true
  | _ => false
  end.
Definition Qexit (g : glob) (tr : list event) (t : Z) (f : frame) : Prop :=
  (before_exit f = true -> g_inexit g = false) /\ (after_freeze f = true -> g_inexit g = true).

Lemma exit_local dyn t u g tsd nc f c e :
  frame_step dyn t u g tsd nc f c = Some e ->
  (g_inexit (e_g e) = g_inexit g \/ (g_inexit (e_g e) = true /\ exists old, f = FSSet old)) /\
  ((before_exit f = true -> g_inexit g = false) /\ (after_freeze f = true -> g_inexit g = true) ->
   forall f', In f' (e_fr e) -> Qexit (e_g e) [] t f') /\
  (forall st f', e_new e = Some st -> In f' st -> before_exit f' = false /\ after_freeze f' = false).
Proof.
  intros H. split; [|split].
  - fs_cases H; brk H; inversion H; subst; clear H; cbn; auto; g_brk; auto; eauto.
  - unfold Qexit.
    fs_cases H; brk H; inversion H; subst; clear H; cbn; intros [A B] f' I';
      try (specialize (A eq_refl)); try (specialize (B eq_refl));
      repeat (destruct I' as [<-|I']; [cbn; split; intros; try discriminate; auto|]); try (destruct I'; fail).
    all: repeat match goal with H : context [if ?x then _ else _] |- _ => destruct x eqn:?; cbn in * end;
      try discriminate; auto.
  - intros st f' E I'. fs_cases H; brk H; inversion H; subst; clear H; cbn in E; try discriminate E;
      inversion E; subst; cbn in I'; repeat (destruct I' as [<-|I']; [auto|]); destruct I'.
Qed.

Lemma exit_frames dyn s : reach dyn any s -> ft_inv (fun g tr _ => Qexit g tr) s.
Proof.
  apply ft_reach.
  - intros t f I. cbn in I. rewrite upd_if in I. destruct (Z.eqb t MAIN); [|destruct I].
    cbn in I. unfold Qexit. repeat destruct I as [<-|I]; try (split; discriminate). destruct I.
  - auto.
  - intros s0 t c f _ _ _ _ _ _ I. cbn in I. unfold Qexit. repeat destruct I as [<-|I]; try (split; discriminate). destruct I.
  - intros. split; discriminate.
  - intros. split; discriminate.
  - intros s0 t c f r e R HI _ Hst LV Hfs. pose proof (lock_reach _ _ R) as L.
    destruct (exit_local _ _ _ _ _ _ _ _ _ Hfs) as (A & B & C).
    assert (IN : In f (th_stack (s_th s0 t))) by (rewrite Hst; now left).
    assert (O : forall t' f', (t' = t /\ In f' r) \/ (t' <> t /\ In f' (th_stack (s_th s0 t'))) ->
       Qexit (s_g s0) (s_tr s0) t' f' -> Qexit (e_g e) (e_ev e ++ s_tr s0) t' f').
    { intros t' f' D [Q1 Q2]. destruct A as [A|(A & old & ->)].
      - unfold Qexit. rewrite A. auto.
      - split; [|auto]. intros BE.
        pose proof (lock_one s0 t _ r t' f' L Hst eq_refl D) as LF. exfalso.
        destruct f'; try discriminate BE. destruct p; discriminate. destruct p; discriminate. }
    split; [|split; [|split]].
    + intros f' I. exact (B (HI t f IN) f' I).
    + intros f' I. apply O. auto.
    + intros _ t' f' X I. apply O. auto.
    + intros st f' E I. destruct (C st f' E I) as [D1 D2]. split; congruence.
Qed.

(** ** Only the main node belongs to the main thread *)

Lemma self_heap dyn s : reach dyn clean_forks s ->
  forall n, n <> MAIN_TN -> n_self (nd (s_g s) n) <> MAIN.
Proof.
  apply (reach_invariant dyn clean_forks (fun s => forall n, n <> MAIN_TN -> n_self (nd (s_g s) n) <> MAIN)).
  - intros n N. cbn. unfold nd, glob0. cbn. rewrite upd_other by auto. discriminate.
  - clear s. intros s t c s' R HI HO HS. pose proof (who_reach _ _ R) as W.
    apply step_view in HS. destruct HS as (_ & LV & V).
    destruct V as [| | | | | | |f r e Hst Hun Hbar Hfs Es']; subst; try exact HI.
    intros n N. rewrite apply_g. specialize (HI n N).
    assert (D : n_self (nd (e_g e) n) = n_self (nd (s_g s) n) \/ n_self (nd (e_g e) n) = 0%Z \/
                (n_self (nd (e_g e) n) = t /\ exists m, f = FBT BTSelf m)).
    { clear - Hfs N. fs_cases Hfs; brk Hfs; inversion Hfs; subst; clear Hfs; cbn [e_g]; auto;
        unfold nd; cbn; g_brk; rewrite ?upd_if; auto;
        repeat match goal with |- context [Z.eqb ?a ?b] => destruct (Z.eqb_spec a b); subst end;
        cbn; auto; try congruence; eauto. }
    destruct D as [D|[D|(D & m & ->)]].
    + now rewrite D.
    + rewrite D. discriminate.
    + rewrite D. intros ->.
      pose proof (who_bt _ W (FBT BTSelf m)) as X. rewrite Hst in X. specialize (X (or_introl eq_refl)). discriminate X.
Qed.

(** ** The caller's own node *)

Definition mine (tsd : option Z) (t n : Z) : Prop :=
  (t = MAIN /\ n = MAIN_TN) \/ (t <> MAIN /\ tsd = Some n).
Definition omine (tsd : option Z) (t : Z) (o : option Z) : Prop :=
  forall n, o = Some n -> mine tsd t n.

Definition Qmine (g : glob) (tr : list event) (tsd : option Z) (t : Z) (f : frame) : Prop :=
  match f with
  | FHChk n | FHDone n | FHSet n | FHCall n _ | FHEnd n _ => mine tsd t n
  | FCb _ (KFiniHandler n _) => mine tsd t n
  | FCb _ (KFiniOwn l n) => mine tsd t n
  | FCb _ (KPreCreate _ my) => omine tsd t my
  | FEPCas _ o | FEPWin _ o | FEPLose o => omine tsd t o
  | FPCIgn _ my | FPCSup _ my | FPCSupSet _ my | FPCPre _ my | FPCGot _ my _ | FPCLock _ my _
  | FPCPick _ my _ | FPCTake _ my _ _ | FPCArray _ my _ | FPCInc _ my _ _ | FPCZero _ my _ _
  | FPCUnlock _ my _ _ | FPCFill _ my _ _ | FPCReal _ my _ | FPCPost _ my _ | FPCEnd _ my => omine tsd t my
  | FSPass l | FSEnd l | FSOwn l => omine tsd t (sc_my l)
  | FSNode l r => omine tsd t (sc_my l) /\
      (forall x, In x r -> t <> MAIN -> In x (g_list g))
  | FSStarted l n r | FSDone l n r => omine tsd t (sc_my l) /\
      (forall x, In x (n :: r) -> t <> MAIN -> In x (g_list g))
  | FSOwnCall l n | FSOwnDone l n => mine tsd t n
  | _ => True
  end.

Lemma mine_tsd tsd tsd' t n : (t <> MAIN -> tsd' = tsd \/ tsd = None) -> mine tsd t n -> mine tsd' t n.
Proof.
  intros H [M|[A B]]; [now left|right]. split; [exact A|]. destruct (H A); congruence.
Qed.
Lemma omine_tsd tsd tsd' t o : (t <> MAIN -> tsd' = tsd \/ tsd = None) -> omine tsd t o -> omine tsd' t o.
Proof. intros H M n E. eapply mine_tsd; eauto. Qed.

Lemma Qmine_mono g g' tr tr' tsd tsd' t f :
  (t <> MAIN -> tsd' = tsd \/ tsd = None) ->
  (after_freeze f = true -> t <> MAIN -> incl (g_list g) (g_list g')) ->
  Qmine g tr tsd t f -> Qmine g' tr' tsd' t f.
Proof.
  intros T L. destruct f; cbn in *; auto; try (apply omine_tsd; exact T); try (apply mine_tsd; exact T).
  - destruct k; auto; try (apply omine_tsd; exact T); try (apply mine_tsd; exact T).
  - intros [A B]. split; [now apply (omine_tsd tsd)|]. intros x I N. apply L; auto.
  - intros [A B]. split; [now apply (omine_tsd tsd)|]. intros x I N. apply L; auto.
  - intros [A B]. split; [now apply (omine_tsd tsd)|]. intros x I N. apply L; auto.
Qed.

(** What a step needs to know of the caller. *)
Record caller (g : glob) (tsd : option Z) (t : Z) : Prop := mkcaller {
  ca_main : t = MAIN -> tsd = None \/ tsd = Some MAIN_TN;
  ca_used : t <> MAIN -> g_used g = true;
  ca_mtsd : t = MAIN -> g_used g = true -> tsd = Some MAIN_TN;
  ca_magic : n_magic (nd g MAIN_TN) = true;
  ca_self : t = MAIN -> forall n, n_self (nd g n) = t -> n = MAIN_TN;
  ca_list : t <> MAIN -> forall n, In n (g_list g) -> n_self (nd g n) = t -> tsd = Some n
}.

Lemma ca_tn g tsd t n : caller g tsd t -> get_tn g tsd = Some n -> mine tsd t n.
Proof.
  intros C. unfold get_tn. destruct (g_used g) eqn:U.
  - destruct tsd as [m|]; [|discriminate]. destruct (n_magic (nd g m)); [|discriminate].
    intros E. inversion E; subst. destruct (Z.eq_dec t MAIN) as [->|X]; [left|right; auto].
    pose proof (ca_mtsd _ _ _ C eq_refl U) as Y. inversion Y. auto.
  - intros E. inversion E; subst. left. split; [|reflexivity].
    destruct (Z.eq_dec t MAIN) as [|X]; [assumption|]. rewrite (ca_used _ _ _ C X) in U. discriminate.
Qed.

Lemma ca_hnd g tsd t n : caller g tsd t -> tsd = Some n -> mine tsd t n.
Proof.
  intros C E. destruct (Z.eq_dec t MAIN) as [->|X]; [left|right; auto].
  destruct (ca_main _ _ _ C eq_refl); split; congruence.
Qed.

Lemma Qmine_new dyn t u g tr tsd nc f c e :
  frame_step dyn t u g tsd nc f c = Some e -> caller g tsd t -> e_tsd e = tsd ->
  Qmine g tr tsd t f -> forall f', In f' (e_fr e) -> Qmine (e_g e) (e_ev e ++ tr) tsd t f'.
Proof.
  intros H C ET Q.
  fs_cases H; brk H; inversion H; subst; clear H; cbn [e_g e_fr e_ev e_tsd] in *; intros f' I';
    cbn in I'; repeat (destruct I' as [<-|I']; [cbn in Q |- *; try exact I; auto|]); try (destruct I'; fail).
  all: try (intros ? EQ; discriminate EQ).
  all: try (apply Q).
  all: try (intros ? EQ; eapply ca_tn; eauto; fail).
  all: try (eapply ca_hnd; eauto; fail).
  - destruct Q as [Q1 Q2]. split; [|intros x X; apply Q2; now right].
    match goal with X : (_ =? _)%Z = true |- _ => apply Z.eqb_eq in X end. intros n EQ. inversion EQ; subst n.
    destruct (Z.eq_dec t MAIN) as [X|X]; [left|right]; split; auto.
    + now apply (ca_self _ _ _ C X).
    + apply (ca_list _ _ _ C X); auto.
  - destruct Q as [Q1 Q2]. split; [exact Q1|]. intros x X. apply Q2. now right.
  - destruct Q as [Q1 Q2]. split; [exact Q1|]. intros x X. apply Q2. now right.
  - destruct Q as [Q1 Q2]. split; [exact Q1|]. intros x X. apply Q2. now right.
  - eapply ca_tn; eauto.
  - intros n EQ. eapply ca_tn; [exact C|]. congruence.
Qed.

Lemma Qmine_born dyn t u g tr tsd nc f c e :
  frame_step dyn t u g tsd nc f c = Some e ->
  forall st f', e_new e = Some st -> In f' st -> Qmine (e_g e) (e_ev e ++ tr) None u f'.
Proof.
  intros H st f' E I'. fs_cases H; brk H; inversion H; subst; clear H; cbn in E; try discriminate E;
      inversion E; subst; cbn in I'; repeat (destruct I' as [<-|I']; [exact I|]); destruct I'.
Qed.

Lemma caller_reach dyn s t : reach dyn clean_forks s -> th_live (s_th s t) = true ->
  existsb resetting (th_stack (s_th s MAIN)) = false \/ t = MAIN ->
  caller (s_g s) (th_tsd (s_th s t)) t.
Proof.
  intros R LV RS. pose proof (who_reach _ _ R) as W. pose proof (main_reach _ _ R) as M.
  pose proof (listed_reach _ _ R) as LI. pose proof (self_heap _ _ R) as SH.
  constructor.
  - intros ->. apply (mi_tsd _ M).
  - intros X. destruct (g_used (s_g s)) eqn:U; [reflexivity|]. rewrite (who_alone _ W U t X) in LV. discriminate.
  - intros ->. apply (mi_used _ M).
  - apply (mi_node _ M).
  - intros -> n E. destruct (Z.eq_dec n MAIN_TN) as [|X]; [assumption|]. now destruct (SH n X).
  - intros X n I E. destruct RS as [RS|]; [|contradiction].
    destruct (Z.eq_dec n MAIN_TN) as [->|Y].
    + exfalso. apply X. rewrite <- E. apply (mi_self _ M). left.
      destruct (g_used (s_g s)) eqn:U; [reflexivity|]. rewrite (who_alone _ W U t X) in LV. discriminate.
    + destruct (li_fact _ LI RS n I Y) as [_ T]. rewrite E in T. exact T.
Qed.

Lemma mine_reach dyn s : reach dyn clean_forks s -> ft_inv Qmine s.
Proof.
  apply ft_reach.
  - intros t f I. cbn in I. rewrite upd_if in I. destruct (Z.eqb t MAIN); [|destruct I].
    cbn in I. repeat destruct I as [<-|I]; try exact I. all: destruct I.
  - intros g tr d t f e t' _ Q. apply (Qmine_mono g g tr (e :: tr) d d); auto. intros. apply incl_refl.
  - intros s0 t c f _ _ _ _ _ _ I. cbn in I. repeat destruct I as [<-|I]; try exact I. all: destruct I.
  - intros. exact I.
  - intros. exact I.
  - intros s0 t c f r e R FI HO Hst LV Hfs.
    pose proof (clean_any _ _ R) as RA. pose proof (who_reach _ _ R) as W.
    pose proof (data_reach _ _ R) as DA. pose proof (exit_frames _ _ RA) as EF.
    assert (IN : In f (th_stack (s_th s0 t))) by (rewrite Hst; now left).
    assert (NRS : existsb resetting (th_stack (s_th s0 MAIN)) = false \/ t = MAIN).
    { destruct (existsb resetting (th_stack (s_th s0 MAIN))) eqn:RS; [right|now left].
      destruct (who_reset _ W MAIN RS) as (_ & _ & D).
      destruct (Z.eq_dec t MAIN) as [|X]; [assumption|]. rewrite (D t X) in LV. discriminate LV. }
    pose proof (caller_reach _ _ _ R LV NRS) as CA.
    assert (T : t <> MAIN -> e_tsd e = th_tsd (s_th s0 t) \/ th_tsd (s_th s0 t) = None).
    { intros X. destruct (tsd_local _ _ _ _ _ _ _ _ _ Hfs) as [T|[(n & ->)|[(q & -> & U)|RS]]]; auto.
      - right. pose proof (DA t _ IN) as Q. cbn in Q. apply Q.
      - rewrite (who_alone _ W U t X) in LV. discriminate.
      - destruct (who_reset _ W t) as (Y & _); [rewrite Hst; cbn; now rewrite RS|contradiction]. }
    (* the list only grows once the exit cleanup has begun *)
    assert (G : forall t', t' <> MAIN -> th_live (s_th s0 t') = true -> e_child e = false ->
                g_inexit (s_g s0) = true -> incl (g_list (s_g s0)) (g_list (e_g e))).
    { intros t' X LV' HC IE n I.
      destruct (list_stay _ _ _ _ _ _ _ _ _ _ Hfs I) as [J | ->]; auto.
      - destruct (resetting f) eqn:RS; [|reflexivity].
        destruct (who_reset _ W t) as (_ & _ & Y); [rewrite Hst; cbn; now rewrite RS|].
        rewrite (Y t' X) in LV'. discriminate LV'.
      - destruct (g_used (s_g s0)) eqn:U; [reflexivity|]. rewrite (who_alone _ W U t' X) in LV'. discriminate.
      - destruct (EF t _ IN) as [Y _]. rewrite (Y eq_refl) in IE. discriminate IE. }
    assert (LIVE : forall t' f', In f' (th_stack (s_th s0 t')) -> th_live (s_th s0 t') = true).
    { intros t' f' J. destruct (th_live (s_th s0 t')) eqn:L; [reflexivity|]. rewrite (who_dead _ W t' L) in J. destruct J. }
    assert (CH : e_child e = true -> t = MAIN).
    { intros HC. destruct (child_shape _ _ _ _ _ _ _ _ _ Hfs HC) as (CC & _). apply (proj1 HO CC). }
    split; [|split; [|split]].
    + intros f' J.
      destruct (tsd_local _ _ _ _ _ _ _ _ _ Hfs) as [ET|[(n & ->)|[(q & -> & U)|RS]]].
      * rewrite ET. eapply Qmine_new; eauto.
      * destruct c; try discriminate Hfs; cbn in Hfs; inversion Hfs; subst. destruct J as [<-|[]]. exact I.
      * destruct c; try discriminate Hfs; cbn in Hfs; rewrite U in Hfs; inversion Hfs; subst. destruct J as [<-|[]]. exact I.
      * clear - Hfs RS J. destruct f; try discriminate RS; destruct c; try discriminate Hfs; cbn in Hfs;
          inversion Hfs; subst; cbn in J; repeat match type of J with context [if ?b then _ else _] => destruct b end;
          repeat destruct J as [<-|J]; try exact I; try destruct J.
    + intros f' J. apply Qmine_mono; [exact T|]. intros AF X. apply (G t X LV).
      * destruct (e_child e) eqn:HC; [destruct (X (CH eq_refl))|reflexivity].
      * assert (J' : In f' (th_stack (s_th s0 t))) by (rewrite Hst; now right).
        destruct (EF t _ J') as [_ Y]. auto.
    + intros HC t' f' X J. apply Qmine_mono; [auto|]. intros AF Y. apply (G t'); eauto.
      destruct (EF t' _ J) as [_ Z]. auto.
    + eapply Qmine_born; eauto.
Qed.

(** ** Ignored threads *)

Definition ign_inv (s : state) : Prop := forall c q u,
  In (ECreate c q u false) (s_tr s) ->
  u <> MAIN /\ (u < s_next s)%Z /\ th_tsd (s_th s u) = None /\
  forall f, In f (th_stack (s_th s u)) -> bt_frame f = false.

Lemma ign_stack s s' t ev : ign_inv s -> s_next s' = s_next s -> s_tr s' = ev ++ s_tr s ->
  (forall c q u, ~ In (ECreate c q u false) ev) ->
  (forall t', t' <> t -> s_th s' t' = s_th s t') -> th_tsd (s_th s' t) = th_tsd (s_th s t) ->
  (forall f, In f (th_stack (s_th s' t)) -> bt_frame f = true ->
     exists f', In f' (th_stack (s_th s t)) /\ bt_frame f' = true) -> ign_inv s'.
Proof.
  intros H N TR NE O TD ST c q u I. rewrite TR in I. apply in_app_or in I.
  destruct I as [I|I]; [destruct (NE _ _ _ I)|]. destruct (H c q u I) as (A & B & C & D).
  rewrite N. split; [exact A|]. split; [exact B|].
  destruct (Z.eq_dec u t) as [->|X]; [|now rewrite O].
  rewrite TD. split; [exact C|]. intros f J. destruct (bt_frame f) eqn:BF; [|reflexivity].
  destruct (ST f J BF) as (f' & J' & BF'). rewrite (D f' J') in BF'. discriminate.
Qed.

Lemma bt_unwind st f : In f (unwind st) -> bt_frame f = true -> exists f', In f' st /\ bt_frame f' = true.
Proof.
  intros I B. destruct (unwind_shape st) as [U|(n & p & U & J & P)]; rewrite U in I.
  - destruct I as [<-|[]]. discriminate.
  - exists p. split; [exact J|]. destruct P as [(q & -> & _)|(q & ->)]; reflexivity.
Qed.

Lemma create_ev dyn t u g tsd nc f c e c0 q x :
  frame_step dyn t u g tsd nc f c = Some e -> In (ECreate c0 q x false) (e_ev e) ->
  x = u /\ e_new e = Some [FRun (q_start q) (q_arg q); FApp AppTsd].
Proof.
  intros H I. fs_cases H; brk H; inversion H; subst; clear H; cbn in I;
    repeat match type of I with context [if ?b then _ else _] => destruct b; cbn in I end;
    repeat (destruct I as [I|I]; [try discriminate I; inversion I; subst; cbn; eauto|]); try destruct I.
Qed.

Lemma ign_reach dyn s : reach dyn clean_forks s -> ign_inv s.
Proof.
  apply reach_invariant.
  - intros c q u [].
  - clear s. intros s t c s' R HI HO HS. pose proof (who_reach _ _ R) as W.
    apply step_view in HS. destruct HS as (_ & LV & V).
    destruct V as [| | | |f0 r0 Ec Est Enc Elk|r0 Ec Est Elk| |f r e Hst Hun Hbar Hfs Es']; subst s'.
    1-2: apply (ign_stack s _ t []); auto; cbn [set_th s_th]; intros; rewrite ?upd_same, ?upd_other by auto; auto;
      match goal with J : In _ _ |- _ => rewrite upd_same in J; cbn in J end;
      repeat match goal with J : _ \/ _ |- _ => destruct J as [<-|J]; [discriminate|] end; eauto.
    1-2: apply (ign_stack s _ t [EDeliver t]); auto; unfold add_ev; cbn [set_th s_th]; intros;
      rewrite ?upd_same, ?upd_other by auto; auto; [intros [X|[]]; discriminate|];
      match goal with J : In _ _ |- _ => rewrite upd_same in J; cbn in J end;
      repeat match goal with J : _ \/ _ |- _ => destruct J as [<-|J]; [discriminate|] end; eauto.
    1-2: apply (ign_stack s _ t []); auto; cbn [set_th s_th]; intros; rewrite ?upd_same, ?upd_other by auto; auto;
      match goal with J : In _ _ |- _ => rewrite upd_same in J; cbn in J; apply bt_unwind in J; [|assumption];
         destruct J as (f' & J & BF); exists f'; split; [|exact BF] end; auto;
      rewrite Est; now right.
    1: { apply (ign_stack s _ t [EEnd t]); auto; unfold add_ev; cbn [set_th s_th]; intros;
      rewrite ?upd_same, ?upd_other by auto; auto; [intros [X|[]]; discriminate|].
      match goal with J : In _ _ |- _ => rewrite upd_same in J; destruct J end. }
    assert (IN : In f (th_stack (s_th s t))) by (rewrite Hst; now left).
    intros c0 q u I. rewrite apply_tr, apply_next in *. apply in_app_or in I. destruct I as [I|I].
    + destruct (create_ev _ _ _ _ _ _ _ _ _ _ _ _ Hfs I) as (-> & EN). rewrite EN.
      pose proof (who_next _ W) as NX.
      split; [unfold MAIN; lia|]. split; [lia|].
      assert (HC : e_child e = false).
      { destruct (e_child e) eqn:HC; [|reflexivity].
        destruct (child_shape _ _ _ _ _ _ _ _ _ Hfs HC) as (_ & _ & _ & _ & _ & HN & _). congruence. }
      rewrite apply_tsd, apply_stack, EN, Z.eqb_refl by auto. split; [reflexivity|].
      intros f' [<-|[<-|[]]]; reflexivity.
    + destruct (HI c0 q u I) as (A & B & C & D). split; [exact A|]. split; [destruct (e_new e); lia|].
      destruct (e_child e) eqn:HC.
      { destruct (child_shape _ _ _ _ _ _ _ _ _ Hfs HC) as (CC & _ & _ & _ & _ & HN & HK & SH).
        destruct (proj1 HO CC) as (-> & _). unfold apply_eff. rewrite HC, HN, HK. cbn [s_th].
        rewrite upd_other by auto. split; [reflexivity|]. intros f' []. }
      rewrite apply_tsd, apply_stack by auto.
      assert (X : (u =? s_next s)%Z = false) by (apply Z.eqb_neq; lia). rewrite X.
      assert (Y : (if (u =? t)%Z then e_tsd e else th_tsd (s_th s u)) = None /\
        (forall f0, In f0 (if (u =? t)%Z then e_fr e ++ r else th_stack (s_th s u)) -> bt_frame f0 = false)).
      { destruct (Z.eqb_spec u t) as [->|]; [|auto]. pose proof (D f IN) as BF. split.
        - destruct (tsd_local _ _ _ _ _ _ _ _ _ Hfs) as [T|[(n & ->)|[(q0 & -> & U)|RS]]].
          + congruence.
          + discriminate BF.
          + rewrite (who_alone _ W U t A) in LV. discriminate.
          + destruct (who_reset _ W t) as (Y & _); [rewrite Hst; cbn; now rewrite RS|contradiction].
        - intros f' J. apply in_app_or in J. destruct J as [J|J].
          + destruct (reset_local _ _ _ _ _ _ _ _ _ Hfs HC) as (_ & _ & _ & _ & P).
            eapply existsb_false_in; [exact (P BF)|exact J].
          + apply D. rewrite Hst. now right. }
      destruct (e_new e); exact Y.
Qed.
