(** Registration and freezing, and when fini_thread is issued. *)
From Verif Require Export LifeLib.

Local Open Scope nat_scope.

(** ** After the freeze nobody registers, in every schedule *)

Lemma freeze_flag dyn s : reach dyn any s -> forall w, In (EFreeze w) (s_tr s) -> g_inexit (s_g s) = true.
Proof.
  apply (reach_invariant dyn any (fun s => forall w, In (EFreeze w) (s_tr s) -> g_inexit (s_g s) = true)); [intros w []|].
  clear s. intros s t c s' R HI _ HS w I. apply step_view in HS. destruct HS as (_ & LV & V).
  destruct V as [| | | | | | |f r e Hst Hun Hbar Hfs Es']; subst;
    try (cbn in I |- *; try (destruct I as [I|I]; [discriminate I|]); eauto; fail).
  rewrite apply_tr in I. rewrite apply_g. apply in_app_or in I. destruct I as [I|I].
  - clear - Hfs I. fs_cases Hfs; brk Hfs; inversion Hfs; subst; clear Hfs; cbn in I;
      repeat match type of I with context [if ?b then _ else _] => destruct b; cbn in I end;
      repeat (destruct I as [I|I]; [try discriminate I; try reflexivity|]); try (destruct I; fail).
  - specialize (HI w I). destruct (exit_local _ _ _ _ _ _ _ _ _ Hfs) as ([X|(X & _)] & _); congruence.
Qed.

Definition registered (t : Z) (tr : list event) : Prop := exists k, In (EReg t k) tr.
Definition unmonitored (t : Z) (tr : list event) : Prop := exists c q, In (ECreate c q t false) tr.

Definition Qrun (g : glob) (tr : list event) (t : Z) (f : frame) : Prop :=
  match f with
  | FBT p _ => numbered p = true -> registered t tr
  | FClean _ _ | FCb _ (KInitThread _) | FCb _ (KFiniCleanup _) => registered t tr
  | FRun _ _ => unmonitored t tr \/ registered t tr
  | _ => True
  end.

Lemma registered_mono t tr ev : registered t tr -> registered t (ev ++ tr).
Proof. intros (k & I). exists k. apply in_or_app. now right. Qed.
Lemma unmonitored_mono t tr ev : unmonitored t tr -> unmonitored t (ev ++ tr).
Proof. intros (c & q & I). exists c, q. apply in_or_app. now right. Qed.
Lemma Qrun_mono g g' t tr ev f : Qrun g tr t f -> Qrun g' (ev ++ tr) t f.
Proof.
  pose proof (registered_mono t tr ev). pose proof (unmonitored_mono t tr ev).
  destruct f; cbn; auto; try tauto. destruct k; auto.
Qed.

Lemma run_frames dyn s : reach dyn any s -> fr_inv Qrun s.
Proof.
  apply fr_reach.
  - intros t f I. cbn in I. rewrite upd_if in I. destruct (Z.eqb t MAIN); [|destruct I].
    cbn in I. repeat destruct I as [<-|I]; try exact I. all: destruct I.
  - intros g tr t f e t' _ H. exact (Qrun_mono g g t tr [e] f H).
  - intros g tr t f I. cbn in I. repeat destruct I as [<-|I]; try exact I. all: destruct I.
  - intros g tr t n f [(p & -> & P)|(c & ->)] Q; cbn in *; auto. apply Q. destruct p; try discriminate P; reflexivity.
  - intros s0 t c f r e R FI _ Hst LV Hfs.
    split; [|split].
    + pose proof (FI t f) as Q. rewrite Hst in Q. specialize (Q (or_introl eq_refl)).
      clear FI R Hst LV. apply (Qrun_mono _ (s_g s0) _ _ (e_ev e)) in Q. clear - Q Hfs.
      q_step; cbn [e_fr e_ev app api_frames] in *; intros f' I'; cbn in I';
        repeat (destruct I' as [<-|I']; [cbn in *; try exact I; auto; try tauto|]);
        try (destruct I'; fail); try (intros; discriminate).
      all: try (exists (x + 1)%Z; now left).
      all: intros _; exists (x + 1)%Z; now left.
    + intros t' f' _. apply Qrun_mono.
    + clear - Hfs. intros st f' EN I'. q_step; cbn in EN; try discriminate EN; inversion EN; subst; cbn in I';
        repeat (destruct I' as [<-|I']; [try exact I; try discriminate|]); try (destruct I'; fail); cbn.
      left. exists t, q. now left.
Qed.

(** What the history shows at a registration, an init_thread, a start. *)
Definition Jreg (tr : list event) (e : event) : Prop :=
  match e with
  | EReg t _ => forall w, ~ In (EFreeze w) tr
  | EStart t _ _ => unmonitored t tr \/ registered t tr
  | ECall t (CbInitThread _ _) => registered t tr
  | _ => True
  end.

Lemma reg_hist dyn s : reach dyn any s -> hist Jreg (s_tr s).
Proof.
  apply hist_reach; try (intros; exact I).
  clear s. intros s t c f r e R _ _ Hst LV Hfs.
  assert (IN : In f (th_stack (s_th s t))) by (rewrite Hst; now left).
  pose proof (run_frames _ _ R t f IN) as Q.
  assert (NF : before_exit f = true -> forall w, ~ In (EFreeze w) (s_tr s)).
  { intros B w I. pose proof (freeze_flag _ _ R w I) as X.
    destruct (exit_frames _ _ R t f IN) as [Y _]. rewrite (Y B) in X. discriminate. }
  clear R Hst LV IN. q_step; cbn [e_ev justified app] in *; repeat split; cbn in *; auto.
  all: repeat match goal with |- context [if ?x then _ else _] => destruct x end; cbn; repeat split; auto.
Qed.

(** ** Flags of a node change only at a few places *)

Lemma applkeep_local dyn t u g tsd nc f c e n : frame_step dyn t u g tsd nc f c = Some e ->
  n_appl (nd g n) = true -> n_appl (nd (e_g e) n) = true \/ resetting f = true \/ f = FClean CLZero n \/
  (exists q my d, f = FPCZero q my d n).
Proof.
  intros H W. fs_cases H; brk H; inversion H; subst; clear H; cbn [e_g]; auto;
    unfold nd in *; cbn; g_brk; rewrite ?upd_if; auto;
    repeat match goal with |- context [Z.eqb ?a ?b] => destruct (Z.eqb_spec a b); subst end; cbn; auto; eauto 8;
    rewrite ?upd_if; auto;
    repeat match goal with |- context [Z.eqb ?a ?b] => destruct (Z.eqb_spec a b); subst end; cbn; auto; eauto 8.
Qed.

Lemma fskeep_local dyn t u g tsd nc f c e n : frame_step dyn t u g tsd nc f c = Some e -> n <> MAIN_TN ->
  n_fstart (nd g n) = true -> n_fstart (nd (e_g e) n) = true \/ resetting f = true \/ f = FClean CLZero n \/
  (exists q my d, f = FPCZero q my d n).
Proof.
  intros H NM W. fs_cases H; brk H; inversion H; subst; clear H; cbn [e_g]; auto;
    unfold nd in *; cbn; g_brk; rewrite ?upd_if; auto;
    repeat match goal with |- context [Z.eqb ?a ?b] => destruct (Z.eqb_spec a b); subst end; cbn; auto; eauto 8;
    rewrite ?upd_if; auto;
    repeat match goal with |- context [Z.eqb ?a ?b] => destruct (Z.eqb_spec a b); subst end; cbn; auto; eauto 8; congruence.
Qed.

(** Frames between the check of tn_appl_started and the end of fini_thread. *)
Definition fin_node (f : frame) : option Z :=
  match f with
  | FHDone n | FHSet n | FHCall n _ | FHEnd n _ | FCb _ (KFiniHandler n _) => Some n
  | FClean CLDone n | FClean CLSet n | FClean CLCall n | FCb _ (KFiniCleanup n) | FClean CLEnd n => Some n
  | _ => None
  end.

Lemma live_in dyn s t f : reach dyn any s -> In f (th_stack (s_th s t)) -> th_live (s_th s t) = true.
Proof.
  intros R I. destruct (th_live (s_th s t)) eqn:L; [reflexivity|].
  rewrite (born_dead _ (born_reach _ _ R) t L) in I. destruct I.
Qed.

Lemma fin_belongs dyn s t f n : reach dyn orderly s -> In f (th_stack (s_th s t)) -> t <> MAIN ->
  fin_node f = Some n -> belongs s t n.
Proof.
  intros R I NM F. pose proof (orderly_clean _ _ R) as RC.
  pose proof (mine_reach _ _ RC t f I) as M.
  assert (H : forall m, quiet f = false -> mine (th_tsd (s_th s t)) t m -> belongs s t m).
  { intros m Q X. destruct (mine_belongs _ _ _ _ _ R I Q X) as [[Y _]|[_ Y]]; [contradiction|exact Y]. }
  destruct f; try discriminate F.
  - destruct k; try discriminate F; inversion F; subst n0.
    + left. exists (FCb c (KFiniCleanup n)). cbn. rewrite Z.eqb_refl. auto.
    + apply H; [reflexivity|exact M].
  - inversion F; subst. apply H; [reflexivity|exact M].
  - inversion F; subst. apply H; [reflexivity|exact M].
  - inversion F; subst. apply H; [reflexivity|exact M].
  - inversion F; subst. apply H; [reflexivity|exact M].
  - destruct p; try discriminate F; inversion F; subst n0;
      match goal with |- belongs _ _ ?m => left; eexists; split; [exact I|]; cbn; rewrite Z.eqb_refl; auto end.
Qed.

(** A flag that [keep] preserves stays true of a node somebody works on. *)
Lemma fin_stay dyn s t c f r e t' f' n (p : node -> bool) : reach dyn orderly s -> orderly s t c ->
  th_stack (s_th s t) = f :: r ->
  frame_step dyn t (s_next s) (s_g s) (th_tsd (s_th s t)) (th_nc (s_th s t)) f c = Some e ->
  (t' = t /\ In f' r) \/ (t' <> t /\ In f' (th_stack (s_th s t'))) -> t' <> MAIN -> fin_node f' = Some n ->
  p (nd (e_g e) n) = true \/ resetting f = true \/ f = FClean CLZero n \/ (exists q my d, f = FPCZero q my d n) ->
  p (nd (e_g e) n) = true.
Proof.
  intros R HO Hst Hfs D NM F K. pose proof (orderly_clean _ _ R) as RC.
  assert (IN : In f (th_stack (s_th s t))) by (rewrite Hst; now left).
  assert (IN' : In f' (th_stack (s_th s t'))).
  { destruct D as [[-> X]|[_ X]]; [rewrite Hst; now right|exact X]. }
  pose proof (fin_belongs _ _ _ _ _ R IN' NM F) as B.
  destruct K as [K|[K|[->|(q & my & d & ->)]]]; [exact K|exfalso..].
  - assert (X : existsb resetting (th_stack (s_th s t)) = true) by (apply existsb_exists; eauto).
    destruct (who_reset _ (who_reach _ _ RC) t X) as (-> & _ & Y).
    pose proof (live_in _ _ _ _ (orderly_any _ _ R) IN') as LV. rewrite (Y t' NM) in LV. discriminate.
  - assert (E : t = t') by (eapply belongs_holder; eauto; cbn; now rewrite Z.eqb_refl). subst t'.
    destruct D as [[_ X]|[X _]]; [|now apply X].
    rewrite (bt_top _ _ _ _ _ (orderly_any _ _ R) Hst eq_refl) in X. destruct X as [<-|[]]. discriminate.
  - eapply (belongs_not_making dyn s t' n t (FPCZero q my d n)); eauto. unfold making. cbn. now rewrite Z.eqb_refl.
Qed.

Definition Qappl (g : glob) (tr : list event) (t : Z) (f : frame) : Prop :=
  t <> MAIN -> forall n, fin_node f = Some n -> n_appl (nd g n) = true.

Lemma appl_frames dyn s : reach dyn orderly s -> fr_inv Qappl s.
Proof.
  apply fr_reach.
  - intros t f I. cbn in I. rewrite upd_if in I. destruct (Z.eqb t MAIN); [|destruct I].
    cbn in I. repeat (destruct I as [<-|I]; [intros _ n X; discriminate X|]). destruct I.
  - intros g tr t f e t' _ H. exact H.
  - intros g tr t f I. cbn in I. repeat (destruct I as [<-|I]; [intros _ n X; discriminate X|]). destruct I.
  - intros g tr t n f _ _ _ m X. discriminate X.
  - intros s0 t c f r e R FI HO Hst LV Hfs.
    split; [|split].
    + pose proof (FI t f) as Q. rewrite Hst in Q. specialize (Q (or_introl eq_refl)).
      intros f' I' NM n F. specialize (Q NM). clear FI R Hst LV HO NM.
      q_step; cbn [e_fr e_g] in *; cbn in I'; repeat (destruct I' as [<-|I']; [try discriminate F|]); try (destruct I'; fail);
        cbn in F; try discriminate F; try (injection F as <-);
        try (exact (Q _ eq_refl));
        try (unfold nd in *; cbn; rewrite upd_same; cbn; exact (Q _ eq_refl)).
      all: try (apply orb_false_elim in E; destruct E as [E _]; apply orb_false_elim in E; destruct E as [E _];
        destruct (n_appl (nd (s_g s0) n0)); [reflexivity|discriminate E]).
      all: try (destruct (n_appl (nd (s_g s0) z)); [reflexivity|]; rewrite andb_false_r in E0; discriminate E0).
      all: try (exact (Q _ F)).
      all: try (destruct k; cbn in *; repeat (destruct I' as [<-|I']; [try discriminate F|]); try contradiction; inversion F; subst; exact (Q _ eq_refl)).
      all: destruct (n_appl (nd (s_g s0) n0)); [reflexivity|]; cbn in E; rewrite orb_true_r in E; discriminate E.
    + intros t' f' D Q NM n F.
      eapply fin_stay; eauto; [destruct D as [D|(A & _ & B)]; auto|].
      eapply applkeep_local; eauto.
    + clear - Hfs. intros st f' EN I'. q_step; cbn in EN; try discriminate EN; inversion EN; subst; cbn in I';
        repeat (destruct I' as [<-|I']; [intros _ m X; discriminate X|]); try (destruct I'; fail).
Qed.
