(** fini_thread at most once per thread. *)
From Verif Require Export LifeScan LifeFiniSpec.

Local Open Scope nat_scope.

(** ** The node of a thread is unique *)

Lemma one_bt st b1 b2 : based st -> In b1 st -> In b2 st -> bt_frame b1 = true -> bt_frame b2 = true -> b1 = b2.
Proof.
  intros B I1 I2 T1 T2. destruct (in_split _ _ I1) as (l & r & E).
  pose proof (based_split _ _ _ _ B E T1) as ->. rewrite E in I2. apply in_app_or in I2.
  destruct I2 as [I2|[I2|[I2|[]]]]; [|auto|subst; discriminate].
  destruct (in_split _ _ I2) as (l1 & l2 & E2). subst l. rewrite <- app_assoc in E. cbn in E.
  pose proof (based_split _ _ _ _ B E T2) as X. exfalso. apply (f_equal (@length frame)) in X.
  rewrite app_length in X. cbn in X. lia.
Qed.

Lemma owner_one b n m : owner b = true -> holds n b = true -> holds m b = true -> n = m.
Proof.
  intros O A B. destruct b; try discriminate O; cbn in A, B; try (apply Z.eqb_eq in A; apply Z.eqb_eq in B; congruence).
  - destruct k; try discriminate O; apply Z.eqb_eq in A; apply Z.eqb_eq in B; congruence.
  - destruct p; try discriminate O; apply Z.eqb_eq in A; apply Z.eqb_eq in B; congruence.
Qed.

Lemma belongs_one dyn s t n m : reach dyn orderly s -> th_live (s_th s t) = true -> t <> MAIN ->
  belongs s t n -> belongs s t m -> n = m.
Proof.
  intros R LV NM. pose proof (orderly_clean _ _ R) as RC.
  assert (RS : existsb resetting (th_stack (s_th s MAIN)) = false).
  { destruct (existsb resetting (th_stack (s_th s MAIN))) eqn:RS; [|reflexivity].
    destruct (who_reset _ (who_reach _ _ RC) MAIN RS) as (_ & _ & D). rewrite (D t NM) in LV. discriminate. }
  assert (L : forall m, m <> MAIN_TN -> In m (g_list (s_g s)) -> n_self (nd (s_g s) m) = t ->
     th_tsd (s_th s t) = Some m).
  { intros k K1 K2 K3. destruct (li_fact _ (listed_reach _ _ RC) RS k K2 K1) as [_ X]. now rewrite K3 in X. }
  assert (O : forall b k, In b (th_stack (s_th s t)) -> owner b = true -> holds k b = true ->
     th_tsd (s_th s t) = None \/ th_tsd (s_th s t) = Some k).
  { intros b k I O H. pose proof (data_reach _ _ RC t b I) as D. destruct b; try discriminate O; cbn in H.
    - destruct k0; try discriminate O; apply Z.eqb_eq in H; subst; cbn in D; right; apply D.
    - apply Z.eqb_eq in H; subst; cbn in D. destruct D as [_ D]. destruct (keyless p); auto.
    - destruct p; try discriminate O; apply Z.eqb_eq in H; subst; cbn in D; right; apply D. }
  intros [(b & I & OB & H)|(A1 & A2 & A3)] [(b' & I' & OB' & H')|(A1' & A2' & A3')].
  - assert (b = b') by (eapply one_bt; eauto using owner_bt; eapply based_reach; eapply orderly_any; eauto). subst.
    eapply owner_one; eauto.
  - pose proof (L m A1' A2' A3'). destruct (O b n I OB H); congruence.
  - pose proof (L n A1 A2 A3). destruct (O b' m I' OB' H'); congruence.
  - pose proof (L m A1' A2' A3'). pose proof (L n A1 A2 A3). congruence.
Qed.

(** ** The check and the setting of tn_fini_started in one go *)

Lemma safe_orderly dyn s : reach dyn fini_safe s -> reach dyn orderly s.
Proof. apply reach_weaken. intros x t c [A _]. exact A. Qed.

Lemma window_local dyn t u g tsd nc f c e : frame_step dyn t u g tsd nc f c = Some e ->
  existsb in_window (tl (e_fr e)) = false /\ (forall st, e_new e = Some st -> existsb in_window st = false).
Proof.
  intros H. split.
  - fs_cases H; brk H; inversion H; subst; clear H; reflexivity.
  - intros st E. fs_cases H; brk H; inversion H; subst; clear H; cbn in E; try discriminate E; inversion E; reflexivity.
Qed.

Lemma window_top dyn s : reach dyn fini_safe s -> forall t, existsb in_window (tl (th_stack (s_th s t))) = false.
Proof.
  apply (reach_invariant dyn fini_safe (fun s => forall t, existsb in_window (tl (th_stack (s_th s t))) = false)).
  - intros t. cbn. rewrite upd_if. destruct (Z.eqb t MAIN); reflexivity.
  - clear s. intros s t c s' R HI [_ HO] HS. apply step_view in HS. destruct HS as (_ & LV & V).
    assert (ALL : c <> CStep -> existsb in_window (th_stack (s_th s t)) = false).
    { intros NC. specialize (HI t). unfold set_at_once in HO. destruct (th_stack (s_th s t)) as [|f r]; [reflexivity|].
      cbn in *. rewrite HI. destruct (in_window f); [|reflexivity]. now rewrite HO in NC. }
    assert (UW : forall st, existsb in_window (tl (unwind st)) = false).
    { intros st. destruct (unwind_shape st) as [U|(n & p & U & _)]; rewrite U; reflexivity. }
    destruct V as [| | | | | | |f r e Hst Hun Hbar Hfs Es']; subst; intros t'; cbn [add_ev set_th s_th];
      try (rewrite upd_if; destruct (Z.eqb t' t); [cbn|apply HI]; try apply UW; apply ALL; discriminate).
    + rewrite upd_if; destruct (Z.eqb t' t); [reflexivity|apply HI].
    + destruct (window_local _ _ _ _ _ _ _ _ _ Hfs) as (A & C).
      pose proof (HI t) as HT. rewrite Hst in HT. cbn in HT.
      assert (D : existsb in_window (tl (e_fr e ++ r)) = false).
      { destruct (e_fr e) as [|x l]; cbn in *; [destruct r; cbn in *; auto|].
        - apply orb_false_elim in HT. apply HT.
        - rewrite existsb_app, A. exact HT. }
      destruct (e_child e) eqn:HC.
      * destruct (child_shape _ _ _ _ _ _ _ _ _ Hfs HC) as (_ & _ & _ & _ & _ & N & K & _).
        rewrite apply_stack_child by auto. destruct (Z.eqb t' t); [exact D|reflexivity].
      * rewrite apply_stack by auto. destruct (e_new e) as [st|].
        -- destruct (Z.eqb t' (s_next s)).
           { specialize (C st eq_refl). destruct st; [reflexivity|]. cbn in *. apply orb_false_elim in C. apply C. }
           destruct (Z.eqb t' t); auto.
        -- destruct (Z.eqb t' t); auto.
Qed.

Definition win_node (f : frame) : option Z :=
  match f with FHDone n | FHSet n | FClean CLDone n | FClean CLSet n => Some n | _ => None end.

Definition Qwd (g : glob) (tr : list event) (t : Z) (f : frame) : Prop :=
  t <> MAIN -> forall n, win_node f = Some n -> n_fstart (nd g n) = false.

Lemma wd_local dyn t u g tsd nc f c e : frame_step dyn t u g tsd nc f c = Some e ->
  forall f' n, In f' (e_fr e) -> win_node f' = Some n ->
  e_g e = g /\ (win_node f = Some n \/ n_fstart (nd g n) = false).
Proof.
  intros H f' n I F. fs_cases H; brk H; inversion H; subst; clear H; cbn in I;
    repeat (destruct I as [<-|I]; [cbn in F |- *; try discriminate F; auto|]); try (destruct I; fail);
    inversion F; subst; split; auto; right;
    repeat match goal with E : _ || _ = false |- _ => apply orb_false_elim in E; destruct E end; auto.
  repeat match goal with E : _ && _ = true |- _ => apply andb_true_iff in E; destruct E end.
  now apply negb_true_iff.
Qed.

Lemma wd_reach dyn s : reach dyn fini_safe s -> fr_inv Qwd s.
Proof.
  apply fr_reach.
  - intros t f I. cbn in I. rewrite upd_if in I. destruct (Z.eqb t MAIN); [|destruct I].
    cbn in I. repeat (destruct I as [<-|I]; [intros _ n X; discriminate X|]). destruct I.
  - intros g tr t f e t' _ H. exact H.
  - intros g tr t f I. cbn in I. repeat (destruct I as [<-|I]; [intros _ n X; discriminate X|]). destruct I.
  - intros g tr t n f _ _ _ m X. discriminate X.
  - clear s. intros s t c f r e R FI HO Hst LV Hfs. pose proof (safe_orderly _ _ R) as RO.
    assert (IN : In f (th_stack (s_th s t))) by (rewrite Hst; now left).
    split; [|split].
    + intros f' I' NM n F. destruct (wd_local _ _ _ _ _ _ _ _ _ Hfs f' n I' F) as [-> [X|X]]; [|exact X].
      now apply (FI t f IN NM n).
    + intros t' f' D Q NM n F.
      destruct D as [[-> J]|(NE & _ & J)].
      { pose proof (window_top _ _ R t) as X. rewrite Hst in X. cbn in X.
        pose proof (existsb_false_in _ _ _ X J) as Y. destruct f'; try discriminate F; try discriminate Y.
        destruct p; try discriminate F; discriminate Y. }
      assert (B : belongs s t' n).
      { eapply fin_belongs; eauto. destruct f'; try discriminate F; try exact F. destruct p; try discriminate F; exact F. }
      destruct (writer _ _ _ _ _ _ _ n RO LV Hst Hfs) as [X|[X|[X Y]]].
      * eapply belongs_main; eauto using orderly_clean.
      * rewrite X. now apply Q.
      * destruct NE. symmetry. eapply belongs_unique; eauto using orderly_clean.
      * exfalso. eapply (belongs_not_making dyn s t' n t f); eauto using orderly_clean. unfold making. now rewrite X.
    + clear - Hfs. intros st f' EN I'. q_step; cbn in EN; try discriminate EN; inversion EN; subst; cbn in I';
        repeat (destruct I' as [<-|I']; [intros _ m X; discriminate X|]); try (destruct I'; fail).
Qed.

(** ** Counting *)

Definition w_pend (f : frame) : nat :=
  match f with FHCall _ _ | FClean CLCall _ | FSOwnCall _ _ => 1 | _ => 0 end.

Definition fini_count (s : state) (t : Z) : nat :=
  wsum w_pend (th_stack (s_th s t)) + count (fini_thread_of t) (s_tr s).

(** The node whose tn_fini_started the step sets before issuing the callback. *)
Definition sets (g : glob) (f : frame) : option Z :=
  match f with
  | FHSet n | FClean CLSet n => Some n
  | FSOwn l => match sc_my l with Some n => if n_fstart (nd g n) then None else Some n | None => None end
  | _ => None
  end.

Lemma pend_local dyn t u g tsd nc f c e : frame_step dyn t u g tsd nc f c = Some e ->
  (wsum w_pend (e_fr e) + count (fini_thread_of t) (e_ev e) <= w_pend f \/
   exists m, sets g f = Some m /\ wsum w_pend (e_fr e) + count (fini_thread_of t) (e_ev e) = 1 /\
             n_fstart (nd (e_g e) m) = true) /\
  (forall t', t' <> t -> count (fini_thread_of t') (e_ev e) = 0) /\
  (forall st, e_new e = Some st -> wsum w_pend st = 0).
Proof.
  intros H. split; [|split].
  - fs_cases H; brk H; inversion H; subst; clear H; cbn; rewrite ?Z.eqb_refl; cbn;
      repeat match goal with |- context [if ?b then _ else _] => destruct b eqn:?; cbn; rewrite ?Z.eqb_refl; cbn end;
      try (left; lia); try discriminate.
    all: right; eexists; split; [try reflexivity|split; [reflexivity|unfold nd; cbn; rewrite upd_same; reflexivity]].
    rewrite E, E0. reflexivity.
  - intros t' N. fs_cases H; brk H; inversion H; subst; clear H; cbn;
      repeat match goal with |- context [Z.eqb ?a ?b] => destruct (Z.eqb_spec a b); [congruence|] end; cbn; try reflexivity;
      repeat match goal with |- context [if ?b then _ else _] => destruct b; cbn end; try reflexivity.
  - intros st E. fs_cases H; brk H; inversion H; subst; clear H; cbn in E; try discriminate; inversion E; reflexivity.
Qed.

Lemma pend_unwind st : wsum w_pend (unwind st) = 0.
Proof. destruct (unwind_shape st) as [U|(n & p & U & _)]; rewrite U; reflexivity. Qed.

Lemma sets_belongs dyn s t f r m : reach dyn fini_safe s -> th_stack (s_th s t) = f :: r -> t <> MAIN ->
  sets (s_g s) f = Some m -> belongs s t m /\ n_fstart (nd (s_g s) m) = false.
Proof.
  intros R Hst NM S. pose proof (safe_orderly _ _ R) as RO.
  assert (IN : In f (th_stack (s_th s t))) by (rewrite Hst; now left).
  assert (W : win_node f = Some m -> belongs s t m /\ n_fstart (nd (s_g s) m) = false).
  { intros F. split; [|now apply (wd_reach _ _ R t f IN NM)].
    eapply fin_belongs; eauto. destruct f; try discriminate F; try exact F. destruct p; try discriminate F; exact F. }
  destruct f; try discriminate S; try (apply W; exact S); try (destruct p; try discriminate S; apply W; exact S).
  cbn in S. destruct (sc_my l) as [n|] eqn:E; [|discriminate]. destruct (n_fstart (nd (s_g s) n)) eqn:E1; [discriminate|].
  inversion S; subst m. split; [|exact E1].
  destruct (sc_reach _ _ RO t _ IN n E) as [(A & B & C & _)|[X _]]; [|contradiction]. right. auto.
Qed.

Definition once_inv (s : state) : Prop := forall t, t <> MAIN ->
  fini_count s t <= 1 /\ (forall n, belongs s t n -> n_fstart (nd (s_g s) n) = false -> fini_count s t = 0).

Lemma once_reach dyn s : reach dyn fini_safe s -> once_inv s.
Proof.
  apply (reach_invariant dyn fini_safe once_inv).
  - intros t NM. split; [|intros n _ _]; unfold fini_count; cbn; rewrite upd_if; destruct (Z.eqb t MAIN); cbn; lia.
  - clear s. intros s t c s' R HI HO HS t' NM. pose proof (safe_orderly _ _ R) as RO. pose proof (orderly_clean _ _ RO) as RC.
    pose proof (belongs_new dyn s t c s' t') as BN.
    specialize (fun n => BN n RC (proj1 (proj1 HO)) HS).
    pose proof (born_reach _ _ (orderly_any _ _ RO)) as BO.
    assert (DN : fini_count s (s_next s) = 0).
    { unfold fini_count. destruct (born_fresh _ BO (s_next s) (Z.le_refl _)) as (E1 & _ & E2). rewrite E1.
      cbn. destruct (Nat.le_gt_cases 1 (count (fini_thread_of (s_next s)) (s_tr s))) as [X|X]; [|lia].
      destruct (count_pos _ _ X) as (e & I & P). destruct (E2 e I). destruct e; try discriminate P.
      destruct c0; try discriminate P. cbn in *. now apply Z.eqb_eq. }
    assert (MONO : fini_count s' t' <= fini_count s t' -> s_g s' = s_g s ->
       fini_count s' t' <= 1 /\ (forall n, belongs s' t' n -> n_fstart (nd (s_g s') n) = false -> fini_count s' t' = 0)).
    { intros L G. destruct (HI t' NM) as [A B]. split; [lia|]. intros n B' F. rewrite G in F.
      destruct (BN n B') as [X|(-> & _)]; [rewrite (B n X F) in L; lia|]. lia. }
    apply step_view in HS. destruct HS as (_ & LV & V).
    destruct V as [| | | | | | |f r e Hst Hun Hbar Hfs Es']; subst;
      try (apply MONO; [|reflexivity]; unfold fini_count; cbn [add_ev set_th s_th s_tr app count fini_thread_of];
           rewrite upd_if; destruct (Z.eqb_spec t' t); [subst t'; cbn; rewrite ?pend_unwind; lia|lia]).
    assert (ST : t <> s_next s).
    { intros ->. destruct (born_fresh _ BO (s_next s) (Z.le_refl _)) as (_ & X & _). congruence. }
    destruct (pend_local _ _ _ _ _ _ _ _ _ Hfs) as (A & B & C).
    destruct (HI t' NM) as [H1 H2].
    destruct (Z.eq_dec t' t) as [E|NE].
    + subst t'.
      assert (P' : fini_count (apply_eff s t (s_th s t) r e) t =
        (wsum w_pend (e_fr e) + count (fini_thread_of t) (e_ev e)) + (wsum w_pend r + count (fini_thread_of t) (s_tr s))).
      { unfold fini_count. rewrite apply_tr, count_app. destruct (e_child e) eqn:HC.
        - destruct (child_shape _ _ _ _ _ _ _ _ _ Hfs HC) as (_ & _ & _ & _ & _ & NN & KK & _).
          rewrite apply_stack_child, Z.eqb_refl by auto. rewrite wsum_app. lia.
        - rewrite apply_stack by auto. destruct (e_new e).
          + destruct (Z.eqb_spec t (s_next s)); [contradiction|]. rewrite Z.eqb_refl, wsum_app. lia.
          + rewrite Z.eqb_refl, wsum_app. lia. }
      assert (P0 : fini_count s t = w_pend f + (wsum w_pend r + count (fini_thread_of t) (s_tr s))).
      { unfold fini_count. rewrite Hst. cbn [wsum]. lia. }
      rewrite P', apply_g. destruct A as [A|(m & S & A1 & A2)].
      * split; [lia|]. intros n B' F. destruct (BN n B') as [X|(X & _)]; [|contradiction].
        destruct (n_fstart (nd (s_g s) n)) eqn:FS; [|rewrite (H2 n X FS) in P0; lia].
        exfalso. pose proof (belongs_main _ _ _ _ RC X) as NMT.
        assert (IN : In f (th_stack (s_th s t))) by (rewrite Hst; now left).
        destruct (fskeep_local _ _ _ _ _ _ _ _ _ _ Hfs NMT FS) as [Y|[Y|[->|(q & my & d & ->)]]].
        -- congruence.
        -- destruct (who_reset _ (who_reach _ _ RC) t) as (Z & _); [apply existsb_exists; eauto|contradiction].
        -- pose proof (bt_top _ _ _ _ _ (orderly_any _ _ RO) Hst eq_refl) as ->.
           pose proof (nodes_reach _ _ RC) as (N & _ & _). pose proof (ni_q _ N t _ IN) as NQ. cbn in NQ.
           destruct c; try discriminate Hfs. cbn in Hfs. inversion Hfs; subst e. destruct B' as [(b & IB & OB & HB)|(_ & L & _)].
           ++ rewrite apply_stack in IB by reflexivity. cbn in IB. rewrite Z.eqb_refl in IB.
              destruct IB as [<-|[<-|[]]]; discriminate OB.
           ++ apply NQ. exact L.
        -- eapply (belongs_not_making dyn s t n t); eauto. unfold making. cbn. now rewrite Z.eqb_refl.
      * destruct (sets_belongs _ _ _ _ _ _ R Hst NM S) as [SB SF].
        rewrite (H2 m SB SF) in P0. split; [lia|]. intros n B' F. destruct (BN n B') as [X|(X & _)]; [|contradiction].
        assert (n = m) by (eapply belongs_one; eauto). subst n. congruence.
    + assert (LE : fini_count (apply_eff s t (s_th s t) r e) t' <= fini_count s t').
      { unfold fini_count. rewrite apply_tr, count_app, (B t' NE). destruct (e_child e) eqn:HC.
        - destruct (child_shape _ _ _ _ _ _ _ _ _ Hfs HC) as (_ & _ & _ & _ & _ & NN & KK & _).
          rewrite apply_stack_child by auto. destruct (Z.eqb_spec t' t); [contradiction|]. cbn. lia.
        - rewrite apply_stack by auto. destruct (e_new e) as [st|].
          + destruct (Z.eqb_spec t' (s_next s)); [rewrite (C st eq_refl); lia|].
            destruct (Z.eqb_spec t' t); [contradiction|]. lia.
          + destruct (Z.eqb_spec t' t); [contradiction|]. lia. }
      split; [lia|]. intros n B' F. destruct (BN n B') as [X|(-> & _)]; [|lia].
      rewrite apply_g in F. destruct (writer _ _ _ _ _ _ _ n RO LV Hst Hfs) as [Y|[Y|[Y1 Y2]]].
      * eapply belongs_main; eauto.
      * rewrite Y in F. rewrite (H2 n X F) in LE. lia.
      * destruct NE. eapply belongs_unique; [exact RC|exact Y|exact X].
      * exfalso. eapply (belongs_not_making dyn s t' n t f); eauto; [rewrite Hst; now left|]. unfold making. now rewrite Y1.
Qed.

Lemma fini_once dyn s t : reach dyn fini_safe s -> t <> MAIN -> count (fini_thread_of t) (s_tr s) <= 1.
Proof. intros R NM. destruct (once_reach _ _ R t NM) as [A _]. unfold fini_count in A. lia. Qed.
