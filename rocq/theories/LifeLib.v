(** The end of the library, in schedules that satisfy [library_ends]. *)
From Verif Require Export LifeLibSpec LifeRunB.

Local Open Scope nat_scope.

Lemma lib_orderly dyn s : reach dyn library_ends s -> reach dyn orderly s.
Proof. apply reach_weaken. intros s' t c H. exact (proj1 H). Qed.

Lemma lib_any dyn s : reach dyn library_ends s -> reach dyn any s.
Proof. intros R. apply orderly_any. now apply lib_orderly. Qed.

(** ** The flag is cleared only before exit begins *)

Lemma lib_flags dyn t u g tsd nc f c e : frame_step dyn t u g tsd nc f c = Some e ->
  (g_initp g = true -> g_initp (e_g e) = true) /\
  (g_cookie g = true -> g_cookie (e_g e) = true) /\
  (g_cookie (e_g e) = true -> g_cookie g = true \/ exists h n, f = FEPCas h n /\ c = CStep) /\
  (forall f', In f' (e_fr e) -> in_begin_process f' = true ->
     in_begin_process f' = true /\ (f' = f \/ in_begin_process f = true \/ g_initp g = false \/ c = CChild)) /\
  (forall st f', e_new e = Some st -> In f' st -> in_begin_process f' = false).
Proof.
  intros H. repeat split; intros; try assumption; fs_cases H; brk H; inversion H; subst; clear H; cbn in *; auto; try discriminate;
    repeat match goal with
    | X : _ \/ _ |- _ => destruct X as [X|X]; try subst; cbn in *; auto
    | X : Some _ = Some _ |- _ => inversion X; subst; clear X; cbn in *
    | X : False |- _ => destruct X
    end; try discriminate; auto; try (g_brk; auto; fail).
  all: try (right; eauto; fail).
  all: unfold reset_list in *; repeat match goal with
    | X : context [if ?b then _ else _] |- _ => destruct b eqn:?; cbn in *; auto; try discriminate
    | X : context [match ?b with _ => _ end] |- _ => destruct b; cbn in *; auto; try discriminate
    | |- context [if ?b then _ else _] => destruct b eqn:?; cbn in *; auto; try discriminate
    end; auto.
Qed.

Lemma existsb_in A (p : A -> bool) l x : In x l -> p x = true -> existsb p l = true.
Proof. intros. apply existsb_exists. eauto. Qed.

Definition begin_inv (s : state) : Prop :=
  (g_cookie (s_g s) = true -> g_initp (s_g s) = true) /\
  (forall t f, In f (th_stack (s_th s t)) -> in_begin_process f = true -> g_cookie (s_g s) = false).

Lemma begin_reach dyn s : reach dyn library_ends s -> begin_inv s.
Proof.
  apply reach_invariant.
  - split; [discriminate|]. intros t f _ _. reflexivity.
  - clear s. intros s t c s' R HI HO HS. destruct HI as [HA HB]. apply step_view in HS. destruct HS as (_ & LV & V).
    assert (PUSH : forall st, s_g s' = s_g s -> (forall u, th_stack (s_th s' u) = if Z.eqb u t then st else th_stack (s_th s u)) ->
       (forall f, In f st -> In f (th_stack (s_th s t)) \/ in_begin_process f = false) -> begin_inv s').
    { intros st G S P. split; rewrite G; [exact HA|]. intros u f I B. rewrite S in I. destruct (Z.eqb_spec u t); [subst u|eauto].
      destruct (P f I) as [X|X]; [eauto|congruence]. }
    assert (UW : forall st f, In f (unwind st) -> in_begin_process f = false).
    { intros st f I. destruct (unwind_shape st) as [U|(n & f0 & U & _)]; rewrite U in I; cbn in I;
        repeat (destruct I as [<-|I]; [reflexivity|]); destruct I. }
    destruct V as [| | | | | | |f r e Hst Hun Hbar Hfs Es'].
    1-7: subst; eapply PUSH; [reflexivity| |];
      [intros u; unfold add_ev; cbn [set_th s_th]; rewrite upd_if; destruct (Z.eqb u t); reflexivity|].
    1-7: cbn; intros x I; repeat (destruct I as [<-|I]; [right; reflexivity|]); try (destruct I; fail); eauto.
    subst s'. destruct (lib_flags _ _ _ _ _ _ _ _ _ Hfs) as (F1 & F2 & F3 & F4 & F5).
    destruct HO as (OR & _ & _ & IB).
    assert (WIN : g_cookie (e_g e) = true -> g_cookie (s_g s) = true \/
       (g_initp (s_g s) = true /\ forall u, existsb in_begin_process (th_stack (s_th s u)) = false)).
    { intros K. destruct (F3 K) as [X|(h & n & -> & ->)]; [now left|].
      destruct (g_cookie (s_g s)) eqn:CK; [now left|right]. 
      split; [exact (proj1 (IB h n r 0%Z Hst eq_refl CK))|]. intros u. exact (proj2 (IB h n r u Hst eq_refl CK)). }
    split; rewrite apply_g.
    + intros K. destruct (WIN K) as [X|[X _]]; auto.
    + intros u f' I' B. destruct (g_cookie (e_g e)) eqn:K; [exfalso|reflexivity].
      assert (OLD : ~ exists u f, In f (th_stack (s_th s u)) /\ in_begin_process f = true).
      { intros (v & x & I & P). destruct (WIN eq_refl) as [X|[_ X]].
        - rewrite (HB v x I P) in X. discriminate.
        - specialize (X v). rewrite (existsb_in _ _ _ _ I P) in X. discriminate. }
      assert (TOP : In f' (e_fr e) -> False).
      { intros D. destruct (F4 f' D B) as (_ & [->|[X|[X|X]]]).
        - apply OLD. exists t, f. rewrite Hst. split; [now left|exact B].
        - apply OLD. exists t, f. rewrite Hst. split; [now left|exact X].
        - destruct (WIN eq_refl) as [Y|[Y _]]; [specialize (HA Y)|]; congruence.
        - subst c. destruct OR as (_ & EF & _). specialize (EF eq_refl).
          destruct (WIN eq_refl) as [Y|[_ Y]]; [congruence|].
          destruct (F3 eq_refl) as [Z1|(h & n & _ & Z1)]; [congruence|discriminate]. }
      destruct (e_child e) eqn:HC.
      * destruct (child_shape _ _ _ _ _ _ _ _ _ Hfs HC) as (_ & _ & _ & _ & _ & HN & HK & _).
        rewrite apply_stack_child in I' by auto. destruct (Z.eqb_spec u t); [|destruct I'].
        apply in_app_or in I'. destruct I' as [I'|I']; [auto|]. apply OLD. exists t, f'. rewrite Hst. split; [now right|exact B].
      * destruct (stack_after s t f r e u f' Hst HC I') as [(E & [D|D])|[(NE & D)|(st & EN & E & D)]].
        -- auto.
        -- apply OLD. exists t, f'. rewrite Hst. split; [now right|exact B].
        -- apply OLD. eauto.
        -- rewrite (F5 st f' EN D) in B. discriminate.
Qed.

(** ** fini_process has returned only after exit began *)

Definition Qck (g : glob) (tr : list event) (t : Z) (f : frame) : Prop :=
  match f with
  | FEPWin _ _ | FEPBegin _ | FEPFini _ => g_cookie g = true
  | FCb (CbFiniProcess _ _) _ | FCb _ (KBeginExit _) => g_cookie g = true
  | _ => True
  end.

Lemma ck_frames dyn s : reach dyn any s -> fr_inv Qck s.
Proof.
  apply fr_reach.
  - intros t f I. cbn in I. rewrite upd_if in I. destruct (Z.eqb t MAIN); [|destruct I].
    cbn in I. repeat destruct I as [<-|I]; try exact I. all: destruct I.
  - intros g tr t f e t' _ H. exact H.
  - intros g tr t f I. cbn in I. repeat destruct I as [<-|I]; try exact I. all: destruct I.
  - intros. exact I.
  - intros s0 t c f r e R FI _ Hst LV Hfs.
    pose proof (proj1 (proj2 (lib_flags _ _ _ _ _ _ _ _ _ Hfs))) as CK.
    assert (KEEP : forall t' f', Qck (s_g s0) (s_tr s0) t' f' -> Qck (e_g e) (e_ev e ++ s_tr s0) t' f').
    { intros t' f' Q. unfold Qck in *. destruct f'; auto. destruct c0, k; auto. }
    split; [|split].
    + pose proof (FI t f) as Q. rewrite Hst in Q. specialize (Q (or_introl eq_refl)).
      clear FI KEEP R Hst LV. q_step; intros f' I'; cbn in I';
        repeat (destruct I' as [<-|I']; [cbn in *; try exact I; auto; try tauto|]);
        try (destruct I'; fail). destruct c; exact Q.
    + auto.
    + clear - Hfs. intros st f' EN I'. q_step; cbn in EN; try discriminate EN; inversion EN; subst; cbn in I';
        repeat (destruct I' as [<-|I']; [exact I|]); destruct I'.
Qed.

Lemma finished_cookie dyn s : reach dyn any s -> finished (s_tr s) -> g_cookie (s_g s) = true.
Proof.
  intros R [(w & how & d & v & I)|(w & I & _)]; [|eapply cookie_win; eauto].
  revert s R w how d v I.
  apply (reach_invariant dyn any (fun s => forall w how d v, In (ERet w (CbFiniProcess how d) v) (s_tr s) -> g_cookie (s_g s) = true)); [intros ? ? ? ? []|].
  intros s t c s' R HI _ HS w how d v I. pose proof (ck_frames _ _ R) as Q. apply step_view in HS. destruct HS as (_ & LV & V).
  destruct V as [| | | | | | |f r e Hst Hun Hbar Hfs Es']; subst;
    try (cbn in I |- *; try (destruct I as [I|I]; [discriminate I|]); eauto; fail).
  rewrite apply_tr in I. rewrite apply_g.
  pose proof (proj1 (proj2 (lib_flags _ _ _ _ _ _ _ _ _ Hfs))) as CK.
  apply in_app_or in I. destruct I as [I|I]; [|eauto].
  specialize (Q t f). rewrite Hst in Q. specialize (Q (or_introl eq_refl)).
  apply CK. clear - Hfs I Q. q_step; cbn in I;
    repeat match type of I with context [if ?b then _ else _] => destruct b; cbn in I end;
    repeat (destruct I as [I|I]; [try discriminate I|]); try (destruct I; fail);
    inversion I; subst; exact Q.
Qed.

(** ** At most once *)

Definition wF (f : frame) : nat := match f with FFiniLib => 1 | _ => 0 end.
Definition wL (f : frame) : nat :=
  match f with FEndLibSet => 1 | FCb _ KFiniLibrary => 1 | _ => 0 end.

Lemma w_in_end f : in_end_library f = false -> wF f = 0 /\ wL f = 0.
Proof. destruct f; cbn; auto; try discriminate. destruct k; auto; discriminate. Qed.

Lemma w_in_ends st : existsb in_end_library st = false -> wsum wF st = 0 /\ wsum wL st = 0.
Proof.
  induction st as [|f r IH]; [auto|]. cbn. intros H. apply Bool.orb_false_iff in H. destruct H as [A B].
  destruct (IH B). destruct (w_in_end _ A). lia.
Qed.

Lemma w_in_ends_pos st : existsb in_end_library st = true -> 1 <= wsum wF st + wsum wL st.
Proof.
  induction st as [|f r IH]; [discriminate|]. cbn. intros H. apply Bool.orb_true_iff in H. destruct H as [A|B].
  - destruct f; try discriminate A; cbn; try lia. destruct k; try discriminate A. cbn. lia.
  - specialize (IH B). lia.
Qed.

Lemma lib_local dyn t u g tsd nc f c e : frame_step dyn t u g tsd nc f c = Some e ->
  (forall st, e_new e = Some st -> wsum wF st = 0 /\ wsum wL st = 0) /\
  ((f = FEndLib /\ c = CStep /\ g_libdone g = false /\ e_g e = g /\ wsum wF (e_fr e) = 1 /\ wsum wL (e_fr e) = 0 /\ count is_fini_library (e_ev e) = 0) \/
   (f = FFiniLib /\ e_g e = g /\ wsum wF (e_fr e) = 0 /\ wsum wL (e_fr e) = 1 /\ count is_fini_library (e_ev e) = 1) \/
   (f = FEndLibSet /\ g_libdone (e_g e) = true /\ wsum wF (e_fr e) = 0 /\ wsum wL (e_fr e) = 0 /\ count is_fini_library (e_ev e) = 0) \/
   (in_begin_process f = true /\ wsum wF (e_fr e) = 0 /\ wsum wL (e_fr e) = 0 /\ count is_fini_library (e_ev e) = 0) \/
   (g_libdone (e_g e) = g_libdone g /\ wsum wF (e_fr e) = wF f /\ wsum wL (e_fr e) = wL f /\ count is_fini_library (e_ev e) = 0)).
Proof.
  intros H. split.
  - intros st EN. fs_cases H; brk H; inversion H; subst; clear H; cbn in EN; try discriminate EN; inversion EN; auto.
  - fs_cases H; brk H; inversion H; subst; clear H; cbn; auto 10;
      try (right; right; right; right; repeat split; g_brk; auto; fail).
Qed.

Definition lib_inv (s : state) : Prop :=
  exists w, (forall t, t <> w -> wsum wF (th_stack (s_th s t)) = 0 /\ wsum wL (th_stack (s_th s t)) = 0) /\
    let F := wsum wF (th_stack (s_th s w)) in let L := wsum wL (th_stack (s_th s w)) in
    let n := count is_fini_library (image (s_tr s)) in
    F + n <= 1 /\ F + L <= 1 /\ n <= b2n (g_libdone (s_g s)) + L.

Lemma image_in e tr : In e (image tr) -> In e tr.
Proof. induction tr as [|x r IH]; [auto|]. destruct x; cbn; intros H; try (destruct H as [H|H]; auto); destruct H. Qed.

Lemma count_pos p tr : 1 <= count p tr -> exists e, In e tr /\ p e = true.
Proof.
  induction tr as [|x r IH]; cbn; [lia|]. destruct (p x) eqn:P; [eauto|]. intros H. destruct (IH H) as (e & I & Q). eauto.
Qed.

Lemma lib_cookie dyn s : reach dyn library_ends s -> g_cookie (s_g s) = false -> count is_fini_library (image (s_tr s)) = 0.
Proof.
  intros R CK. destruct (count is_fini_library (image (s_tr s))) as [|k] eqn:C; [reflexivity|exfalso].
  destruct (count_pos is_fini_library (image (s_tr s))) as (x & I & P); [lia|].
  apply image_in in I. apply in_split in I. destruct I as (a & b & E).
  pose proof (past_hist _ _ (lib_orderly _ _ R) a x b E) as J.
  destruct x; try discriminate P. cbn in P. destruct c; try discriminate P. cbn in J.
  assert (FI : finished (s_tr s)).
  { rewrite E. apply (finished_mono _ (a ++ [ECall t CbFiniLibrary])) in J. now rewrite <- app_assoc in J. }
  rewrite (finished_cookie _ _ (lib_any _ _ R) FI) in CK. discriminate.
Qed.

Lemma lib_reach dyn s : reach dyn library_ends s -> lib_inv s.
Proof.
  apply reach_invariant.
  - exists MAIN. cbn. split; [|lia]. intros t N. rewrite upd_other by auto. auto.
  - clear s. intros s t c s' R HI HO HS. pose proof R as R0. apply step_view in HS. destruct HS as (_ & LV & V).
    assert (PUSH : forall st, s_g s' = s_g s -> (forall u, th_stack (s_th s' u) = if Z.eqb u t then st else th_stack (s_th s u)) ->
       count is_fini_library (image (s_tr s')) = count is_fini_library (image (s_tr s)) ->
       wsum wF st = wsum wF (th_stack (s_th s t)) -> wsum wL st = wsum wL (th_stack (s_th s t)) -> lib_inv s').
    { intros st G S C E1 E2. destruct HI as (w & A & B). exists w. rewrite G, C. split.
      - intros u N. rewrite S. destruct (Z.eqb_spec u t); [subst u|auto]. rewrite E1, E2. auto.
      - rewrite S. destruct (Z.eqb_spec w t); [subst w|exact B]. rewrite E1, E2. exact B. }
    assert (UW : forall st, wsum wF (unwind st) = 0 /\ wsum wL (unwind st) = 0).
    { intros st. destruct (unwind_shape st) as [U|(n & f0 & U & _)]; rewrite U; auto. }
    destruct HO as (OR & EA & EF & _).
    destruct V as [| | | | | | |f r e Hst Hun Hbar Hfs Es'].
    1-7: subst; eapply PUSH; [reflexivity| | | |];
      [intros u; unfold add_ev; cbn [set_th s_th]; rewrite upd_if; destruct (Z.eqb u t); reflexivity|reflexivity|..].
    1-14: cbn [with_stack th_stack wsum wF wL add_ev set_th]; try reflexivity.
    1-4: cbn; destruct (existsb in_end_library (th_stack (s_th s t))) eqn:X;
      [destruct (EF X) as [Y1 Y2]; exfalso; first [apply Y1; reflexivity | eapply Y2; [eassumption|reflexivity]]|
       destruct (w_in_ends _ X) as [E1 E2]; rewrite ?E1, ?E2; try apply UW].
    1-2: cbn; rewrite H0; reflexivity.
    all: idtac.
    subst s'. destruct (lib_local _ _ _ _ _ _ _ _ _ Hfs) as (NW & L).
    destruct (e_child e) eqn:HC.
    + destruct (child_shape _ _ _ _ _ _ _ _ _ Hfs HC) as (_ & G & _ & _ & EV & HN & HK & SH).
      destruct HI as (w & A & B). exists w. rewrite apply_tr, EV. cbn [app image count].
      assert (W : forall u, wsum wF (th_stack (s_th (apply_eff s t (s_th s t) r e) u)) <= wsum wF (th_stack (s_th s u)) /\
                            wsum wL (th_stack (s_th (apply_eff s t (s_th s t) r e) u)) <= wsum wL (th_stack (s_th s u))).
      { intros u. rewrite apply_stack_child by auto. destruct (Z.eqb_spec u t); [subst u|cbn; lia].
        rewrite Hst, !wsum_app. destruct SH as [(d & -> & ->)|(-> & ->)]; cbn; lia. }
      split; [|specialize (W w); cbn in B |- *; lia].
      intros u N. specialize (A u N). specialize (W u). lia.
    + pose proof (no_fork_ev _ _ _ _ _ _ _ _ _ Hfs HC) as NF.
      assert (IM : count is_fini_library (image (s_tr (apply_eff s t (s_th s t) r e))) =
              count is_fini_library (e_ev e) + count is_fini_library (image (s_tr s))).
      { rewrite apply_tr, image_app by auto. rewrite !count_wsum, wsum_app. reflexivity. }
      pose proof (born_reach _ _ (lib_any _ _ R0)) as BR.
      pose proof (apply_g s t (s_th s t) r e) as SG.
      assert (OT : forall u, u <> t ->
              wsum wF (th_stack (s_th (apply_eff s t (s_th s t) r e) u)) = wsum wF (th_stack (s_th s u)) /\
              wsum wL (th_stack (s_th (apply_eff s t (s_th s t) r e) u)) = wsum wL (th_stack (s_th s u))).
      { intros u N. rewrite apply_stack by auto. destruct (e_new e) as [st|] eqn:EN.
        - destruct (Z.eqb_spec u (s_next s)) as [E|].
          + destruct (NW st eq_refl) as [-> ->].
            assert (X : th_live (s_th s u) = false) by (apply (born_fresh _ BR); lia).
            rewrite (born_dead _ BR u X). auto.
          + destruct (Z.eqb_spec u t); [contradiction|auto].
        - destruct (Z.eqb_spec u t); [contradiction|auto]. }
      assert (ME : th_stack (s_th (apply_eff s t (s_th s t) r e) t) = e_fr e ++ r).
      { rewrite apply_stack by auto. destruct (e_new e) as [st|] eqn:EN.
        - destruct (Z.eqb_spec t (s_next s)) as [E|]; [|now rewrite Z.eqb_refl].
          exfalso. pose proof (born_fresh _ BR t) as X. rewrite LV in X.
          specialize (X ltac:(lia)). destruct X as (_ & X & _). discriminate.
        - now rewrite Z.eqb_refl. }
      assert (OLD : wsum wF (th_stack (s_th s t)) = wF f + wsum wF r /\ wsum wL (th_stack (s_th s t)) = wL f + wsum wL r)
        by (rewrite Hst; auto).
      assert (NEW : wsum wF (th_stack (s_th (apply_eff s t (s_th s t) r e) t)) = wsum wF (e_fr e) + wsum wF r /\
                    wsum wL (th_stack (s_th (apply_eff s t (s_th s t) r e) t)) = wsum wL (e_fr e) + wsum wL r)
        by (rewrite ME, !wsum_app; auto).
      destruct HI as (w & A & B). cbv zeta in B. clear PUSH UW EF OR Hun Hbar Hfs NW NF ME BR.
      generalize dependent (apply_eff s t (s_th s t) r e). intros s' IM SG OT NEW.
      assert (SAME : g_libdone (e_g e) = g_libdone (s_g s) \/ count is_fini_library (image (s_tr s)) = 0 ->
         wsum wF (e_fr e) = wF f -> wsum wL (e_fr e) = wL f -> count is_fini_library (e_ev e) = 0 ->
         lib_inv s').
      { intros LD E1 E2 E3. exists w. cbv zeta. rewrite IM, SG, E3.
        split.
        - intros u N. specialize (A u N). destruct (Z.eq_dec u t) as [->|NE]; [|specialize (OT u NE)]; lia.
        - destruct (Z.eq_dec w t) as [->|NE]; [|specialize (OT w NE)]; (destruct LD as [->|LD]; [|rewrite LD in *]; lia). }
      assert (WT : 1 <= wsum wF (th_stack (s_th s t)) + wsum wL (th_stack (s_th s t)) -> w = t).
      { intros X. destruct (Z.eq_dec w t); [auto|]. specialize (A t ltac:(auto)). lia. }
      destruct L as [(-> & -> & LD & G & E1 & E2 & E3)|[(-> & G & E1 & E2 & E3)|[(-> & LD & E1 & E2 & E3)|[(P & E1 & E2 & E3)|(LD & E1 & E2 & E3)]]]].
      * assert (Z0 : forall u, wsum wF (th_stack (s_th s u)) = 0 /\ wsum wL (th_stack (s_th s u)) = 0).
        { intros u. apply w_in_ends. exact (EA r u Hst eq_refl). }
        exists t. cbv zeta. rewrite IM, SG, E3. split.
        -- intros u N. specialize (OT u N). specialize (Z0 u). lia.
        -- pose proof (Z0 t). pose proof (Z0 w). rewrite LD in B. cbn [b2n] in B. lia.
      * cbn [wF wL] in *. pose proof (WT ltac:(lia)) as EW. subst w.
        exists t. cbv zeta. rewrite IM, SG, E3, G. split.
        -- intros u N. specialize (OT u N). specialize (A u N). lia.
        -- lia.
      * cbn [wF wL] in *. pose proof (WT ltac:(lia)) as EW. subst w.
        exists t. cbv zeta. rewrite IM, SG, E3, LD. split.
        -- intros u N. specialize (OT u N). specialize (A u N). lia.
        -- cbn [b2n]. lia.
      * assert (X : wF f = 0 /\ wL f = 0) by (destruct f; cbn in *; auto; discriminate).
        apply SAME; try lia. right. apply (lib_cookie _ _ R0).
        apply (proj2 (begin_reach _ _ R0) t f); [rewrite Hst; now left|exact P].
      * apply SAME; auto.
Qed.

(** ** Executable form, for the examples *)

Lemma low_reach dyn s : reach dyn any s -> forall t, (t < 1)%Z -> th_live (s_th s t) = false.
Proof.
  intros R0. assert (RA := R0). revert R0.
  apply (reach_invariant dyn any (fun s => forall t, (t < 1)%Z -> th_live (s_th s t) = false)).
  - intros t L. cbn. rewrite upd_other by (unfold MAIN; lia). reflexivity.
  - clear s RA. intros s t c s' R HI _ HS u L. apply step_view in HS. destruct HS as (_ & LV & V).
    assert (NE : u <> t) by (intros ->; rewrite (HI t L) in LV; discriminate).
    destruct V as [| | | | | | |f r e Hst Hun Hbar Hfs Es']; subst.
    1-7: unfold add_ev; cbn [set_th s_th]; rewrite upd_other by auto; auto.
    destruct (e_child e) eqn:HC.
    + destruct (child_shape _ _ _ _ _ _ _ _ _ Hfs HC) as (_ & _ & _ & _ & _ & HN & HK & _).
      unfold apply_eff. rewrite HC, HN, HK. cbn. rewrite upd_other by auto. reflexivity.
    + rewrite apply_live by auto. pose proof (born_next _ (born_reach _ _ R)).
      destruct (Z.eqb_spec u t); [contradiction|].
      destruct (e_new e); [|auto]. destruct (Z.eqb_spec u (s_next s)); [lia|auto].
Qed.

(** No thread has a frame that satisfies [p]. *)
Definition none_b (p : frame -> bool) (s : state) : bool :=
  forallb (fun k => negb (existsb p (th_stack (s_th s (Z.of_nat k))))) (seq 1 (Z.to_nat (s_next s))).
Lemma none_b_ok dyn p s : reach dyn any s -> none_b p s = true -> forall u, existsb p (th_stack (s_th s u)) = false.
Proof.
  intros R H u. pose proof (born_reach _ _ R) as BR. unfold none_b in H. rewrite forallb_forall in H.
  destruct (Z_lt_le_dec u 1) as [L|L].
  - rewrite (born_dead _ BR u (low_reach _ _ R u L)). reflexivity.
  - destruct (Z_lt_le_dec u (s_next s)) as [M|M].
    + specialize (H (Z.to_nat u)). rewrite in_seq in H. rewrite Z2Nat.id in H by lia.
      apply Bool.negb_true_iff. apply H. lia.
    + destruct (born_fresh _ BR u M) as (-> & _). reflexivity.
Qed.

Definition library_b (s : state) (t : Z) (c : choice) : bool :=
  orderly_b s t c &&
  match th_stack (s_th s t), c with
  | FEndLib :: _, CStep => none_b in_end_library s
  | FEPCas _ _ :: _, CStep => g_cookie (s_g s) || (g_initp (s_g s) && none_b in_begin_process s)
  | _, _ => true
  end &&
  (negb (existsb in_end_library (th_stack (s_th s t))) ||
   match th_stack (s_th s t), c with
   | FUnwind :: _, CStep => false
   | _, CCancel => false
   | _, _ => true
   end).

Lemma library_b_ok dyn s t c : reach dyn any s -> library_b s t c = true -> library_ends s t c.
Proof.
  intros R H. unfold library_b in H. apply andb_prop in H. destruct H as [H C]. apply andb_prop in H. destruct H as [A B].
  split; [now apply orderly_b_ok|]. split; [|split].
  - intros r u E ->. rewrite E in B. eapply none_b_ok; eauto.
  - intros E. rewrite E in C. cbn in C. split.
    + intros ->. destruct (th_stack (s_th s t)) as [|f r]; [discriminate E|]. destruct f; discriminate C.
    + intros r E' ->. rewrite E' in C. discriminate.
  - intros how tn r u E -> CK. rewrite E, CK in B. cbn in B. apply andb_prop in B. destruct B as [B1 B2].
    split; [exact B1|]. eapply none_b_ok; eauto.
Qed.

Lemma library_run dyn l s : run_ok library_b dyn init l = Some s -> reach dyn library_ends s.
Proof.
  intros H. enough (X : forall s0, reach dyn library_ends s0 -> run_ok library_b dyn s0 l = Some s -> reach dyn library_ends s)
    by (eapply X; [apply reach_init|exact H]).
  clear H. induction l as [|[t c] l IH]; intros s0 R E; cbn in E.
  - inversion E; subst. exact R.
  - destruct (library_b s0 t c) eqn:O; [|discriminate].
    destruct (step dyn s0 t c) as [s1|] eqn:S; [|discriminate].
    eapply IH; [|exact E]. eapply reach_step; eauto. eapply library_b_ok; [eapply lib_any; exact R|exact O].
Qed.
