(** Ownership of thread nodes and the two lists. *)
From Verif Require Export LifeLock.

Local Open Scope nat_scope.

(** ** Who exists *)

(** Frames of a created thread's own function. *)
Definition bt_frame (f : frame) : bool :=
  match f with
  | FBT _ _ | FClean _ _ => true
  | FCb _ (KInitThread _) | FCb _ (KFiniCleanup _) => true
  | _ => false
  end.

Record who_inv (s : state) : Prop := mkwho {
  who_next : (2 <= s_next s)%Z;
  who_fresh : forall t, (s_next s <= t)%Z -> th_stack (s_th s t) = [] /\ th_live (s_th s t) = false;
  who_dead : forall t, th_live (s_th s t) = false -> th_stack (s_th s t) = [];
  who_create : forall t f, In f (th_stack (s_th s t)) -> creating f = true -> g_used (s_g s) = true;
  who_alone : g_used (s_g s) = false -> forall t, t <> MAIN -> th_live (s_th s t) = false;
  who_reset : forall t, existsb resetting (th_stack (s_th s t)) = true ->
      t = MAIN /\ (exists f r, th_stack (s_th s t) = f :: r /\ resetting f = true /\
                    existsb resetting r = false /\ existsb creating r = false) /\
      (forall t', t' <> MAIN -> th_live (s_th s t') = false);
  who_bt : forall f, In f (th_stack (s_th s MAIN)) -> bt_frame f = false
}.

Lemma used_local dyn t u g tsd nc f c e :
  frame_step dyn t u g tsd nc f c = Some e ->
  (g_used g = true -> resetting f = false -> g_used (e_g e) = true) /\
  (g_used g = false -> existsb creating (e_fr e) = true ->
     creating f = true \/ g_used (e_g e) = true) /\
  (g_used g = true \/ g_used (e_g e) = g_used g \/ g_used (e_g e) = true).
Proof.
  intros H. fs_cases H; brk H; inversion H; subst; clear H; cbn; repeat split; intros; try discriminate; auto;
    unfold reset_list in *; g_brk; cbn; auto; try congruence; destruct (g_used g); auto.
Qed.

Lemma reset_local dyn t u g tsd nc f c e :
  frame_step dyn t u g tsd nc f c = Some e -> e_child e = false ->
  (resetting f = false -> existsb resetting (e_fr e) = false) /\
  (resetting f = true -> existsb creating (e_fr e) = false /\
     (e_fr e = [] \/ exists x, e_fr e = [x] )) /\
  (e_new e <> None -> creating f = true) /\
  (forall st, e_new e = Some st -> existsb resetting st = false /\ existsb creating st = false) /\
  (bt_frame f = false -> existsb bt_frame (e_fr e) = false).
Proof.
  intros H HC. fs_cases H; brk H; inversion H; subst; clear H; cbn in HC |- *; try discriminate HC;
    repeat split; intros; try discriminate; auto;
    repeat match goal with
    | H : Some _ = Some _ |- _ => inversion H; subst; clear H
    | H : None <> None |- _ => destruct H; reflexivity
    end; try reflexivity; try (left; reflexivity); try (right; eexists; reflexivity); now rewrite orb_false_r.
Qed.

Lemma unwind_fine (p : frame -> bool) st :
  p (FApp AppTsd) = false -> (forall n, p (FClean CLChk n) = false) -> existsb p (unwind st) = false.
Proof.
  intros A B. destruct (unwind_shape st) as [U|(n & f & U & _)]; rewrite U; cbn; rewrite ?A, ?B; reflexivity.
Qed.

Lemma existsb_false_in (p : frame -> bool) st f : existsb p st = false -> In f st -> p f = false.
Proof.
  intros E I. destruct (p f) eqn:P; [|reflexivity].
  assert (X : existsb p st = true) by (apply existsb_exists; eauto). congruence.
Qed.
Lemma existsb_false_all (p : frame -> bool) st : (forall f, In f st -> p f = false) -> existsb p st = false.
Proof.
  intros H. destruct (existsb p st) eqn:E; [|reflexivity].
  apply existsb_exists in E. destruct E as (f & I & P). rewrite (H f I) in P. discriminate.
Qed.

(** Steps that only replace the stack of a live thread by one with harmless frames
    on top, or by an unwound one. *)
Lemma who_stack s t st : who_inv s -> th_live (s_th s t) = true ->
  existsb resetting (th_stack (s_th s t)) = false ->
  (forall f, In f st -> In f (th_stack (s_th s t)) \/
       (creating f = false /\ resetting f = false /\ (t = MAIN -> bt_frame f = false))) ->
  forall s', s_g s' = s_g s -> s_next s' = s_next s ->
   (forall t', t' <> t -> s_th s' t' = s_th s t') -> th_stack (s_th s' t) = st ->
   th_live (s_th s' t) = true -> who_inv s'.
Proof.
  intros W LV NR H s' G N O ST LV'.
  assert (OS : forall t', t' <> t -> th_stack (s_th s' t') = th_stack (s_th s t')) by (intros; now rewrite O).
  constructor.
  - rewrite N. exact (who_next _ W).
  - rewrite N. intros t' L. destruct (Z.eq_dec t' t) as [->|X].
    + destruct (who_fresh _ W t L). congruence.
    + rewrite O by auto. exact (who_fresh _ W t' L).
  - intros t' L. destruct (Z.eq_dec t' t) as [->|X]; [congruence|].
    rewrite O in * by auto. exact (who_dead _ W t' L).
  - rewrite G. intros t' f I C. destruct (Z.eq_dec t' t) as [->|X].
    + rewrite ST in I. destruct (H f I) as [J|(J & _)]; [eapply who_create; eauto|congruence].
    + rewrite OS in I by auto. eapply who_create; eauto.
  - rewrite G. intros U t' X. destruct (Z.eq_dec t' t) as [->|Y].
    + pose proof (who_alone _ W U t X). congruence.
    + rewrite O by auto. exact (who_alone _ W U t' X).
  - intros t' E. destruct (Z.eq_dec t' t) as [->|X].
    + exfalso. rewrite ST in E. rewrite existsb_false_all in E; [discriminate|].
      intros f I. destruct (H f I) as [J|(_ & J & _)]; [|exact J]. eapply existsb_false_in; eauto.
    + rewrite OS in E by auto. destruct (who_reset _ W t' E) as (A & B & C).
      assert (t <> MAIN) by congruence. rewrite C in LV by auto. discriminate.
  - intros f I. destruct (Z.eq_dec MAIN t) as [E|X].
    + subst t. rewrite ST in I. destruct (H f I) as [J|(_ & _ & J)]; auto. eapply who_bt; eauto.
    + rewrite OS in I by auto. eapply who_bt; eauto.
Qed.

Lemma who_reach dyn s : reach dyn clean_forks s -> who_inv s.
Proof.
  apply reach_invariant.
  - constructor; cbn.
    + lia.
    + intros t L. rewrite upd_if. destruct (Z.eqb_spec t MAIN); [subst; unfold MAIN in L; lia|auto].
    + intros t. rewrite upd_if. destruct (Z.eqb_spec t MAIN); [discriminate|auto].
    + intros t f I. rewrite upd_if in I. destruct (Z.eqb t MAIN); [|destruct I]. cbn in I.
      repeat (destruct I as [<-|I]; [discriminate|]). destruct I.
    + intros _ t N. rewrite upd_if. destruct (Z.eqb_spec t MAIN); [contradiction|auto].
    + intros t E. rewrite upd_if in E. destruct (Z.eqb t MAIN); discriminate.
    + intros f I. 
      repeat (destruct I as [<-|I]; [reflexivity|]). destruct I.
  - clear s. intros s t c s' R HI [HO1 HO2] HS. apply step_view in HS. destruct HS as (_ & LV & V).
    assert (NR : c <> CStep -> existsb resetting (th_stack (s_th s t)) = false).
    { intros N. destruct (existsb resetting (th_stack (s_th s t))); auto. specialize (HO2 eq_refl). congruence. }
    destruct V as [| | | | | | |f r e Hst Hun Hbar Hfs Es']; subst.
    + apply (who_stack s t (FApp AppHandler :: th_stack (s_th s t))); [exact HI|exact LV|apply NR; discriminate| |reflexivity|reflexivity
        |intros t' N; cbn; now apply upd_other|cbn; now rewrite upd_same|cbn; now rewrite upd_same].
      intros f [<-|I]; [right; auto|left; exact I].
    + apply (who_stack s t (FEPGet EXIT_SIGNAL :: FEndLibDyn :: FSigEnd :: th_stack (s_th s t))); [exact HI|exact LV|apply NR; discriminate| |reflexivity|reflexivity
        |intros t' N; cbn; now apply upd_other|cbn; now rewrite upd_same|cbn; now rewrite upd_same].
      intros f [<-|[<-|[<-|I]]]; [right; auto..|left; exact I].
    + apply (who_stack s t (FHGet :: th_stack (s_th s t))); [exact HI|exact LV|apply NR; discriminate| |reflexivity|reflexivity
        |intros t' N; cbn; now apply upd_other|cbn; now rewrite upd_same|cbn; now rewrite upd_same].
      intros f [<-|I]; [right; auto|left; exact I].
    + apply (who_stack s t (FWGet :: th_stack (s_th s t))); [exact HI|exact LV|apply NR; discriminate| |reflexivity|reflexivity
        |intros t' N; cbn; now apply upd_other|cbn; now rewrite upd_same|cbn; now rewrite upd_same].
      intros f' [<-|I]; [right; auto|left; exact I].
    + apply (who_stack s t (unwind (th_stack (s_th s t)))); [exact HI|exact LV|apply NR; discriminate| |reflexivity|reflexivity
        |intros t' N; cbn; now apply upd_other|cbn; now rewrite upd_same|cbn; now rewrite upd_same].
      intros f' I. right.
      destruct (unwind_shape (th_stack (s_th s t))) as [U|(n & p & U & IB & P)]; rewrite U in I.
      * destruct I as [<-|[]]; auto.
      * destruct I as [<-|[<-|[]]]; auto. split; [reflexivity|]. split; [reflexivity|]. intros ->.
        pose proof (who_bt _ HI p IB) as X.
        destruct P as [(q & -> & _)|(q & ->)]; discriminate.
    + assert (NR' : existsb resetting (th_stack (s_th s t)) = false).
      { destruct (existsb resetting (th_stack (s_th s t))) eqn:E; auto.
        destruct (who_reset _ HI t E) as (_ & (f & r' & E1 & E2 & _) & _).
        rewrite H0 in E1. inversion E1; subst. discriminate. }
      apply (who_stack s t (unwind r)); [exact HI|exact LV|exact NR'| |reflexivity|reflexivity
        |intros t' N; cbn; now apply upd_other|cbn; now rewrite upd_same|cbn; now rewrite upd_same].
      intros f' I. right.
      destruct (unwind_shape r) as [U|(n & p & U & IB & P)]; rewrite U in I.
      * destruct I as [<-|[]]; auto.
      * destruct I as [<-|[<-|[]]]; auto. split; [reflexivity|]. split; [reflexivity|]. intros ->.
        assert (X : bt_frame p = false) by (apply (who_bt _ HI); rewrite H0; now right).
        destruct P as [(q & -> & _)|(q & ->)]; discriminate.
    + (* the thread ends *)
      unfold add_ev, set_th. cbn [s_g s_th s_next s_tr].
      assert (OS : forall t', th_stack (upd (s_th s) t (mkth [] (th_tsd (s_th s t)) false
                     (th_nc (s_th s t)) (th_pend (s_th s t))) t') = th_stack (s_th s t')).
      { intros t'. rewrite upd_if. destruct (Z.eqb_spec t' t); [subst; cbn; now rewrite H0|auto]. }
      assert (OL : forall t', th_live (s_th s t') = false ->
         th_live (upd (s_th s) t (mkth [] (th_tsd (s_th s t)) false
                     (th_nc (s_th s t)) (th_pend (s_th s t))) t') = false).
      { intros t' X. rewrite upd_if. destruct (Z.eqb_spec t' t); auto. }
      constructor; cbn [s_g s_th s_next s_tr].
      * exact (who_next _ HI).
      * intros t' L. rewrite OS. destruct (who_fresh _ HI t' L). auto.
      * intros t' L. rewrite OS. rewrite upd_if in L. destruct (Z.eqb_spec t' t); [subst; exact H0|].
        exact (who_dead _ HI t' L).
      * intros t' f I C. rewrite OS in I. eapply who_create; eauto.
      * intros U t' N. apply OL. exact (who_alone _ HI U t' N).
      * intros t' E. rewrite OS in E |- *. destruct (who_reset _ HI t' E) as (A & B & C).
        split; [exact A|]. split; [exact B|]. intros t'' N. apply OL. now apply C.
      * intros f I. rewrite OS in I. eapply who_bt; eauto.
    + destruct (e_child e) eqn:HC.
      * (* the child *)
        destruct (child_shape _ _ _ _ _ _ _ _ _ Hfs HC) as (CC & G & _ & _ & _ & HN & HK & SH).
        destruct (HO1 CC) as (TM & NCr). subst t.
        assert (NR' : existsb resetting (th_stack (s_th s MAIN)) = false) by (apply NR; congruence).
        rewrite Hst in NR', NCr. cbn [existsb] in NR', NCr.
        apply orb_false_iff in NR', NCr. destruct NR' as [_ NR'], NCr as [_ NCr].
        assert (ST : forall t', th_stack (s_th (apply_eff s MAIN (s_th s MAIN) r e) t') =
                     if Z.eqb t' MAIN then e_fr e ++ r else []).
        { intros. now apply apply_stack_child. }
        assert (LVs : forall t', t' <> MAIN ->
                 th_live (s_th (apply_eff s MAIN (s_th s MAIN) r e) t') = false).
        { intros t' N. unfold apply_eff. rewrite HC, HN, HK. cbn [s_th]. rewrite upd_other by auto. reflexivity. }
        assert (NX : s_next (apply_eff s MAIN (s_th s MAIN) r e) = s_next s).
        { unfold apply_eff. rewrite HN. reflexivity. }
        assert (FR : exists x y, e_fr e = x :: y /\ resetting x = true /\ existsb resetting y = false /\
                       existsb creating (e_fr e) = false /\ existsb bt_frame (e_fr e) = false).
        { destruct SH as [(d & _ & ->)|(_ & ->)]; do 2 eexists; repeat split. }
        destruct FR as (x & y & FR & RX & RY & CX & BX).
        constructor.
        -- rewrite NX. exact (who_next _ HI).
        -- rewrite NX. intros t' L. assert (t' <> MAIN) by (pose proof (who_next _ HI) as HN0; clear - HN0 L; unfold MAIN; lia).
           rewrite ST. destruct (Z.eqb_spec t' MAIN); [contradiction|]. auto.
        -- intros t' L. rewrite ST. destruct (Z.eqb_spec t' MAIN); [|reflexivity]. subst t'. exfalso.
           unfold apply_eff in L. rewrite HC, HN, HK in L. cbn [s_th] in L. rewrite upd_same in L. discriminate.
        -- intros t' f' I C. rewrite apply_g, G. rewrite ST in I. destruct (Z.eqb_spec t' MAIN); [|destruct I].
           apply in_app_or in I. destruct I as [I|I].
           ++ rewrite (existsb_false_in _ _ _ CX I) in C. discriminate.
           ++ rewrite (existsb_false_in _ _ _ NCr I) in C. discriminate.
        -- intros _ t' N. now apply LVs.
        -- intros t' E. rewrite ST in E. destruct (Z.eqb_spec t' MAIN); [|discriminate]. subst t'.
           split; [reflexivity|]. split; [|exact LVs].
           exists x, (y ++ r). rewrite ST, Z.eqb_refl, FR. split; [reflexivity|]. split; [exact RX|].
           rewrite FR in CX. cbn in CX. apply orb_false_iff in CX. destruct CX as [_ CY].
           rewrite !existsb_app, RY, NR', CY, NCr. auto.
        -- intros f' I. rewrite ST, Z.eqb_refl in I. apply in_app_or in I. destruct I as [I|I].
           ++ exact (existsb_false_in _ _ _ BX I).
           ++ apply (who_bt _ HI). rewrite Hst. now right.
      * (* an ordinary step *)
        destruct (used_local _ _ _ _ _ _ _ _ _ Hfs) as (U1 & U2 & U3).
        destruct (reset_local _ _ _ _ _ _ _ _ _ Hfs HC) as (R1 & R2 & R3 & R4 & R5).
        clear Hfs Hun Hbar HO1 HO2 NR.
        assert (TN : t <> s_next s).
        { intros ->. destruct (who_fresh _ HI (s_next s)); [apply Z.le_refl|congruence]. }
        assert (ST := fun t' => apply_stack s t (s_th s t) r e t' HC).
        assert (LVt : th_live (s_th (apply_eff s t (s_th s t) r e) t) = true).
        { rewrite apply_live, Z.eqb_refl by auto. destruct (e_new e); [|reflexivity].
          destruct (Z.eqb t (s_next s)); reflexivity. }
        assert (LVo : forall t', t' <> t -> t' <> s_next s ->
                 th_live (s_th (apply_eff s t (s_th s t) r e) t') = th_live (s_th s t')).
        { intros t' N1 N2. rewrite apply_live by auto.
          destruct (Z.eqb_spec t' (s_next s)); [contradiction|].
          destruct (Z.eqb_spec t' t); [contradiction|]. destruct (e_new e); reflexivity. }
        assert (LVn : th_live (s_th (apply_eff s t (s_th s t) r e) (s_next s)) = true -> e_new e <> None).
        { intros L X. rewrite apply_live, X in L by auto.
          destruct (Z.eqb_spec (s_next s) t); [congruence|].
          destruct (who_fresh _ HI (s_next s)) as [_ DL]; [apply Z.le_refl|]. congruence. }
        assert (NX : s_next (apply_eff s t (s_th s t) r e) =
                     match e_new e with Some _ => (s_next s + 1)%Z | None => s_next s end).
        { unfold apply_eff. destruct (e_new e); reflexivity. }
        assert (INS : forall t' f', In f' (th_stack (s_th (apply_eff s t (s_th s t) r e) t')) ->
          (t' = t /\ (In f' (e_fr e) \/ In f' r)) \/
          (t' <> t /\ t' <> s_next s /\ In f' (th_stack (s_th s t'))) \/
          (t' = s_next s /\ exists st, e_new e = Some st /\ In f' st)).
        { intros t' f' I. rewrite ST in I. destruct (Z.eqb_spec t' t) as [->|N].
          - left. split; [reflexivity|]. destruct (e_new e); [destruct (Z.eqb_spec t (s_next s)); [congruence|]|];
              apply in_app_or in I; exact I.
          - right. destruct (Z.eqb_spec t' (s_next s)) as [E|N2].
            + subst t'. right. split; [reflexivity|]. destruct (e_new e) as [st|]; [eauto|].
              destruct (who_fresh _ HI (s_next s)) as [E _]; [apply Z.le_refl|]. rewrite E in I. destruct I.
            + left. destruct (e_new e); auto. }
        assert (UM : g_used (s_g s) = false -> t = MAIN).
        { intros U. destruct (Z.eq_dec t MAIN); auto. pose proof (who_alone _ HI U t n). congruence. }
        assert (CF : g_used (s_g s) = false -> creating f = false).
        { intros U. destruct (creating f) eqn:C; auto.
          assert (X : g_used (s_g s) = true) by (apply (who_create _ HI t f); [rewrite Hst; now left|exact C]).
          congruence. }
        assert (RM : resetting f = true -> t = MAIN /\ existsb resetting r = false /\
                       existsb creating r = false /\ forall t', t' <> MAIN -> th_live (s_th s t') = false).
        { intros RF. destruct (who_reset _ HI t) as (A & (f0 & r0 & B1 & B2 & B3 & B4) & C).
          - rewrite Hst. cbn. now rewrite RF.
          - rewrite Hst in B1. inversion B1; subst. auto. }
        assert (CR : creating f = true -> resetting f = false).
        { clear. destruct f; cbn; try discriminate; auto. }
        constructor.
        -- rewrite NX. pose proof (who_next _ HI) as X. clear - X. destruct (e_new e); lia.
        -- rewrite NX. intros t' L.
           assert (N1 : t' <> t).
           { intros ->. destruct (who_fresh _ HI t); [clear - L; destruct (e_new e); lia|congruence]. }
           destruct (e_new e) as [st|] eqn:EN.
           ++ assert (N2 : t' <> s_next s) by (clear - L; lia). rewrite LVo, ST by auto.
              destruct (Z.eqb_spec t' (s_next s)); [congruence|]. destruct (Z.eqb_spec t' t); [congruence|].
              apply (who_fresh _ HI). clear - L; lia.
           ++ rewrite ST. destruct (Z.eqb_spec t' t); [congruence|].
              destruct (who_fresh _ HI t' L) as [A B]. split; [exact A|].
              destruct (th_live (s_th (apply_eff s t (s_th s t) r e) t')) eqn:X; [|reflexivity].
              destruct (Z.eq_dec t' (s_next s)) as [->|N2]; [now destruct (LVn X)|].
              rewrite LVo in X by auto. congruence.
        -- intros t' L. destruct (Z.eq_dec t' t) as [->|N1]; [congruence|].
           rewrite ST. destruct (Z.eqb_spec t' t); [congruence|].
           destruct (Z.eq_dec t' (s_next s)) as [->|N2].
           ++ destruct (e_new e) as [st|] eqn:EN.
              ** exfalso. unfold apply_eff in L. rewrite EN in L. cbn [s_th] in L. rewrite upd_same in L. discriminate.
              ** destruct (who_fresh _ HI (s_next s)); [apply Z.le_refl|assumption].
           ++ rewrite LVo in L by auto. apply (who_dead _ HI) in L.
              destruct (e_new e); [destruct (Z.eqb_spec t' (s_next s)); [congruence|]|]; exact L.
        -- rewrite apply_g. intros t' f' I C.
           destruct (resetting f) eqn:RF.
           ++ destruct (RM eq_refl) as (TM & RR & CRr & DL). destruct (R2 eq_refl) as (CE & _).
              exfalso. destruct (INS _ _ I) as [(-> & [J|J])|[(N1 & N2 & J)|(-> & st & EN & J)]].
              ** rewrite (existsb_false_in _ _ _ CE J) in C. discriminate.
              ** rewrite (existsb_false_in _ _ _ CRr J) in C. discriminate.
              ** subst t. rewrite (who_dead _ HI t') in J by (apply DL; auto). destruct J.
              ** destruct (R4 _ EN) as [_ X]. rewrite (existsb_false_in _ _ _ X J) in C. discriminate.
           ++ destruct (g_used (s_g s)) eqn:U; [now apply U1|].
              destruct (INS _ _ I) as [(-> & [J|J])|[(N1 & N2 & J)|(-> & st & EN & J)]].
              ** destruct U2 as [X|X]; auto; [apply existsb_exists; eauto|]. rewrite CF in X by auto. discriminate.
              ** rewrite (who_create _ HI t f') in U; [discriminate|rewrite Hst; now right|exact C].
              ** rewrite (who_create _ HI t' f') in U; auto; discriminate.
              ** destruct (R4 _ EN) as [_ X]. rewrite (existsb_false_in _ _ _ X J) in C. discriminate.
        -- rewrite apply_g. intros UE t' N.
           assert (TM : t = MAIN /\ forall t'', t'' <> MAIN -> th_live (s_th s t'') = false).
           { destruct (g_used (s_g s)) eqn:U.
             - destruct (resetting f) eqn:RF.
               + destruct (RM eq_refl) as (A & _ & _ & B). auto.
               + rewrite U1 in UE by auto. discriminate.
             - split; [auto|]. apply (who_alone _ HI U). }
           destruct TM as [-> DL].
           destruct (th_live (s_th (apply_eff s MAIN (s_th s MAIN) r e) t')) eqn:X; [|reflexivity]. exfalso.
           destruct (Z.eq_dec t' (s_next s)) as [->|N2].
           ++ apply LVn in X. apply R3 in X.
              assert (g_used (s_g s) = true) by (apply (who_create _ HI MAIN f); [rewrite Hst; now left|exact X]).
              rewrite U1 in UE; auto. discriminate.
           ++ rewrite LVo in X by auto. rewrite DL in X by auto. discriminate.
        -- intros t' E. apply existsb_exists in E. destruct E as (f' & I & RF').
           assert (K : t = MAIN /\ resetting f = true /\ t' = t /\ In f' (e_fr e)).
           { destruct (INS _ _ I) as [(-> & [J|J])|[(N1 & N2 & J)|(-> & st & EN & J)]].
             - destruct (resetting f) eqn:RF.
               + destruct (RM eq_refl) as (A & _). auto.
               + rewrite (existsb_false_in _ _ _ (R1 eq_refl) J) in RF'. discriminate.
             - exfalso. destruct (who_reset _ HI t) as (A & (f0 & r0 & B1 & B2 & B3 & B4) & C).
               + rewrite Hst. cbn. apply orb_true_iff. right. apply existsb_exists. eauto.
               + rewrite Hst in B1. inversion B1; subst.
                 rewrite (existsb_false_in _ _ _ B3 J) in RF'. discriminate.
             - exfalso. destruct (who_reset _ HI t') as (A & _ & C).
               + apply existsb_exists. eauto.
               + rewrite C in LV; [discriminate|congruence].
             - destruct (R4 _ EN) as [X _]. rewrite (existsb_false_in _ _ _ X J) in RF'. discriminate. }
           destruct K as (-> & RF & -> & J). destruct (RM RF) as (_ & RR & CRr & DL).
           split; [reflexivity|]. split.
           ++ destruct (R2 RF) as (_ & [X|(x & X)]); rewrite X in J; [destruct J|].
              destruct J as [->|[]]. exists f', r. split; [|auto].
              rewrite ST, X, Z.eqb_refl. destruct (e_new e); [|reflexivity].
              destruct (Z.eqb_spec MAIN (s_next s)); [congruence|reflexivity].
           ++ intros t'' N. destruct (th_live (s_th (apply_eff s MAIN (s_th s MAIN) r e) t'')) eqn:X; [|reflexivity].
              exfalso. destruct (Z.eq_dec t'' (s_next s)) as [->|N2].
              ** apply LVn in X. apply R3 in X. apply CR in X. congruence.
              ** rewrite LVo in X by auto. rewrite DL in X by auto. discriminate.
        -- intros f' I. destruct (INS _ _ I) as [(<- & [J|J])|[(N1 & N2 & J)|(E & st & EN & J)]].
           ++ apply (existsb_false_in _ _ _ (R5 (who_bt _ HI f ltac:(rewrite Hst; now left))) J).
           ++ apply (who_bt _ HI). rewrite Hst. now right.
           ++ apply (who_bt _ HI). exact J.
           ++ pose proof (who_next _ HI) as X. unfold MAIN in E. clear - X E. lia.
Qed.

(** Where a frame on a stack after an ordinary step comes from. *)
Lemma ins_cases s t f r e t' f' :
  who_inv s -> th_live (s_th s t) = true -> e_child e = false -> th_stack (s_th s t) = f :: r ->
  In f' (th_stack (s_th (apply_eff s t (s_th s t) r e) t')) ->
  (t' = t /\ (In f' (e_fr e) \/ In f' r)) \/
  (t' <> t /\ t' <> s_next s /\ In f' (th_stack (s_th s t'))) \/
  (t' = s_next s /\ t' <> t /\ exists st, e_new e = Some st /\ In f' st).
Proof.
  intros HI LV HC Hst I. rewrite apply_stack in I by auto.
  assert (TN : t <> s_next s).
  { intros ->. destruct (who_fresh _ HI (s_next s)) as [_ X]; [apply Z.le_refl|]. rewrite LV in X. discriminate. }
  destruct (Z.eqb_spec t' t) as [->|N].
  - left. split; [reflexivity|]. destruct (e_new e); [destruct (Z.eqb_spec t (s_next s)); [contradiction|]|];
      apply in_app_or in I; exact I.
  - right. destruct (Z.eqb_spec t' (s_next s)) as [E|N2].
    + subst t'. right. split; [reflexivity|]. split; [auto|]. destruct (e_new e) as [st|]; [eauto|].
      destruct (who_fresh _ HI (s_next s)) as [E _]; [apply Z.le_refl|]. rewrite E in I. destruct I.
    + left. destruct (e_new e); auto.
Qed.

(** ** Ownership *)

Definition own (n : Z) (f : frame) : nat := b2n (holds n f).

(** Nodes that make_thread_node has handed out since the lists were last reset. *)
Definition alloc (g : glob) (n : Z) : Prop :=
  (1 <= n <= g_chunk g * TN_ARRAY_SIZE + g_pos g)%Z.

(** What a frame knows of the lists. *)
Definition Qlist (g : glob) (f : frame) : Prop :=
  match f with
  | FPCTake _ _ _ n => In n (g_free g)
  | FPCArray _ _ _ => True
  | FPCInc _ _ _ n => n = array_node (g_chunk g) (g_pos g) /\ (g_pos g < TN_ARRAY_SIZE)%Z
  | FPCZero _ _ _ n | FPCUnlock _ _ _ n | FPCFill _ _ _ n | FPCReal _ _ n => ~ In n (g_list g)
  | FBT p n => match p with
               | BTSelf | BTTsd | BTLock | BTChk | BTRead | BTNum _ | BTIns | BTRefuse =>
                   ~ In n (g_list g)
               | _ => In n (g_list g)
               end
  | FClean p n => match p with
                  | CLZero | CLFree => ~ In n (g_list g)
                  | CLUnlock => True
                  | _ => In n (g_list g)
                  end
  | FCb _ (KInitThread n) | FCb _ (KFiniCleanup n) => In n (g_list g)
  | _ => True
  end.

Record node_inv (s : state) : Prop := mknodeinv {
  ni_own : exists ow : Z -> option Z,
    (forall t n, wsum (own n) (th_stack (s_th s t)) <=
       match ow n with Some h => if Z.eqb h t then 1 else 0 | None => 0 end) /\
    (forall n, ow n <> None -> alloc (s_g s) n /\ ~ In n (g_free (s_g s)));
  ni_free : forall n, In n (g_free (s_g s)) -> alloc (s_g s) n /\ ~ In n (g_list (s_g s));
  ni_list : forall n, In n (g_list (s_g s)) -> n = MAIN_TN \/ alloc (s_g s) n;
  ni_ndl : NoDup (g_list (s_g s));
  ni_ndf : NoDup (g_free (s_g s));
  ni_chunk : (g_chunks (s_g s) = g_chunk (s_g s) + 1 /\ 0 <= g_chunk (s_g s) /\
              0 <= g_pos (s_g s) <= TN_ARRAY_SIZE)%Z;
  ni_q : forall t f, In f (th_stack (s_th s t)) -> Qlist (s_g s) f
}.

(** The frames that change the lists. *)
Definition lister (f : frame) : bool :=
  match f with
  | FBT BTIns _ | FClean CLRemove _ | FClean CLFree _ => true
  | FPCInit _ | FPCTake _ _ _ _ | FPCArray _ _ _ | FPCInc _ _ _ _ => true
  | FBPReset _ | FRFReset | FSMain _ => true
  | _ => false
  end.

Definition lists_same (g g' : glob) : Prop :=
  g_list g' = g_list g /\ g_free g' = g_free g /\ g_pos g' = g_pos g /\
  g_chunk g' = g_chunk g /\ g_chunks g' = g_chunks g.

Lemma lister_local dyn t u g tsd nc f c e :
  frame_step dyn t u g tsd nc f c = Some e -> lister f = false ->
  lists_same g (e_g e) /\ g_bad (e_g e) = g_bad g.
Proof.
  unfold lists_same. intros H L.
  fs_cases H; cbn in L; try discriminate L; brk H; inversion H; subst; clear H; cbn; auto 10;
  repeat match goal with
  | |- context [match ?x with _ => _ end] => destruct x
  end; cbn; auto 10.
Qed.

Lemma own_local dyn t u g tsd nc f c e :
  frame_step dyn t u g tsd nc f c = Some e -> lister f = false -> e_child e = false ->
  forall n, wsum (own n) (e_fr e) +
            match e_new e with Some st => wsum (own n) st | None => 0 end <= own n f.
Proof.
  intros H L HC n.
  fs_cases H; cbn in L; try discriminate L; brk H; inversion H; subst; clear H; cbn in HC |- *;
    try discriminate HC; unfold own; cbn;
    repeat match goal with |- context [b2n (?x =? ?y)%Z] => destruct (x =? y)%Z end; cbn; lia.
Qed.

Lemma q_local dyn t u g tsd nc f c e :
  frame_step dyn t u g tsd nc f c = Some e -> lister f = false -> Qlist g f ->
  (forall f', In f' (e_fr e) -> Qlist g f') /\
  (forall st f', e_new e = Some st -> In f' st -> Qlist g f').
Proof.
  intros H L Q. split.
  - fs_cases H; cbn in L; try discriminate L; brk H; inversion H; subst; clear H; cbn;
    intros f' I'; repeat (destruct I' as [<-|I']; [cbn in *; try exact I; try exact Q; auto|]);
    try (destruct I'; fail).
    all: repeat match goal with |- context [if ?x then _ else _] => destruct x end; auto.
    rewrite E. now left.
  - fs_cases H; cbn in L; try discriminate L; brk H; inversion H; subst; clear H; cbn;
    intros st f' EN I'; try discriminate; inversion EN; subst; clear EN;
    repeat (destruct I' as [<-|I']; [cbn in *; try exact I; try exact Q; auto|]);
    try (destruct I'; fail).
Qed.

Lemma Qlist_same g g' f : lists_same g g' -> Qlist g f -> Qlist g' f.
Proof.
  intros (A & B & C & D & E). unfold Qlist.
  destruct f; rewrite ?A, ?B, ?C, ?D; auto.
Qed.

(** ** The exit winner inserts main once *)

Definition w_pre (f : frame) : nat :=
  match f with
  | FEPWin _ _ | FEPBegin _ | FCb _ (KBeginExit _) | FSUsed | FSLock _ | FSSet _ | FSUnlock _
  | FSInstall _ | FSMain _ => 1
  | _ => 0
  end.

Lemma pre_token dyn s : reach dyn any s -> token_inv g_cookie w_pre (fun _ _ => 0) image s.
Proof.
  apply token_reach.
  - intros t. unfold phi. cbn. rewrite upd_if. destruct (Z.eqb t MAIN); reflexivity.
  - intros. now apply image_app.
  - intros f I. cbn in I. destruct I as [<-|[<-|[<-|[<-|[<-|[<-|[<-|[]]]]]]]]; reflexivity.
  - reflexivity.
  - split; reflexivity.
  - intros t u g tsd nc f c e H HC. tok_local H HC.
  - intros s0 t c s' f r e (w & A & B) _ Hst Hfs HC ->.
    destruct (child_shape _ _ _ _ _ _ _ _ _ Hfs HC) as (_ & G & _ & _ & EV & HN & HK & SH).
    assert (ZZ : forall l : list event, wsum (fun _ : event => 0) l = 0) by (induction l; auto).
    assert (P : forall t', phi w_pre (fun _ _ => 0) image (apply_eff s0 t (s_th s0 t) r e) t'
              <= phi w_pre (fun _ _ => 0) image s0 t').
    { intros t'. unfold phi. rewrite apply_tr, EV, apply_stack_child by auto. rewrite !ZZ.
      destruct (Z.eqb_spec t' t) as [->|N]; [|cbn; lia].
      rewrite Hst, wsum_app. cbn [wsum]. destruct SH as [(d & -> & ->)|(-> & ->)]; cbn; lia. }
    exists w. rewrite apply_g, G. split.
    + intros t'. specialize (A t'). specialize (P t'). lia.
    + intros F t'. specialize (B F t'). specialize (P t'). lia.
Qed.

Lemma pre_local dyn t u g tsd nc f c e :
  frame_step dyn t u g tsd nc f c = Some e ->
  (g_cookie g = true -> g_cookie (e_g e) = true) /\
  (g_cookie g = true -> wsum w_pre (e_fr e) <= w_pre f) /\
  (forall st, e_new e = Some st -> wsum w_pre st = 0).
Proof.
  intros H. split; [|split].
  - intros C. fs_cases H; brk H; inversion H; subst; clear H; cbn; auto; g_brk; auto.
  - intros C. fs_cases H; brk H; inversion H; subst; clear H; cbn; auto; try lia; congruence.
  - intros st EN. fs_cases H; brk H; inversion H; subst; clear H; cbn in EN; try discriminate;
      inversion EN; reflexivity.
Qed.

Definition main_once (s : state) : Prop :=
  In MAIN_TN (g_list (s_g s)) ->
  g_cookie (s_g s) = true /\ forall t, wsum w_pre (th_stack (s_th s t)) = 0.

(** Everything known of the nodes and lists; the state is memory safe. *)
Definition nodes_ok (s : state) : Prop := node_inv s /\ main_once s /\ g_bad (s_g s) = false.

Lemma nodes_stack s s' t st :
  nodes_ok s -> s_g s' = s_g s ->
  (forall t', t' <> t -> th_stack (s_th s' t') = th_stack (s_th s t')) ->
  th_stack (s_th s' t) = st ->
  (forall n, wsum (own n) st <= wsum (own n) (th_stack (s_th s t))) ->
  wsum w_pre st <= wsum w_pre (th_stack (s_th s t)) ->
  (forall f, In f st -> Qlist (s_g s) f) -> nodes_ok s'.
Proof.
  intros (N & M & B) G O ST OW WP Q. split; [|split].
  - constructor; rewrite ?G; try apply N.
    + destruct (ni_own _ N) as (ow & A & C). exists ow. split; [|exact C].
      intros t' n. destruct (Z.eq_dec t' t) as [->|X].
      * rewrite ST. specialize (OW n). specialize (A t n). lia.
      * rewrite O by auto. apply A.
    + intros t' f I. destruct (Z.eq_dec t' t) as [->|X].
      * rewrite ST in I. auto.
      * rewrite O in I by auto. eapply ni_q; eauto.
  - unfold main_once. rewrite G. intros I. destruct (M I) as [C W]. split; [exact C|].
    intros t'. destruct (Z.eq_dec t' t) as [->|X].
    + rewrite ST. specialize (W t). lia.
    + rewrite O by auto. apply W.
  - now rewrite G.
Qed.

Lemma unwind_own st n : wsum (own n) (unwind st) <= wsum (own n) st.
Proof.
  destruct (unwind_shape st) as [U|(m & f & U & I & P)]; rewrite U; [cbn; lia|].
  cbn. unfold own at 1. cbn. destruct (Z.eqb_spec n m) as [->|X]; cbn; [|lia].
  clear U. induction st as [|x st IH]; [destruct I|]. cbn. destruct I as [->|I].
  - assert (E : own m f = 1); [|lia].
    unfold own. destruct P as [(q & -> & _)|(q & ->)]; cbn; now rewrite Z.eqb_refl.
  - specialize (IH I). lia.
Qed.

Lemma unwind_q g st : (forall f, In f st -> Qlist g f) -> forall f, In f (unwind st) -> Qlist g f.
Proof.
  intros H f I. destruct (unwind_shape st) as [U|(m & x & U & J & P)]; rewrite U in I.
  - destruct I as [<-|[]]. exact Logic.I.
  - specialize (H x J). destruct I as [<-|[<-|[]]]; [|exact Logic.I].
    destruct P as [(q & -> & PU)|(q & ->)]; [destruct q; try discriminate PU|]; exact H.
Qed.

Lemma unwind_pre st : wsum w_pre (unwind st) = 0.
Proof. destruct (unwind_shape st) as [U|(n & f & U & _)]; rewrite U; reflexivity. Qed.

(** *** Small facts on lists *)

Lemma memb_in n l : memb n l = true <-> In n l.
Proof.
  unfold memb. rewrite existsb_exists. split.
  - intros (x & I & E). apply Z.eqb_eq in E. now subst.
  - intros I. exists n. split; [exact I|]. apply Z.eqb_refl.
Qed.
Lemma memb_not n l : memb n l = false <-> ~ In n l.
Proof. rewrite <- memb_in. destruct (memb n l); split; congruence. Qed.
Lemma without_in n x l : In x (without n l) <-> In x l /\ x <> n.
Proof.
  unfold without. rewrite filter_In. split; intros [A B]; split; auto.
  - apply negb_true_iff, Z.eqb_neq in B. exact B.
  - now apply negb_true_iff, Z.eqb_neq.
Qed.
Lemma without_nodup n l : NoDup l -> NoDup (without n l).
Proof. intros. now apply NoDup_filter. Qed.

(** *** A node held by the acting frame is held by no other *)

Lemma own_pos st n f : In f st -> holds n f = true -> 1 <= wsum (own n) st.
Proof.
  induction st as [|x st IH]; [intros []|]. cbn. intros [->|I] H.
  - unfold own at 1. rewrite H. cbn. lia.
  - specialize (IH I H). lia.
Qed.

Lemma own_unique s t f r n t' f' :
  node_inv s -> th_stack (s_th s t) = f :: r -> holds n f = true ->
  (t' = t /\ In f' r) \/ (t' <> t /\ In f' (th_stack (s_th s t'))) ->
  holds n f' = false.
Proof.
  intros N Hst H D. destruct (holds n f') eqn:H'; [exfalso|reflexivity].
  destruct (ni_own _ N) as (ow & A & _).
  pose proof (A t n) as A1. rewrite Hst in A1. cbn [wsum] in A1. unfold own at 1 in A1.
  rewrite H in A1. cbn [b2n] in A1.
  destruct D as [[-> I]|[X I]].
  - pose proof (own_pos _ _ _ I H'). destruct (ow n); [destruct (Z.eqb _ _)|]; lia.
  - pose proof (own_pos _ _ _ I H'). pose proof (A t' n) as A2.
    destruct (ow n) as [h|]; [|lia].
    destruct (Z.eqb_spec h t); destruct (Z.eqb_spec h t'); subst; try lia; congruence.
Qed.

Lemma held_owned s ow t f n :
  (forall t n, wsum (own n) (th_stack (s_th s t)) <=
       match ow n with Some h => if Z.eqb h t then 1 else 0 | None => 0 end) ->
  In f (th_stack (s_th s t)) -> holds n f = true -> ow n = Some t.
Proof.
  intros A I H. pose proof (own_pos _ _ _ I H) as P. specialize (A t n).
  destruct (ow n) as [h|]; [|lia]. destruct (Z.eqb_spec h t); [congruence|lia].
Qed.

Lemma held_alloc s t f n : node_inv s ->
  In f (th_stack (s_th s t)) -> holds n f = true -> alloc (s_g s) n /\ ~ In n (g_free (s_g s)).
Proof.
  intros N I H. destruct (ni_own _ N) as (ow & A & B). apply B.
  rewrite (held_owned s ow t f n A I H). discriminate.
Qed.

(** The facts of Qlist that depend on the list are about nodes held. *)
Lemma Qlist_list g g' f :
  (forall n, holds n f = true -> (In n (g_list g') <-> In n (g_list g))) ->
  g_free g' = g_free g -> g_pos g' = g_pos g -> g_chunk g' = g_chunk g ->
  Qlist g f -> Qlist g' f.
Proof.
  intros H A B C. unfold Qlist.
  destruct f; rewrite ?A, ?B, ?C; auto; cbn in H.
  - destruct k; auto; rewrite (H n) by apply Z.eqb_refl; auto.
  - destruct p; rewrite (H n) by apply Z.eqb_refl; auto.
  - destruct p; try rewrite (H n) by apply Z.eqb_refl; auto.
  - rewrite (H n) by apply Z.eqb_refl; auto.
  - rewrite (H n) by apply Z.eqb_refl; auto.
  - rewrite (H n) by apply Z.eqb_refl; auto.
  - rewrite (H n) by apply Z.eqb_refl; auto.
Qed.

(** Those that depend on the rest are inside the lock. *)
Lemma Qlist_unlocked g g' f :
  locked f = false -> g_list g' = g_list g -> Qlist g f -> Qlist g' f.
Proof.
  intros L E. destruct f; cbn in *; try discriminate; rewrite ?E; auto.
Qed.

Lemma not_mine g f : creating f = false -> bt_frame f = false -> Qlist g f /\ forall n, own n f = 0.
Proof.
  intros C B. split.
  - destruct f; cbn in *; try discriminate; try exact I. destruct k; try discriminate; exact I.
  - intros n. destruct f; cbn in *; try discriminate; try reflexivity.
    unfold own. cbn. destruct k; try discriminate; reflexivity.
Qed.

Lemma own_zero st n : (forall f, In f st -> own n f = 0) -> wsum (own n) st = 0.
Proof.
  induction st as [|x st IH]; [reflexivity|]. intros H. cbn.
  rewrite (H x) by now left. rewrite IH; [reflexivity|]. intros. apply H. now right.
Qed.

(** Put a step's result together. *)
Lemma nodes_put s t f r e :
  who_inv s -> th_live (s_th s t) = true -> th_stack (s_th s t) = f :: r ->
  e_child e = false -> e_new e = None -> g_bad (e_g e) = false ->
  (exists ow : Z -> option Z,
     (forall n, wsum (own n) (e_fr e ++ r) <=
        match ow n with Some h => if Z.eqb h t then 1 else 0 | None => 0 end) /\
     (forall t' n, t' <> t -> wsum (own n) (th_stack (s_th s t')) <=
        match ow n with Some h => if Z.eqb h t' then 1 else 0 | None => 0 end) /\
     (forall n, ow n <> None -> alloc (e_g e) n /\ ~ In n (g_free (e_g e)))) ->
  (forall n, In n (g_free (e_g e)) -> alloc (e_g e) n /\ ~ In n (g_list (e_g e))) ->
  (forall n, In n (g_list (e_g e)) -> n = MAIN_TN \/ alloc (e_g e) n) ->
  NoDup (g_list (e_g e)) -> NoDup (g_free (e_g e)) ->
  (g_chunks (e_g e) = g_chunk (e_g e) + 1 /\ 0 <= g_chunk (e_g e) /\
   0 <= g_pos (e_g e) <= TN_ARRAY_SIZE)%Z ->
  (forall f', In f' (e_fr e) -> Qlist (e_g e) f') ->
  (forall t' f', (t' = t /\ In f' r) \/ (t' <> t /\ In f' (th_stack (s_th s t'))) -> Qlist (e_g e) f') ->
  (In MAIN_TN (g_list (e_g e)) -> g_cookie (e_g e) = true /\ wsum w_pre (e_fr e ++ r) = 0 /\
     forall t', t' <> t -> wsum w_pre (th_stack (s_th s t')) = 0) ->
  nodes_ok (apply_eff s t (s_th s t) r e).
Proof.
  intros W LV Hst HC HN BD (ow & A1 & A2 & A3) FR LI NL NF CH QE QO MO.
  assert (ST : forall t', th_stack (s_th (apply_eff s t (s_th s t) r e) t') =
               if Z.eqb t' t then e_fr e ++ r else th_stack (s_th s t')).
  { intros. rewrite apply_stack, HN by auto. reflexivity. }
  split; [|split].
  - constructor; rewrite ?apply_g; auto.
    + exists ow. split; [|exact A3]. intros t' n. rewrite ST.
      destruct (Z.eqb_spec t' t) as [->|X]; auto.
    + intros t' f' I. rewrite ST in I. destruct (Z.eqb_spec t' t) as [->|X].
      * apply in_app_or in I. destruct I as [I|I]; auto. apply (QO t). auto.
      * apply (QO t'). auto.
  - unfold main_once. rewrite apply_g. intros I. destruct (MO I) as (X & Y & Z). split; [exact X|].
    intros t'. rewrite ST. destruct (Z.eqb_spec t' t) as [->|N]; auto.
  - now rewrite apply_g.
Qed.

(** The child of a clean fork keeps the frames of the main thread. *)
Lemma nodes_child s f r e :
  nodes_ok s -> th_stack (s_th s MAIN) = f :: r -> e_child e = true -> e_new e = None -> e_kill e = None ->
  e_g e = s_g s -> (forall n, wsum (own n) (e_fr e) = 0) -> wsum w_pre (e_fr e) = 0 ->
  (forall f', In f' (e_fr e) -> Qlist (s_g s) f') ->
  nodes_ok (apply_eff s MAIN (s_th s MAIN) r e).
Proof.
  intros (N & M & B) Hst HC HN HK G OZ WZ QE.
  assert (ST : forall t', th_stack (s_th (apply_eff s MAIN (s_th s MAIN) r e) t') =
               if Z.eqb t' MAIN then e_fr e ++ r else []).
  { intros. now apply apply_stack_child. }
  split; [|split].
  - constructor; rewrite ?apply_g, ?G; try apply N.
    + destruct (ni_own _ N) as (ow & A & C). exists ow. split; [|exact C].
      intros t' n. rewrite ST. destruct (Z.eqb_spec t' MAIN) as [->|X]; [|cbn; lia].
      specialize (A MAIN n). rewrite Hst in A. cbn [wsum] in A. rewrite wsum_app, OZ. lia.
    + intros t' f' I. rewrite ST in I. destruct (Z.eqb_spec t' MAIN) as [->|X]; [|destruct I].
      apply in_app_or in I. destruct I as [I|I]; auto.
      apply (ni_q _ N MAIN). rewrite Hst. now right.
  - unfold main_once. rewrite apply_g, G. intros I. destruct (M I) as [C W]. split; [exact C|].
    intros t'. rewrite ST. destruct (Z.eqb_spec t' MAIN) as [->|X]; [|reflexivity].
    specialize (W MAIN). rewrite Hst in W. cbn [wsum] in W. rewrite wsum_app, WZ. lia.
  - now rewrite apply_g, G.
Qed.

(** Steps that do not touch the lists. *)
Lemma nodes_same dyn s t c f r e :
  who_inv s -> nodes_ok s -> th_live (s_th s t) = true -> th_stack (s_th s t) = f :: r ->
  frame_step dyn t (s_next s) (s_g s) (th_tsd (s_th s t)) (th_nc (s_th s t)) f c = Some e ->
  e_child e = false ->
  lists_same (s_g s) (e_g e) -> g_bad (e_g e) = g_bad (s_g s) ->
  (forall n, wsum (own n) (e_fr e) +
             match e_new e with Some st => wsum (own n) st | None => 0 end <= own n f) ->
  (forall f', In f' (e_fr e) -> Qlist (s_g s) f') ->
  (forall st f', e_new e = Some st -> In f' st -> Qlist (s_g s) f') ->
  nodes_ok (apply_eff s t (s_th s t) r e).
Proof.
  intros W (N & M & B) LV Hst Hfs HC LS BD OL QE QN.
  destruct (pre_local _ _ _ _ _ _ _ _ _ Hfs) as (P1 & P2 & P3).
  clear Hfs.
  assert (TN : t <> s_next s).
  { intros ->. destruct (who_fresh _ W (s_next s)) as [_ X]; [apply Z.le_refl|]. rewrite LV in X. discriminate. }
  assert (FRESH : th_stack (s_th s (s_next s)) = []).
  { apply (who_fresh _ W). apply Z.le_refl. }
  pose proof LS as (L1 & L2 & L3 & L4 & L5).
  assert (ST := fun t' => apply_stack s t (s_th s t) r e t' HC).
  split; [|split].
  - constructor; rewrite ?apply_g; unfold alloc; rewrite ?L1, ?L2, ?L3, ?L4, ?L5; try apply N.
    + destruct (ni_own _ N) as (ow & A & C).
      exists (fun n => match e_new e with
                       | Some st => if 1 <=? wsum (own n) st then Some (s_next s) else ow n
                       | None => ow n end).
      split.
      * intros t' n. rewrite ST. pose proof (A t' n) as A'. pose proof (A t n) as At.
        rewrite Hst in At. cbn [wsum] in At. specialize (OL n).
        destruct (e_new e) as [st|].
        -- destruct (Z.eqb_spec t' (s_next s)) as [->|X].
           ++ destruct (Nat.leb_spec 1 (wsum (own n) st)).
              ** rewrite Z.eqb_refl. destruct (ow n) as [h|]; [destruct (Z.eqb h t)|]; lia.
              ** lia.
           ++ destruct (Z.eqb_spec t' t) as [->|Y].
              ** rewrite wsum_app. destruct (Nat.leb_spec 1 (wsum (own n) st)).
                 --- destruct (Z.eqb_spec (s_next s) t); [congruence|].
                     destruct (ow n) as [h|]; [destruct (Z.eqb h t)|]; lia.
                 --- lia.
              ** destruct (Nat.leb_spec 1 (wsum (own n) st)); [|exact A'].
                 destruct (Z.eqb_spec (s_next s) t'); [congruence|].
                 destruct (ow n) as [h|]; [|lia].
                 destruct (Z.eqb_spec h t); [subst h; destruct (Z.eqb_spec t t'); [congruence|lia]|lia].
        -- destruct (Z.eqb_spec t' t) as [->|Y]; [rewrite wsum_app; lia|exact A'].
      * intros n. specialize (OL n). pose proof (A t n) as At. rewrite Hst in At. cbn [wsum] in At.
        destruct (e_new e) as [st|]; [|apply C].
        destruct (Nat.leb_spec 1 (wsum (own n) st)); [|apply C]. intros _. apply C.
        destruct (ow n); [discriminate|lia].
    + intros t' f' I. destruct (ins_cases _ _ _ _ _ _ _ W LV HC Hst I)
        as [(-> & [J|J])|[(N1 & N2 & J)|(-> & _ & st & EN & J)]].
      * eapply Qlist_same; [exact LS|]. auto.
      * eapply Qlist_same; [exact LS|]. apply (ni_q _ N t). rewrite Hst. now right.
      * eapply Qlist_same; [exact LS|]. apply (ni_q _ N t'). exact J.
      * eapply Qlist_same; [exact LS|]. eapply QN; eauto.
  - unfold main_once. rewrite apply_g, L1. intros I. destruct (M I) as [C Wp]. split; [auto|].
    intros t'. rewrite ST. specialize (P2 C). pose proof (Wp t) as Wt. rewrite Hst in Wt. cbn [wsum] in Wt.
    pose proof (Wp t') as Wt'.
    destruct (e_new e) as [st|].
    + destruct (Z.eqb_spec t' (s_next s)); [now apply P3|].
      destruct (Z.eqb_spec t' t); [rewrite wsum_app; lia|exact Wt'].
    + destruct (Z.eqb_spec t' t); [rewrite wsum_app; lia|exact Wt'].
  - rewrite apply_g, BD. exact B.
Qed.

Lemma nodes_quiet dyn s t c f r e :
  who_inv s -> nodes_ok s -> th_live (s_th s t) = true -> th_stack (s_th s t) = f :: r ->
  frame_step dyn t (s_next s) (s_g s) (th_tsd (s_th s t)) (th_nc (s_th s t)) f c = Some e ->
  e_child e = false -> lister f = false ->
  nodes_ok (apply_eff s t (s_th s t) r e).
Proof.
  intros W NO LV Hst Hfs HC L.
  destruct (lister_local _ _ _ _ _ _ _ _ _ Hfs L) as (LS & BD).
  pose proof (own_local _ _ _ _ _ _ _ _ _ Hfs L HC) as OL.
  assert (QF : Qlist (s_g s) f) by (apply (ni_q _ (proj1 NO) t); rewrite Hst; now left).
  destruct (q_local _ _ _ _ _ _ _ _ _ Hfs L QF) as (QE & QN).
  eapply nodes_same; eauto.
Qed.

(** Main alone, holding nothing: the lists may be emptied. *)
Lemma nodes_clear s f r e :
  who_inv s -> nodes_ok s -> th_live (s_th s MAIN) = true -> th_stack (s_th s MAIN) = f :: r ->
  (forall t', t' <> MAIN -> th_stack (s_th s t') = []) ->
  existsb creating r = false -> existsb creating (e_fr e) = false \/ (forall f', In f' (e_fr e) -> Qlist (e_g e) f' /\ forall n, own n f' = 0) ->
  existsb bt_frame (e_fr e) = false ->
  e_child e = false -> e_new e = None -> g_bad (e_g e) = g_bad (s_g s) ->
  g_list (e_g e) = [] -> g_free (e_g e) = [] -> g_pos (e_g e) = 0%Z ->
  g_chunk (e_g e) = g_chunk (s_g s) -> g_chunks (e_g e) = g_chunks (s_g s) ->
  nodes_ok (apply_eff s MAIN (s_th s MAIN) r e).
Proof.
  intros W (N & M & B) LV Hst OTH CR CE BE HC HN BD E1 E2 E3 E4 E5.
  assert (RZ : forall f', In f' r -> Qlist (e_g e) f' /\ forall n, own n f' = 0).
  { intros f' I. apply not_mine; [eapply existsb_false_in; eauto|].
    apply (who_bt _ W). rewrite Hst. now right. }
  assert (EZ : forall f', In f' (e_fr e) -> Qlist (e_g e) f' /\ forall n, own n f' = 0).
  { destruct CE as [CE|CE]; [|exact CE]. intros f' I. apply not_mine; eapply existsb_false_in; eauto. }
  apply (nodes_put s MAIN f r e); auto.
  - now rewrite BD.
  - exists (fun _ => None). split; [|split].
    + intros n. rewrite wsum_app, !own_zero; [lia| |]; intros f' I; [apply RZ|apply EZ]; exact I.
    + intros t' n X. rewrite OTH by auto. cbn. lia.
    + congruence.
  - rewrite E2. intros n [].
  - rewrite E1. intros n [].
  - rewrite E1. constructor.
  - rewrite E2. constructor.
  - rewrite E3, E4, E5. pose proof (ni_chunk _ N). unfold TN_ARRAY_SIZE in *. lia.
  - intros f' I. apply EZ. exact I.
  - intros t' f' [[-> I]|[X I]]; [now apply RZ|]. rewrite OTH in I by auto. destruct I.
  - rewrite E1. intros [].
Qed.

Ltac own_cbn OW m :=
  specialize (OW m); cbn [app wsum] in OW |- *;
  match goal with |- context [wsum (own m) ?r] =>
    let x := fresh "x" in set (x := wsum (own m) r) in *; clearbody x end;
  unfold own in OW |- *; cbn [holds b2n] in OW |- *.

Ltac same_tac :=
  match goal with
  | |- lists_same _ _ => repeat split; reflexivity
  | |- forall n : Z, _ <= _ => clear; intros; cbn; lia
  | |- forall st f', None = Some _ -> _ => intros; discriminate
  | |- forall f' : frame, _ => let J := fresh in intros ? J; cbn in J;
         first [contradiction | destruct J as [<-|[]]; first [exact I | cbn; auto]]
  | _ => reflexivity
  end.

Lemma nodes_reach dyn s : reach dyn clean_forks s -> nodes_ok s.
Proof.
  apply reach_invariant.
  - split; [|split].
    + constructor; cbn.
      * exists (fun _ => None). split; [|congruence]. intros t n. rewrite upd_if.
        destruct (Z.eqb t MAIN); cbn; lia.
      * intros n [].
      * intros n [].
      * constructor.
      * constructor.
      * unfold TN_ARRAY_SIZE. lia.
      * intros t f I. rewrite upd_if in I. destruct (Z.eqb t MAIN); [|destruct I]. cbn in I.
        repeat (destruct I as [<-|I]; [exact Logic.I|]). destruct I.
    + intros [].
    + reflexivity.
  - clear s. intros s t c s' R HI HO HS.
    pose proof (who_reach _ _ R) as W.
    assert (RA : reach dyn any s) by (eapply reach_weaken; [|exact R]; intros; exact I).
    apply step_view in HS. destruct HS as (_ & LV & V).
    destruct V as [| | | | | | |f r e Hst Hun Hbar Hfs Es']; subst.
    + apply (nodes_stack s _ t (FApp AppHandler :: th_stack (s_th s t))); auto.
      * intros t' X. cbn. now rewrite upd_other.
      * cbn. now rewrite upd_same.
      * intros f [<-|J]; [exact I|]. eapply ni_q; [apply HI|exact J].
    + apply (nodes_stack s _ t (FEPGet EXIT_SIGNAL :: FEndLibDyn :: FSigEnd :: th_stack (s_th s t))); auto.
      * intros t' X. cbn. now rewrite upd_other.
      * cbn. now rewrite upd_same.
      * intros f [<-|[<-|[<-|J]]]; try exact I. eapply ni_q; [apply HI|exact J].
    + apply (nodes_stack s _ t (FHGet :: th_stack (s_th s t))); auto.
      * intros t' X. cbn. now rewrite upd_other.
      * cbn. now rewrite upd_same.
      * intros f [<-|J]; [exact I|]. eapply ni_q; [apply HI|exact J].
    + apply (nodes_stack s _ t (FWGet :: th_stack (s_th s t))); auto.
      * intros t' X. cbn. now rewrite upd_other.
      * cbn. now rewrite upd_same.
      * intros f' [<-|J]; [exact I|]. eapply ni_q; [apply HI|exact J].
    + apply (nodes_stack s _ t (unwind (th_stack (s_th s t)))); auto.
      * intros t' X. cbn. now rewrite upd_other.
      * cbn. now rewrite upd_same.
      * intros n. apply unwind_own.
      * rewrite unwind_pre. lia.
      * apply unwind_q. intros f' J. eapply ni_q; [apply HI|exact J].
    + apply (nodes_stack s _ t (unwind r)); auto.
      * intros t' X. cbn. now rewrite upd_other.
      * cbn. now rewrite upd_same.
      * intros n. rewrite H0. cbn. pose proof (unwind_own r n). lia.
      * rewrite unwind_pre. lia.
      * apply unwind_q. intros f' J. eapply ni_q; [apply HI|rewrite H0; right; exact J].
    + apply (nodes_stack s _ t []); auto.
      * intros t' X. cbn. now rewrite upd_other.
      * cbn. now rewrite upd_same.
      * intros n. cbn. lia.
      * cbn. lia.
      * intros f [].
    + destruct (e_child e) eqn:HC.
      * destruct (child_shape _ _ _ _ _ _ _ _ _ Hfs HC) as (CC & G & _ & _ & _ & HN & HK & SH).
        destruct (proj1 HO CC) as (-> & _).
        eapply nodes_child; eauto; destruct SH as [(d & _ & ->)|(_ & ->)]; try reflexivity;
          cbn; intros f' J; repeat (destruct J as [<-|J]; [exact I|]); destruct J.
      * destruct (lister f) eqn:L; [|eapply nodes_quiet; eauto].
        pose proof HI as (N & M & B).
        assert (QF : Qlist (s_g s) f) by (apply (ni_q _ N t); rewrite Hst; now left).
        assert (UNI : forall n t' f', holds n f = true ->
                   (t' = t /\ In f' r) \/ (t' <> t /\ In f' (th_stack (s_th s t'))) -> holds n f' = false).
        { intros. eapply own_unique; eauto. }
        assert (LK : locked f = true -> forall t' f',
                   (t' = t /\ In f' r) \/ (t' <> t /\ In f' (th_stack (s_th s t'))) -> locked f' = false).
        { intros. eapply lock_one; eauto. now apply (lock_reach dyn). }
        assert (QO : forall t' f', (t' = t /\ In f' r) \/ (t' <> t /\ In f' (th_stack (s_th s t'))) ->
                      Qlist (s_g s) f').
        { intros t' f' [[-> J]|[X J]]; [apply (ni_q _ N t); rewrite Hst; now right|].
          now apply (ni_q _ N t'). }
        assert (IN : In f (th_stack (s_th s t))) by (rewrite Hst; now left).
        destruct (ni_own _ N) as (ow & A & C).
        assert (OWF : forall n, holds n f = true -> ow n = Some t) by (intros; eapply held_owned; eauto).
        assert (OW1 : forall n, wsum (own n) r + own n f <=
                  match ow n with Some h => if Z.eqb h t then 1 else 0 | None => 0 end).
        { intros n. specialize (A t n). rewrite Hst in A. cbn [wsum] in A. lia. }
        assert (MO : In MAIN_TN (g_list (s_g s)) -> g_cookie (s_g s) = true /\
                  wsum w_pre r + w_pre f = 0 /\ forall t', t' <> t -> wsum w_pre (th_stack (s_th s t')) = 0).
        { intros J. destruct (M J) as [X Y]. split; [exact X|]. split; [|auto].
          specialize (Y t). rewrite Hst in Y. cbn [wsum] in Y. lia. }
        assert (CS : c = CStep).
        { clear - L Hfs. destruct f; try discriminate L; destruct c; try discriminate Hfs; reflexivity. }
        subst c.
        pose proof Hfs as Hfs0. cbn [frame_step] in Hfs.
        destruct f; try discriminate L; try (destruct p; try discriminate L);
          cbn [auto_step bt_step cl_step] in Hfs; unfold ret, go, list_insert, list_delete in Hfs; cbv zeta in Hfs.
        -- (* FBPReset *)
           destruct (who_reset _ W t) as (-> & (f0 & r0 & B1 & B2 & B3 & B4) & DL); [rewrite Hst; reflexivity|].
           rewrite Hst in B1. inversion B1; subst f0 r0. clear B1.
           destruct (g_used (s_g s)) eqn:U.
           ++ inversion Hfs; subst e; clear Hfs Hfs0.
              apply (nodes_clear s (FBPReset data) r); auto;
                try (intros t' X; apply (who_dead _ W); now apply DL);
                unfold reset_list; rewrite U; cbn; g_brk; auto.
           ++ refine (nodes_same dyn s _ CStep _ r e W HI LV Hst Hfs0 _ _ _ _ _ _); clear Hfs0; inversion Hfs; subst e; clear Hfs; unfold reset_list; rewrite ?U; cbn; same_tac.
        -- (* FSMain *)
           destruct (n_self (nd (s_g s) MAIN_TN) =? t)%Z eqn:SE.
           ++ refine (nodes_same dyn s _ CStep _ r e W HI LV Hst Hfs0 _ _ _ _ _ _); clear Hfs0; inversion Hfs; subst e; clear Hfs; cbn; same_tac.
           ++ assert (NM : ~ In MAIN_TN (g_list (s_g s))).
              { intros J. destruct (MO J) as (_ & X & _). cbn in X. lia. }
              pose proof NM as NM'. apply memb_not in NM'.
              inversion Hfs; subst e; clear Hfs Hfs0. cbn in NM'.
              apply (nodes_put s t (FSMain old) r); auto; cbn [e_g e_fr e_child e_new]; cbn; rewrite ?NM'; cbn; auto.
              ** exists ow. split; [|split].
                 --- intros n. own_cbn OW1 n. clear - OW1. lia.
                 --- intros t' n _. apply A.
                 --- exact C.
              ** intros n J. destruct (ni_free _ N n J) as [X Y]. split; [exact X|].
                 intros [E|Z]; [|exact (Y Z)]. subst n. unfold alloc, MAIN_TN in X. clear - X. lia.
              ** intros n [E|J]; [now left|]. exact (ni_list _ N n J).
              ** constructor; [exact NM|]. exact (ni_ndl _ N).
              ** exact (ni_ndf _ N).
              ** exact (ni_chunk _ N).
              ** intros f' [<-|[]]; exact I.
              ** intros t' f' D. apply (Qlist_list (s_g s)); auto; [|eapply QO; eauto].
                 intros n H. cbn. split; [|now right]. intros [E|J]; [|exact J].
                 exfalso. subst n.
                 assert (HA : alloc (s_g s) MAIN_TN).
                 { destruct D as [[-> J]|[X J]]; [apply (held_alloc s t f')|apply (held_alloc s t' f')]; auto.
                   rewrite Hst. now right. }
                 unfold alloc, MAIN_TN in HA. clear - HA. lia.
              ** intros _. destruct (pre_token dyn s RA) as (w & T1 & T2).
                 assert (ZZ : forall l : list event, wsum (fun _ : event => 0) l = 0) by (induction l; auto).
                 assert (T1' : forall t', wsum w_pre (th_stack (s_th s t')) <= if Z.eqb t' w then 1 else 0).
                 { intros t'. specialize (T1 t'). unfold phi in T1. clear - T1. lia. }
                 pose proof (T1' t) as Tt. rewrite Hst in Tt. cbn [wsum w_pre] in Tt.
                 destruct (Z.eqb_spec t w) as [Ew|]; [|clear - Tt; lia].
                 split; [|split].
                 --- destruct (g_cookie (s_g s)) eqn:CK; [reflexivity|]. exfalso.
                     specialize (T2 eq_refl t). unfold phi in T2. rewrite Hst in T2. cbn [wsum w_pre] in T2. clear - T2. lia.
                 --- cbn. clear - Tt. lia.
                 --- intros t' X. specialize (T1' t'). destruct (Z.eqb_spec t' w); [congruence|clear - T1'; lia].
        -- (* BTIns *)
           assert (HN : holds n (FBT BTIns n) = true) by apply Z.eqb_refl.
           destruct (C n) as [AL NFr]; [rewrite (OWF n HN); discriminate|].
           cbn in QF. pose proof QF as QF'. apply memb_not in QF'.
           inversion Hfs; subst e; clear Hfs Hfs0.
           apply (nodes_put s t (FBT BTIns n) r); auto; cbn [e_g e_fr e_child e_new]; rewrite ?QF'; cbn; auto.
           ** exists ow. split; [|split]; auto. intros m. own_cbn OW1 m. clear - OW1. lia.
           ** intros m J. destruct (ni_free _ N m J) as [X Y]. split; [exact X|].
              intros [E|Z]; [|exact (Y Z)]. subst m. exact (NFr J).
           ** intros m [E|J]; [subst; now right|]. exact (ni_list _ N m J).
           ** constructor; [exact QF|]. exact (ni_ndl _ N).
           ** exact (ni_ndf _ N).
           ** exact (ni_chunk _ N).
           ** intros f' [<-|[]]. cbn. now left.
           ** intros t' f' D. apply (Qlist_list (s_g s)); auto; [|eapply QO; eauto].
              intros m H. cbn. split; [|now right]. intros [E|J]; [|exact J].
              exfalso. subst m. rewrite (UNI n t' f' HN D) in H. discriminate.
           ** intros [E|J].
              --- subst n. unfold alloc, MAIN_TN in AL. clear - AL. lia.
              --- destruct (MO J) as (X & Y & Z). cbn in Y. split; [exact X|]. split; [clear - Y; lia|exact Z].
        -- (* CLRemove *)
           assert (HN : holds n (FClean CLRemove n) = true) by apply Z.eqb_refl.
           destruct (C n) as [AL NFr]; [rewrite (OWF n HN); discriminate|].
           cbn in QF. pose proof QF as QF'. apply memb_in in QF'.
           inversion Hfs; subst e; clear Hfs Hfs0.
           apply (nodes_put s t (FClean CLRemove n) r); auto; cbn [e_g e_fr e_child e_new]; rewrite ?QF'; cbn; auto.
           ** exists ow. split; [|split]; auto. intros m. own_cbn OW1 m. clear - OW1. lia.
           ** intros m J. destruct (ni_free _ N m J) as [X Y]. split; [exact X|].
              rewrite without_in. tauto.
           ** intros m J. apply without_in in J. exact (ni_list _ N m (proj1 J)).
           ** apply without_nodup. exact (ni_ndl _ N).
           ** exact (ni_ndf _ N).
           ** exact (ni_chunk _ N).
           ** intros f' [<-|[]]. cbn. rewrite without_in. tauto.
           ** intros t' f' D. apply (Qlist_list (s_g s)); auto; [|eapply QO; eauto].
              intros m H. cbn. rewrite without_in. split; [tauto|]. intros J. split; [exact J|].
              intros E. subst m. rewrite (UNI n t' f' HN D) in H. discriminate.
           ** intros J. apply without_in in J. destruct (MO (proj1 J)) as (X & Y & Z). cbn in Y.
              split; [exact X|]. split; [clear - Y; lia|exact Z].
        -- (* CLFree *)
           assert (HN : holds n (FClean CLFree n) = true) by apply Z.eqb_refl.
           pose proof (OWF n HN) as OWn.
           destruct (C n) as [AL NFr]; [rewrite OWn; discriminate|].
           cbn in QF. pose proof NFr as QF'. apply memb_not in QF'.
           inversion Hfs; subst e; clear Hfs Hfs0.
           apply (nodes_put s t (FClean CLFree n) r); auto; cbn [e_g e_fr e_child e_new]; rewrite ?QF'; cbn; auto.
           ** exists (upd ow n None). split; [|split].
              --- intros m. own_cbn OW1 m. rewrite upd_if.
                  destruct (Z.eqb_spec m n) as [->|X]; [|cbn [b2n] in *; clear - OW1; lia].
                  rewrite OWn, ?Z.eqb_refl in OW1. cbn [b2n] in OW1. clear - OW1. lia.
              --- intros t' m X. specialize (A t' m). rewrite upd_if. destruct (Z.eqb_spec m n) as [->|Y]; [|exact A].
                  rewrite OWn in A. destruct (Z.eqb_spec t t'); [congruence|clear - A; lia].
              --- intros m X. rewrite upd_if in X. destruct (Z.eqb_spec m n) as [E|Y]; [congruence|].
                  destruct (C m X) as [C1 C2]. split; [exact C1|]. intros [E|J]; [congruence|exact (C2 J)].
           ** intros m [<-|J]; [split; assumption|]. exact (ni_free _ N m J).
           ** exact (ni_list _ N).
           ** exact (ni_ndl _ N).
           ** constructor; [exact NFr|]. exact (ni_ndf _ N).
           ** exact (ni_chunk _ N).
           ** intros f' [<-|[]]. exact I.
           ** intros t' f' D. apply (Qlist_unlocked (s_g s)); auto; [|eapply QO; eauto].
              apply (LK eq_refl t' f' D).
           ** intros J. destruct (MO J) as (X & Y & Z). cbn in Y.
              split; [exact X|]. split; [clear - Y; lia|exact Z].
        -- (* FPCInit *)
           destruct (g_used (s_g s)) eqn:U.
           ++ refine (nodes_same dyn s _ CStep _ r e W HI LV Hst Hfs0 _ _ _ _ _ _); clear Hfs0; inversion Hfs; subst e; clear Hfs; cbn; same_tac.
           ++ assert (TM : t = MAIN).
              { destruct (Z.eq_dec t MAIN) as [E|X]; [exact E|].
                pose proof (who_alone _ W U t X) as Y. rewrite LV in Y. discriminate. }
              subst t. inversion Hfs; subst e; clear Hfs Hfs0.
              apply (nodes_clear s (FPCInit q) r); auto; try reflexivity.
              ** intros t' X. apply (who_dead _ W). now apply (who_alone _ W U).
              ** apply existsb_false_all. intros f' J. destruct (creating f') eqn:CR; [|reflexivity].
                 rewrite (who_create _ W MAIN f') in U; [discriminate|rewrite Hst; now right|exact CR].
              ** right. intros f' [<-|[]]. split; [exact I|reflexivity].
        -- (* FPCTake *)
           cbn in QF. destruct (ni_free _ N n QF) as [AL NL].
           pose proof QF as QF'. apply memb_in in QF'.
           assert (OWn : ow n = None).
           { destruct (ow n) eqn:E; [|reflexivity]. destruct (C n) as [_ X]; [congruence|]. now destruct X. }
           inversion Hfs; subst e; clear Hfs Hfs0.
           apply (nodes_put s t (FPCTake q my d n) r); auto; cbn [e_g e_fr e_child e_new]; rewrite ?QF'; cbn; auto.
           ** exists (upd ow n (Some t)). split; [|split].
              --- intros m. own_cbn OW1 m. rewrite upd_if.
                  destruct (Z.eqb_spec m n) as [->|X]; [|cbn [b2n] in *; clear - OW1; lia].
                  rewrite OWn in OW1. rewrite ?Z.eqb_refl. cbn [b2n]. clear - OW1. lia.
              --- intros t' m X. specialize (A t' m). rewrite upd_if. destruct (Z.eqb_spec m n) as [->|Y]; [|exact A].
                  rewrite OWn in A. clear - A. lia.
              --- intros m X. rewrite upd_if in X. rewrite without_in.
                  destruct (Z.eqb_spec m n) as [E|Y]; [subst m; split; [exact AL|tauto]|].
                  destruct (C m X) as [C1 C2]. tauto.
           ** intros m J. apply without_in in J. exact (ni_free _ N m (proj1 J)).
           ** exact (ni_list _ N).
           ** exact (ni_ndl _ N).
           ** apply without_nodup. exact (ni_ndf _ N).
           ** exact (ni_chunk _ N).
           ** intros f' [<-|[]]. exact NL.
           ** intros t' f' D. apply (Qlist_unlocked (s_g s)); auto; [|eapply QO; eauto].
              apply (LK eq_refl t' f' D).
           ** intros J. destruct (MO J) as (X & Y & Z). cbn in Y.
              split; [exact X|]. split; [clear - Y; lia|exact Z].
        -- (* FPCArray *)
           pose proof (ni_chunk _ N) as CH.
           destruct (g_pos (s_g s) <? TN_ARRAY_SIZE)%Z eqn:PO.
           ++ apply Z.ltb_lt in PO.
              refine (nodes_same dyn s _ CStep _ r e W HI LV Hst Hfs0 _ _ _ _ _ _); clear Hfs0; inversion Hfs; subst e; clear Hfs; cbn; same_tac.
           ++ set (n := array_node (g_chunks (s_g s)) 0) in *.
              assert (BIG : forall m, alloc (s_g s) m -> (m < n)%Z).
              { intros m X. unfold alloc in X. unfold n, array_node. unfold TN_ARRAY_SIZE in *. clear - X CH. lia. }
              assert (OWn : ow n = None).
              { destruct (ow n) eqn:E; [|reflexivity]. destruct (C n) as [X _]; [congruence|].
                apply BIG in X. now destruct (Z.lt_irrefl _ X). }
              assert (NL : ~ In n (g_list (s_g s))).
              { intros J. destruct (ni_list _ N n J) as [X|X]; [|apply BIG in X; now destruct (Z.lt_irrefl _ X)].
                unfold n, array_node, MAIN_TN, TN_ARRAY_SIZE in *. clear - X CH. lia. }
              assert (UP : forall m, alloc (s_g s) m \/ m = n ->
                 (1 <= m <= g_chunks (s_g s) * TN_ARRAY_SIZE + 1)%Z).
              { intros m [X | ->]; [unfold alloc in X|unfold n, array_node]; unfold TN_ARRAY_SIZE in *; [clear - X CH|clear - CH]; lia. }
              inversion Hfs; subst e; clear Hfs Hfs0.
              apply (nodes_put s t (FPCArray q my d) r); auto; unfold alloc; cbn [e_g e_fr e_child e_new]; cbn; auto.
              ** exists (upd ow n (Some t)). split; [|split].
                 --- intros m. own_cbn OW1 m. rewrite upd_if.
                     destruct (Z.eqb_spec m n) as [->|X]; [|cbn [b2n] in *; clear - OW1; lia].
                     rewrite OWn in OW1. rewrite ?Z.eqb_refl. cbn [b2n]. clear - OW1. lia.
                 --- intros t' m X. specialize (A t' m). rewrite upd_if.
                     destruct (Z.eqb_spec m n) as [->|Y]; [|exact A]. rewrite OWn in A. clear - A. lia.
                 --- intros m X. rewrite upd_if in X.
                     destruct (Z.eqb_spec m n) as [E|Y].
                     +++ subst m. split; [apply UP; now right|]. intros J. destruct (ni_free _ N n J) as [Z _].
                         apply BIG in Z. now destruct (Z.lt_irrefl _ Z).
                     +++ destruct (C m X) as [C1 C2]. split; [apply UP; now left|exact C2].
              ** intros m J. destruct (ni_free _ N m J) as [X Y]. split; [apply UP; now left|exact Y].
              ** intros m J. destruct (ni_list _ N m J) as [X|X]; [now left|right; apply UP; now left].
              ** exact (ni_ndl _ N).
              ** exact (ni_ndf _ N).
              ** unfold TN_ARRAY_SIZE in *. clear - CH PO. lia.
              ** intros f' [<-|[]]. exact NL.
              ** intros t' f' D. apply (Qlist_unlocked (s_g s)); auto; [|eapply QO; eauto].
                 apply (LK eq_refl t' f' D).
              ** intros J. destruct (MO J) as (X & Y & Z). cbn in Y.
                 split; [exact X|]. split; [clear - Y; lia|exact Z].
        -- (* FPCInc *)
           cbn in QF. destruct QF as [En PO]. pose proof (ni_chunk _ N) as CH.
           assert (BIG : forall m, alloc (s_g s) m -> (m < n)%Z).
           { intros m X. unfold alloc in X. rewrite En. unfold array_node. clear - X CH. lia. }
           assert (OWn : ow n = None).
           { destruct (ow n) eqn:E; [|reflexivity]. destruct (C n) as [X _]; [congruence|].
             apply BIG in X. now destruct (Z.lt_irrefl _ X). }
           assert (NL : ~ In n (g_list (s_g s))).
           { intros J. destruct (ni_list _ N n J) as [X|X]; [|apply BIG in X; now destruct (Z.lt_irrefl _ X)].
             rewrite En in X. unfold array_node, MAIN_TN, TN_ARRAY_SIZE in *. clear - X CH. lia. }
           assert (UP : forall m, alloc (s_g s) m \/ m = n ->
              (1 <= m <= g_chunk (s_g s) * TN_ARRAY_SIZE + (g_pos (s_g s) + 1))%Z).
           { intros m [X | ->]; [unfold alloc in X|rewrite En; unfold array_node]; unfold TN_ARRAY_SIZE in *; [clear - X CH|clear - CH]; lia. }
           inversion Hfs; subst e; clear Hfs Hfs0.
           apply (nodes_put s t (FPCInc q my d n) r); auto; unfold alloc; cbn [e_g e_fr e_child e_new]; cbn; auto.
           ** exists (upd ow n (Some t)). split; [|split].
              --- intros m. own_cbn OW1 m. rewrite upd_if.
                  destruct (Z.eqb_spec m n) as [->|X]; [|cbn [b2n] in *; clear - OW1; lia].
                  rewrite OWn in OW1. rewrite ?Z.eqb_refl. cbn [b2n]. clear - OW1. lia.
              --- intros t' m X. specialize (A t' m). rewrite upd_if.
                  destruct (Z.eqb_spec m n) as [->|Y]; [|exact A]. rewrite OWn in A. clear - A. lia.
              --- intros m X. rewrite upd_if in X.
                  destruct (Z.eqb_spec m n) as [E|Y].
                  +++ subst m. split; [apply UP; now right|]. intros J. destruct (ni_free _ N n J) as [Z _].
                      apply BIG in Z. now destruct (Z.lt_irrefl _ Z).
                  +++ destruct (C m X) as [C1 C2]. split; [apply UP; now left|exact C2].
           ** intros m J. destruct (ni_free _ N m J) as [X Y]. split; [apply UP; now left|exact Y].
           ** intros m J. destruct (ni_list _ N m J) as [X|X]; [now left|right; apply UP; now left].
           ** exact (ni_ndl _ N).
           ** exact (ni_ndf _ N).
           ** unfold TN_ARRAY_SIZE in *. clear - CH PO. lia.
           ** intros f' [<-|[]]. exact NL.
           ** intros t' f' D. apply (Qlist_unlocked (s_g s)); auto; [|eapply QO; eauto].
              apply (LK eq_refl t' f' D).
           ** intros J. destruct (MO J) as (X & Y & Z). cbn in Y.
              split; [exact X|]. split; [clear - Y; lia|exact Z].
        -- (* FRFReset *)
           destruct (who_reset _ W t) as (-> & (f0 & r0 & B1 & B2 & B3 & B4) & DL); [rewrite Hst; reflexivity|].
           rewrite Hst in B1. inversion B1; subst f0 r0. clear B1.
           destruct (g_used (s_g s)) eqn:U.
           ++ inversion Hfs; subst e; clear Hfs Hfs0.
              apply (nodes_clear s FRFReset r); auto;
                try (intros t' X; apply (who_dead _ W); now apply DL);
                unfold reset_list; rewrite U; cbn; g_brk; auto.
           ++ refine (nodes_same dyn s _ CStep _ r e W HI LV Hst Hfs0 _ _ _ _ _ _); clear Hfs0; inversion Hfs; subst e; clear Hfs; unfold reset_list; rewrite ?U; cbn; same_tac.
Qed.
