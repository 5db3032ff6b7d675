(** Who waits for the thread lock, and for how long. *)
From Verif Require Export LifeBcast LifeLockSpec.

Local Open Scope nat_scope.

(** ** The holder of the lock releases it *)

Definition cost (g : glob) (f : frame) : nat :=
  match f with
  | FSSet _ => 2 | FSUnlock _ => 1
  | FBT BTChk _ => 5 | FBT BTRead _ => 4 | FBT (BTNum _) _ => 3 | FBT BTIns _ => 2 | FBT BTUnlock _ => 1 | FBT BTRefuse _ => 1
  | FClean CLExit _ => 5 | FClean CLMark1 _ => 3 | FClean CLMark2 _ => 2 | FClean CLRemove _ => 4 | FClean CLZero _ => 3
  | FClean CLFree _ => 2 | FClean CLUnlock _ => 1
  | FPCPick _ _ _ => 5 | FPCTake _ _ _ _ => 3 | FPCArray _ _ _ => 4 | FPCInc _ _ _ _ => 3 | FPCZero _ _ _ _ => 2 | FPCUnlock _ _ _ _ => 1
  | FBcFirst _ => length (g_list g) + 4 | FBcNode _ l => length l + 3 | FBcMain _ => 2 | FBcUnlock => 1
  | _ => 0
  end.

Lemma insert_keep n l set g : (forall v x, g_lock (set v x) = g_lock x /\ g_dead (set v x) = g_dead x) ->
  g_lock (list_insert n l set g) = g_lock g /\ g_dead (list_insert n l set g) = g_dead g.
Proof. intros H. unfold list_insert. destruct (H (n :: l) (if memb n l then set_g_bad true g else g)) as [-> ->]. destruct (memb n l); auto. Qed.
Lemma delete_keep n l set g : (forall v x, g_lock (set v x) = g_lock x /\ g_dead (set v x) = g_dead x) ->
  g_lock (list_delete n l set g) = g_lock g /\ g_dead (list_delete n l set g) = g_dead g.
Proof. intros H. unfold list_delete. destruct (H (without n l) (if memb n l then g else set_g_bad true g)) as [-> ->]. destruct (memb n l); auto. Qed.

Lemma locked_step dyn t u g tsd nc f : locked f = true ->
  exists e, frame_step dyn t u g tsd nc f CStep = Some e /\ e_child e = false /\ e_new e = None /\ e_kill e = None /\
    g_dead (e_g e) = g_dead g /\
    ((g_lock (e_g e) = None) \/
     (g_lock (e_g e) = g_lock g /\ exists f', e_fr e = [f'] /\ locked f' = true /\ cost (e_g e) f' < cost g f)).
Proof.
  intros L. destruct f; try discriminate L; try (destruct p; try discriminate L); cbn [frame_step auto_step bt_step cl_step];
    try (destruct (g_inexit g)); try (destruct (g_free g)); try (destruct (_ <? _)%Z); try destruct rest;
    try (eexists; split; [reflexivity|]; repeat split; auto; right; split; [reflexivity|]; eexists; split; [reflexivity|]; split; [reflexivity|]; cbn; lia).
  all: try (eexists; split; [reflexivity|]; repeat split; auto; fail).
  all: eexists; split; [reflexivity|]; cbn [e_child e_new e_kill e_g e_fr]; do 3 (split; [reflexivity|]);
    match goal with
    | |- context [list_insert ?n ?l ?set ?g] => destruct (insert_keep n l set g) as [-> ->]; [auto|]
    | |- context [list_delete ?n ?l ?set ?g] => destruct (delete_keep n l set g) as [-> ->]; [auto|]
    end; split; [reflexivity|]; right; split; [reflexivity|]; eexists; split; [reflexivity|]; split; [reflexivity|]; cbn; lia.
Qed.

Lemma tick_locked dyn s t f r : g_dead (s_g s) = false -> th_live (s_th s t) = true -> th_stack (s_th s t) = f :: r -> locked f = true ->
  exists s', step dyn s t CStep = Some s' /\ g_dead (s_g s') = false /\ th_live (s_th s' t) = true /\
    (forall u, u <> t -> s_th s' u = s_th s u) /\
    (g_lock (s_g s') = None \/
     g_lock (s_g s') = g_lock (s_g s) /\ exists f', th_stack (s_th s' t) = f' :: r /\ locked f' = true /\ cost (s_g s') f' < cost (s_g s) f).
Proof.
  intros D L ST LF. destruct (locked_step dyn t (s_next s) (s_g s) (th_tsd (s_th s t)) (th_nc (s_th s t)) f LF) as (e & F & C & N & K & DE & X).
  assert (U : is_unwind f = false) by (destruct f; try discriminate LF; reflexivity).
  exists (apply_eff s t (s_th s t) r e). split.
  { unfold step. rewrite D, L, ST, U, F. reflexivity. }
  unfold apply_eff. rewrite C, N, K. cbn [s_g s_th]. rewrite upd_same. cbn [th_live th_stack]. split; [congruence|]. split; [reflexivity|].
  split; [intros u NE; now rewrite upd_other|].
  destruct X as [X|(X & f' & E & LF' & CO)]; [now left|right]. split; [exact X|]. exists f'. rewrite E. auto.
Qed.

Lemma releases dyn t r : forall k s f, cost (s_g s) f <= k -> g_dead (s_g s) = false -> th_live (s_th s t) = true ->
  th_stack (s_th s t) = f :: r -> locked f = true ->
  exists j s', run dyn s (ticks t j) = Some s' /\ g_lock (s_g s') = None /\ g_dead (s_g s') = false /\ j <= S k /\
    (forall u, u <> t -> s_th s' u = s_th s u).
Proof.
  induction k as [|k IH]; intros s f CO D L ST LF;
    destruct (tick_locked dyn s t f r D L ST LF) as (s1 & H1 & D1 & L1 & O1 & [X|(X & f' & S1 & LF' & C1)]).
  - exists 1, s1. cbn. rewrite H1. auto.
  - lia.
  - exists 1, s1. cbn. rewrite H1. repeat split; auto. lia.
  - destruct (IH s1 f') as (j & s2 & H2 & LK & D2 & J & O2); auto; [lia|].
    exists (S j), s2. cbn. rewrite H1. repeat split; auto; [lia|]. intros u NE. rewrite O2, O1; auto.
Qed.

Lemma shielded_any dyn s : reach dyn shielded s -> reach dyn any s.
Proof. apply reach_weaken. intros; exact I. Qed.

Lemma locked_next dyn t u g tsd nc f c e : frame_step dyn t u g tsd nc f c = Some e -> locked f = true ->
  g_lock (e_g e) = None \/ exists f', e_fr e = [f'] /\ locked f' = true.
Proof.
  intros H L. fs_cases H; try discriminate L; brk H; inversion H; subst; clear H; cbn; auto; try discriminate L; right; eauto.
Qed.
Lemma taken_next dyn t u g tsd nc f c e : frame_step dyn t u g tsd nc f c = Some e -> g_lock g = None -> g_lock (e_g e) <> None ->
  g_lock (e_g e) = Some t /\ exists f', e_fr e = [f'] /\ locked f' = true.
Proof.
  intros H L N. destruct (lock_local _ _ _ _ _ _ _ _ _ H) as (_ & X).
  destruct (locked f); destruct X as [X|X]; try (destruct X; congruence). destruct X as (_ & E & W). split; [exact E|].
  clear E L N. fs_cases H; brk H; inversion H; subst; clear H; cbn in W; try discriminate W; cbn; eauto.
Qed.

Lemma live_below dyn s t : reach dyn any s -> th_live (s_th s t) = true -> (t < s_next s)%Z.
Proof.
  intros R L. destruct (Z.ltb_spec t (s_next s)) as [X|X]; [exact X|].
  destruct (born_fresh _ (born_reach _ _ R) t X) as (_ & Y & _). congruence.
Qed.

Definition holder_inv (s : state) : Prop :=
  forall h, g_lock (s_g s) = Some h ->
    th_live (s_th s h) = true /\ exists f r, th_stack (s_th s h) = f :: r /\ locked f = true.

Lemma holder_reach dyn s : reach dyn shielded s -> holder_inv s.
Proof.
  apply (reach_invariant dyn shielded holder_inv); [intros h X; discriminate X|].
  clear s. intros s t c s' R HI [FF SH] HS. pose proof (shielded_any _ _ R) as RA.
  pose proof (lock_reach _ _ RA) as LI. pose proof (born_reach _ _ RA) as BO.
  apply step_view in HS. destruct HS as (_ & LV & V). intros h LH.
  assert (OTHER : s_g s' = s_g s -> c <> CStep -> (forall u, u <> t -> s_th s' u = s_th s u) ->
     th_live (s_th s' h) = true /\ exists f r, th_stack (s_th s' h) = f :: r /\ locked f = true).
  { intros EG NC O. rewrite EG in LH. destruct (HI h LH) as (LVH & f & r & ST & LF).
    destruct (Z.eq_dec h t) as [->|NE]; [exfalso; apply NC; eapply SH; eauto|].
    rewrite (O h NE). eauto. }
  assert (OT : forall x, (forall u, u <> t -> upd (s_th s) t x u = s_th s u)) by (intros x u NE; now rewrite upd_other).
  destruct V as [| | | | |r0 Ec Est| |f r e Hst Hun Hbar Hfs Es']; subst.
  - apply OTHER; [reflexivity|discriminate|apply OT].
  - apply OTHER; [reflexivity|discriminate|apply OT].
  - apply OTHER; [reflexivity|discriminate|apply OT].
  - apply OTHER; [reflexivity|discriminate|apply OT].
  - apply OTHER; [reflexivity|discriminate|apply OT].
  - cbn in LH |- *. destruct (HI h LH) as (LVH & f & r & ST & LF). rewrite upd_if.
    destruct (Z.eqb_spec h t) as [->|NE]; [|eauto]. rewrite Est in ST. inversion ST; subst. discriminate LF.
  - cbn in LH |- *. destruct (HI h LH) as (LVH & f & r & ST & LF). rewrite upd_if.
    destruct (Z.eqb_spec h t) as [->|NE]; [|eauto]. congruence.
  - rewrite apply_g in LH.
    destruct (g_lock (s_g s)) as [h0|] eqn:LK.
    + destruct (HI h0 LK) as (LVH & f0 & r0 & ST & LF).
      assert (NCH : e_child e = false).
      { destruct (e_child e) eqn:C; [|reflexivity]. exfalso.
        destruct (child_shape _ _ _ _ _ _ _ _ _ Hfs C) as (X & _). assert (c = CChild) by (destruct c; auto; congruence).
        specialize (FF H). congruence. }
      destruct (lock_local _ _ _ _ _ _ _ _ _ Hfs) as (_ & LL).
      destruct (Z.eq_dec h0 t) as [->|NE].
      * rewrite ST in Hst. inversion Hst; subst f0 r0.
        destruct (locked_next _ _ _ _ _ _ _ _ _ Hfs LF) as [X|(f' & E & LF')]; [congruence|].
        rewrite LF in LL. destruct LL as [[X _]|[X _]]; [|congruence].
        assert (h = t) by congruence. subst h.
        assert (NW : t <> s_next s) by (pose proof (live_below _ _ t RA LV); lia).
        rewrite apply_live, apply_stack by auto. rewrite E. rewrite Z.eqb_refl. rewrite (proj2 (Z.eqb_neq _ _) NW).
        destruct (e_new e); cbn; eauto.
      * assert (locked f = false).
        { destruct (locked f) eqn:LF1; [|reflexivity]. exfalso. pose proof (LI t) as Q. unfold held in Q. rewrite LK in Q.
          rewrite Hst in Q. cbn in Q. unfold w_lock at 1 in Q. rewrite LF1 in Q. cbn in Q.
          destruct (Z.eqb_spec h0 t); [contradiction|lia]. }
        rewrite H in LL. destruct LL as [[X _]|[X _]]; [|congruence]. assert (h = h0) by congruence. subst h0.
        assert (NW : h <> s_next s) by (pose proof (live_below _ _ h RA LVH); lia).
        rewrite apply_live, apply_stack by auto. rewrite (proj2 (Z.eqb_neq _ _) NW), (proj2 (Z.eqb_neq _ _) NE).
        destruct (e_new e); eauto.
    + destruct (taken_next _ _ _ _ _ _ _ _ _ Hfs LK) as (X & f' & E & LF'); [congruence|].
      assert (h = t) by congruence. subst h.
      assert (NCH : e_child e = false).
      { destruct (e_child e) eqn:C; [|reflexivity]. destruct (child_shape _ _ _ _ _ _ _ _ _ Hfs C) as (_ & Y & _). congruence. }
      assert (NW : t <> s_next s) by (pose proof (live_below _ _ t RA LV); lia).
      rewrite apply_live, apply_stack by auto. rewrite E. rewrite Z.eqb_refl. rewrite (proj2 (Z.eqb_neq _ _) NW).
      destruct (e_new e); cbn; eauto.
Qed.

(** A thread that waits for the lock gets it when its holder has run. *)
Lemma waiter_goes dyn s t f r : reach dyn shielded s -> g_dead (s_g s) = false -> th_live (s_th s t) = true ->
  th_stack (s_th s t) = f :: r -> waiting f = true ->
  exists h k s' s'', run dyn s (ticks h k) = Some s' /\ h <> t /\ step dyn s' t CStep = Some s'' /\ g_lock (s_g s'') = Some t.
Proof.
  intros R D L ST W.
  assert (GO : forall s', g_dead (s_g s') = false -> s_th s' t = s_th s t -> g_lock (s_g s') = None ->
     exists s'', step dyn s' t CStep = Some s'' /\ g_lock (s_g s'') = Some t).
  { intros s' D' E LK. unfold step. rewrite D', E, L, ST. cbn [orb negb].
    assert (U : is_unwind f = false) by (destruct f; try discriminate W; reflexivity). rewrite U. cbn [barred].
    destruct f; try discriminate W; try (destruct p; try discriminate W); cbn [frame_step auto_step bt_step cl_step]; rewrite LK;
      (eexists; split; [reflexivity|]); rewrite apply_g; reflexivity. }
  destruct (g_lock (s_g s)) as [h|] eqn:LK.
  - destruct (holder_reach _ _ R h LK) as (LH & f0 & r0 & ST0 & LF).
    assert (NE : h <> t) by (intros ->; rewrite ST in ST0; inversion ST0; subst; destruct f0; try discriminate W; try discriminate LF; destruct p; discriminate).
    destruct (releases dyn h r0 _ s f0 (le_n _) D LH ST0 LF) as (k & s' & H & LN & D' & _ & O).
    destruct (GO s' D' (O t (fun E => NE (eq_sym E))) LN) as (s'' & A & B). exists h, k, s', s''. auto.
  - destruct (GO s D eq_refl LK) as (s'' & A & B). exists (t + 1)%Z, 0, s, s''. cbn. repeat split; auto. lia.
Qed.

(** ** A thread that waits for its own lock *)

Lemma stuck_step dyn s t x f y u c s' : reach dyn any s -> th_stack (s_th s t) = x ++ f :: y -> waiting f = true ->
  existsb locked y = true -> step dyn s u c = Some s' -> c <> CChild ->
  exists x', th_stack (s_th s' t) = x' ++ f :: y.
Proof.
  intros R ST W LY HS NC. pose proof (lock_reach _ _ R) as LI. pose proof (born_reach _ _ R) as BO.
  assert (LS : existsb locked (th_stack (s_th s t)) = true) by (rewrite ST, existsb_app; cbn; rewrite LY; now rewrite !orb_true_r).
  assert (LK : g_lock (s_g s) = Some t).
  { apply existsb_exists in LS. destruct LS as (f0 & I0 & L0). pose proof (w_lock_in _ _ I0 L0) as Q. pose proof (LI t) as Q'. unfold held in Q'.
    destruct (g_lock (s_g s)) as [h|]; [|lia]. destruct (Z.eqb_spec h t); [congruence|lia]. }
  apply step_view in HS. destruct HS as (_ & LV & V).
  assert (PUT : forall z, u <> t -> th_stack (upd (s_th s) u z t) = x ++ f :: y) by (intros z NE; rewrite upd_other by auto; exact ST).
  destruct V as [| | | |f0 r0 Ec Est Enc Elk|r0 Ec Est Elk|Ec Est|f0 r e Hst Hun Hbar Hfs Es']; subst.
  1-4: cbn [add_ev set_th s_th]; destruct (Z.eq_dec t u) as [<-|NE]; [rewrite upd_same; cbn; rewrite ST|exists x; apply PUT; auto].
  - exists (FApp AppHandler :: x). reflexivity.
  - exists (FEPGet EXIT_SIGNAL :: FEndLibDyn :: FSigEnd :: x). reflexivity.
  - exists (FHGet :: x). reflexivity.
  - exists (FWGet :: x). reflexivity.
  - destruct (Z.eq_dec t u) as [<-|NE]; [congruence|exists x; apply PUT; auto].
  - destruct (Z.eq_dec t u) as [<-|NE]; [|exists x; apply PUT; auto]. exfalso. rewrite Est in LS. cbn in LS. congruence.
  - destruct (Z.eq_dec t u) as [<-|NE]; [|exists x; apply PUT; auto]. exfalso. rewrite Est in LS. discriminate.
  - assert (NCH : e_child e = false).
    { destruct (e_child e) eqn:C; [|reflexivity]. destruct (child_shape _ _ _ _ _ _ _ _ _ Hfs C) as (Y & _). congruence. }
    rewrite apply_stack by auto.
    assert (LT : th_live (s_th s t) = true) by (eapply live_in; [exact R|rewrite ST; apply in_or_app; right; now left]).
    assert (NW : t <> s_next s) by (pose proof (live_below _ _ t R LT); lia).
    rewrite (proj2 (Z.eqb_neq _ _) NW).
    assert (X : exists x', (if (t =? u)%Z then e_fr e ++ r else th_stack (s_th s t)) = x' ++ f :: y).
    { destruct (Z.eqb_spec t u) as [<-|NE]; [|exists x; exact ST].
      rewrite ST in Hst. destruct x as [|f1 x1]; cbn in Hst; inversion Hst; subst.
      - exfalso. clear - W LK Hfs. destruct f0; try discriminate W; try (destruct p; try discriminate W); destruct c; try discriminate Hfs;
          cbn in Hfs; rewrite LK in Hfs; discriminate Hfs.
      - exists (e_fr e ++ x1). now rewrite <- app_assoc. }
    destruct (e_new e); exact X.
Qed.

Lemma stuck_run dyn t f y l : forall s x s', reach dyn any s -> th_stack (s_th s t) = x ++ f :: y -> waiting f = true ->
  existsb locked y = true -> stays l -> run dyn s l = Some s' ->
  exists x', th_stack (s_th s' t) = x' ++ f :: y.
Proof.
  induction l as [|[u c] l IH]; intros s x s' R ST W LY SY H; cbn in H.
  - inversion H; subst. eauto.
  - destruct (step dyn s u c) as [s1|] eqn:E; [|discriminate].
    destruct (stuck_step _ _ _ _ _ _ _ _ _ R ST W LY E) as (x1 & S1); [intros ->; apply (SY u); now left|].
    apply (IH s1 x1 s'); auto; [eapply reach_step; eauto; exact I|]. intros v J. apply (SY v). now right.
Qed.

(** ** A lock whose holder is not in the process *)

Lemma orphan_step dyn s h u c s' : reach dyn any s -> g_lock (s_g s) = Some h -> th_live (s_th s h) = false -> (h < s_next s)%Z ->
  step dyn s u c = Some s' -> g_lock (s_g s') = Some h /\ th_live (s_th s' h) = false /\ (h < s_next s')%Z.
Proof.
  intros R LK LD HN HS. pose proof (lock_reach _ _ R) as LI. apply step_view in HS. destruct HS as (_ & LV & V).
  assert (NE : h <> u) by congruence.
  assert (PUT : forall z, th_live (upd (s_th s) u z h) = false) by (intros z; rewrite upd_other; auto).
  destruct V as [| | | | | | |f r e Hst Hun Hbar Hfs Es']; subst; try (repeat split; [exact LK|apply PUT|exact HN]).
  assert (NW : h <> s_next s) by lia.
  rewrite apply_g. destruct (lock_local _ _ _ _ _ _ _ _ _ Hfs) as (_ & LL).
  assert (NL : locked f = false).
  { destruct (locked f) eqn:LF1; [|reflexivity]. exfalso. pose proof (LI u) as Q. unfold held in Q. rewrite LK in Q.
    rewrite Hst in Q. cbn in Q. unfold w_lock at 1 in Q. rewrite LF1 in Q. cbn in Q. destruct (Z.eqb_spec h u); [contradiction|lia]. }
  rewrite NL in LL. destruct LL as [[X _]|[X _]]; [|congruence]. split; [congruence|].
  destruct (e_child e) eqn:C.
  - destruct (child_shape _ _ _ _ _ _ _ _ _ Hfs C) as (_ & _ & _ & _ & _ & N & K & _).
    unfold apply_eff. rewrite C, N, K. cbn. rewrite upd_other by auto. auto.
  - rewrite apply_live by auto. rewrite (proj2 (Z.eqb_neq _ _) NW), (proj2 (Z.eqb_neq _ _) NE). rewrite apply_next.
    destruct (e_new e); split; auto; lia.
Qed.

Lemma orphan_run dyn h l : forall s s', reach dyn any s -> g_lock (s_g s) = Some h -> th_live (s_th s h) = false -> (h < s_next s)%Z ->
  run dyn s l = Some s' -> g_lock (s_g s') = Some h /\ th_live (s_th s' h) = false.
Proof.
  induction l as [|[u c] l IH]; intros s s' R LK LD HN H; cbn in H.
  - inversion H; subst. auto.
  - destruct (step dyn s u c) as [s1|] eqn:E; [|discriminate].
    destruct (orphan_step _ _ _ _ _ _ R LK LD HN E) as (A & B & C). apply (IH s1 s'); auto. eapply reach_step; eauto. exact I.
Qed.

(** Nobody gets past a lock that is held. *)
Lemma waits dyn s t f r h : th_stack (s_th s t) = f :: r -> waiting f = true -> g_lock (s_g s) = Some h -> step dyn s t CStep = None.
Proof.
  intros ST W LK. unfold step. rewrite ST. destruct (_ || _); [reflexivity|].
  assert (U : is_unwind f = false) by (destruct f; try discriminate W; reflexivity). rewrite U. cbn [barred].
  destruct f; try discriminate W; try (destruct p; try discriminate W); cbn [frame_step auto_step bt_step cl_step]; rewrite LK; reflexivity.
Qed.
