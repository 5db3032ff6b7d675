From Verif Require Import QueueModel QueueSpec.

Fixpoint dll (q : qheap) (s : slot) (l : list Z) : Prop :=
  match l with
  | [] => q_ptr q s = 0
  | x :: r => q_ptr q s = x /\ x <> 0 /\ q_mem q x = true /\ q_prev q x = Some s /\ dll q (SNext x) r
  end.

Lemma slot_eqb_spec a b : reflect (a = b) (slot_eqb a b).
Proof.
  destruct a as [x|x], b as [y|y]; simpl; try (constructor; discriminate);
    destruct (Z.eqb_spec x y) as [->|N]; constructor; congruence.
Qed.

Lemma dll_det q : forall l s m, dll q s l -> dll q s m -> l = m.
Proof.
  induction l as [|x r IH]; intros s [|y m] Hl Hm; simpl in *.
  - reflexivity.
  - destruct Hm as [E [N _]]. congruence.
  - destruct Hl as [E [N _]]. congruence.
  - destruct Hl as [E [N [_ [_ Hl]]]], Hm as [E' [_ [_ [_ Hm]]]].
    assert (Ey : y = x) by congruence. rewrite Ey in Hm |- *. f_equal. now apply (IH (SNext x)).
Qed.

Lemma dll_suffix q : forall l s a x r, dll q s l -> l = a ++ x :: r -> dll q (SNext x) r.
Proof.
  induction l as [|y l IH]; intros s a x r H E; [destruct a; discriminate|].
  simpl in H. destruct H as [_ [_ [_ [_ H]]]].
  destruct a as [|z a]; simpl in E; injection E as -> ->; [exact H|]. now apply (IH (SNext z) a).
Qed.

Lemma dll_head_notin q : forall l s x r, dll q s l -> l = x :: r -> ~ In x r.
Proof.
  intros l s x r H -> Hin. apply in_split in Hin. destruct Hin as [a [b E]].
  assert (H1 : dll q (SNext x) r) by (simpl in H; tauto).
  assert (H2 : dll q (SNext x) b).
  { apply (dll_suffix q (x :: r) s (x :: a) x b H). now rewrite E. }
  pose proof (dll_det q _ _ _ H1 H2) as D. rewrite D in E.
  apply (f_equal (@length Z)) in E. rewrite app_length in E. simpl in E. lia.
Qed.

Lemma dll_nodup q : forall l s, dll q s l -> NoDup l.
Proof.
  induction l as [|x r IH]; intros s H; constructor.
  - now apply (dll_head_notin q (x :: r) s x r).
  - apply (IH (SNext x)). simpl in H. tauto.
Qed.

(** Every element's back pointer is the slot that holds it. *)
Lemma dll_prev q : forall l s a x r, dll q s l -> l = a ++ x :: r ->
  q_prev q x = Some (match rev a with [] => s | y :: _ => SNext y end) /\ x <> 0 /\ q_mem q x = true.
Proof.
  induction l as [|y l IH]; intros s a x r H E; [destruct a; discriminate|].
  simpl in H. destruct H as [H1 [H2 [H3 [H4 H]]]].
  destruct a as [|z a]; simpl in E; injection E as -> ->; [auto|].
  destruct (IH (SNext z) a x r H eq_refl) as [P Q]. split; [|exact Q]. rewrite P. simpl.
  destruct (rev a) as [|w b]; reflexivity.
Qed.

Lemma dll_disjoint q : forall n l m g h x, (length l <= n)%nat ->
  dll q (SFirst g) l -> dll q (SFirst h) m -> g <> h -> In x l -> ~ In x m.
Proof.
  intros n l m g h x _ Hl Hm Hn Hx Hy.
  apply in_split in Hx, Hy. destruct Hx as [a [b E]], Hy as [a' [b' E']].
  revert x b b' a' E E'.
  induction a as [|y a IH] using rev_ind; intros x b b' a' E E'.
  - destruct (dll_prev q l _ [] x b Hl E) as [P _]. destruct (dll_prev q m _ a' x b' Hm E') as [P' _].
    rewrite P in P'. simpl in P'. destruct (rev a'); congruence.
  - destruct (dll_prev q l _ _ x b Hl E) as [P _]. destruct (dll_prev q m _ a' x b' Hm E') as [P' _].
    rewrite P in P'. rewrite rev_app_distr in P'. simpl in P'.
    destruct (rev a') as [|z c] eqn:R; [discriminate|]. injection P' as <-.
    rewrite <- app_assoc in E. apply (IH y _ (x :: b') (rev c)) in E; [exact E|].
    rewrite E', <- (rev_involutive a'), R. simpl. now rewrite <- app_assoc.
Qed.

(** Changing slots and back pointers that a list does not use leaves it alone. *)
Lemma dll_frame q q' : forall l s, dll q s l ->
  q_ptr q' s = q_ptr q s ->
  (forall x, In x l -> q_ptr q' (SNext x) = q_ptr q (SNext x) /\ q_prev q' x = q_prev q x) ->
  q_mem q' = q_mem q -> dll q' s l.
Proof.
  induction l as [|x r IH]; intros s H Hs Hin Hm; simpl in *; [congruence|].
  destruct H as [H1 [H2 [H3 [H4 H5]]]]. rewrite Hm. destruct (Hin x (or_introl eq_refl)) as [A B].
  repeat split; try congruence. apply IH; auto.
Qed.

Lemma slot_ok_next q e : e <> 0 -> q_mem q e = true -> slot_ok q (SNext e) = true.
Proof. intros H1 H2. simpl. rewrite H2. destruct (Z.eqb_spec e 0); [contradiction|reflexivity]. Qed.

Definition ins_heap (q : qheap) (h e : Z) : qheap :=
  let f := q_ptr q (SFirst h) in
  mkqheap
    (fun x => if slot_eqb x (SFirst h) then e else if slot_eqb x (SNext e) then f else q_ptr q x)
    (upd (if f =? 0 then q_prev q else upd (q_prev q) f (Some (SNext e))) e (Some (SFirst h)))
    (q_mem q).

Lemma insert_eq q h e :
  e <> 0 -> q_mem q e = true ->
  (q_ptr q (SFirst h) = 0 \/ q_mem q (q_ptr q (SFirst h)) = true) ->
  list_insert_head q h e = Some (ins_heap q h e).
Proof.
  intros He Hm Hf. unfold list_insert_head.
  change (get_ptr q (SFirst h)) with (Some (q_ptr q (SFirst h))). cbv iota beta.
  unfold set_ptr at 1. rewrite (slot_ok_next q e He Hm).
  set (f := q_ptr q (SFirst h)) in *.
  destruct (Z.eqb_spec f 0) as [E|N].
  - cbv iota beta. unfold set_ptr. cbn [slot_ok]. unfold set_prev. cbn [q_ptr q_prev q_mem slot_ok].
    rewrite Hm. destruct (Z.eqb_spec e 0) as [?|_]; [contradiction|]. cbn [negb andb].
    unfold ins_heap. fold f. rewrite E. reflexivity.
  - unfold get_ptr at 1. cbn [slot_ok q_ptr slot_eqb].
    unfold set_prev at 1. fold f. rewrite slot_ok_next; [|exact N|cbn; destruct Hf; [contradiction|assumption]].
    unfold set_ptr. cbn [slot_ok]. unfold set_prev. cbn [q_ptr q_prev q_mem slot_ok].
    rewrite Hm. destruct (Z.eqb_spec e 0) as [?|_]; [contradiction|]. cbn [negb andb].
    unfold ins_heap. fold f. destruct (Z.eqb_spec f 0); [contradiction|reflexivity].
Qed.

Lemma insert_ok q h e l :
  dll q (SFirst h) l -> e <> 0 -> q_mem q e = true -> ~ In e l ->
  list_insert_head q h e = Some (ins_heap q h e) /\
  dll (ins_heap q h e) (SFirst h) (e :: l) /\
  forall g m, g <> h -> dll q (SFirst g) m -> ~ In e m -> dll (ins_heap q h e) (SFirst g) m.
Proof.
  intros Hl He Hm Hni.
  assert (Hf : q_ptr q (SFirst h) = 0 \/ q_mem q (q_ptr q (SFirst h)) = true).
  { destruct l as [|x r]; simpl in Hl; [now left|]. right. destruct Hl as [-> [_ [H _]]]. exact H. }
  split; [now apply insert_eq|]. split.
  - simpl. rewrite Z.eqb_refl, upd_same. repeat split; auto.
    destruct l as [|x r].
    + simpl in Hl |- *. rewrite Z.eqb_refl. exact Hl.
    + pose proof (dll_head_notin q (x :: r) _ x r Hl eq_refl) as Hx.
      simpl in Hl. destruct Hl as [H1 [H2 [H3 [H4 H5]]]].
      assert (x <> e) by (intro; subst; apply Hni; now left).
      simpl. rewrite Z.eqb_refl, H1. repeat split; auto.
      * rewrite upd_other by congruence. destruct (Z.eqb_spec x 0); [contradiction|]. apply upd_same.
      * apply (dll_frame q); [exact H5| | |reflexivity].
        -- simpl. destruct (Z.eqb_spec x e); [contradiction|reflexivity].
        -- intros y Hy. assert (y <> e) by (intro; subst; apply Hni; now right).
           assert (y <> x) by (intro; subst; contradiction).
           simpl. destruct (Z.eqb_spec y e); [contradiction|]. split; [reflexivity|].
           rewrite upd_other by congruence. rewrite H1.
           destruct (Z.eqb_spec x 0); [contradiction|]. now rewrite upd_other by congruence.
  - intros g m Hg Hdm Hem. apply (dll_frame q); [exact Hdm| | |reflexivity].
    + simpl. destruct (Z.eqb_spec g h); [contradiction|reflexivity].
    + intros y Hy. assert (y <> e) by (intro; subst; contradiction).
      simpl. destruct (Z.eqb_spec y e); [contradiction|]. split; [reflexivity|].
      rewrite upd_other by congruence. destruct (Z.eqb_spec (q_ptr q (SFirst h)) 0) as [E|N]; [reflexivity|].
      apply upd_other. intro. subst y.
      destruct l as [|x r]; simpl in Hl; [contradiction|].
      assert (Hx : q_ptr q (SFirst h) = x) by tauto. rewrite Hx in Hy.
      revert Hy. apply (dll_disjoint q (length (x :: r)) (x :: r) m h g x); auto.
      now left.
Qed.

Definition rem_heap (q : qheap) (e : Z) (p : slot) : qheap :=
  let n := q_ptr q (SNext e) in
  mkqheap (fun x => if slot_eqb x p then n else q_ptr q x)
    (if n =? 0 then q_prev q else upd (q_prev q) n (Some p)) (q_mem q).

Lemma remove_eq q e p :
  e <> 0 -> q_mem q e = true -> q_prev q e = Some p -> slot_ok q p = true ->
  q_ptr q (SNext e) <> e ->
  (q_ptr q (SNext e) = 0 \/ q_mem q (q_ptr q (SNext e)) = true) ->
  list_remove q e = Some (rem_heap q e p).
Proof.
  intros He Hm Hp Hs Hne Hn. unfold list_remove, get_ptr at 1.
  rewrite (slot_ok_next q e He Hm). set (n := q_ptr q (SNext e)) in *.
  destruct (Z.eqb_spec n 0) as [E|N].
  - unfold get_prev, get_ptr. rewrite (slot_ok_next q e He Hm), Hp. fold n. unfold set_ptr. rewrite Hs.
    unfold rem_heap. fold n. rewrite E. reflexivity.
  - unfold get_prev at 1. rewrite (slot_ok_next q e He Hm), Hp.
    unfold set_prev. rewrite slot_ok_next; [|exact N|destruct Hn; [contradiction|assumption]].
    unfold get_prev, get_ptr. cbn [q_prev].
    rewrite (slot_ok_next (mkqheap _ _ _) e He); [|exact Hm].
    rewrite upd_other by congruence. rewrite Hp. cbn [q_ptr]. fold n.
    unfold set_ptr. replace (slot_ok _ p) with true by (symmetry; destruct p; exact Hs).
    unfold rem_heap. fold n. destruct (Z.eqb_spec n 0); [contradiction|reflexivity].
Qed.

(** Inside one list: e is after [a]. *)
Lemma rem_dll q e : forall a s r p, dll q s (a ++ e :: r) ->
  p = match rev a with [] => s | y :: _ => SNext y end ->
  (forall x, In x (a ++ e :: r) -> SNext x <> s) ->
  dll (rem_heap q e p) s (a ++ r).
Proof.
  induction a as [|y a IH]; intros s r p H Hp Hs.
  - simpl in Hp. subst p. cbn [app] in *.
    pose proof (dll_nodup q _ _ H) as Nd. inversion Nd as [|? ? Ne Nr]; subst.
    simpl in H. destruct H as [H1 [H2 [H3 [H4 H5]]]].
    destruct r as [|x r].
    + simpl in *. destruct (slot_eqb_spec s s); [exact H5|congruence].
    + assert (Nx : ~ In x r) by (now inversion Nr).
      simpl in H5 |- *. destruct H5 as [K1 [K2 [K3 [K4 K5]]]].
      destruct (slot_eqb_spec s s); [|congruence]. rewrite K1.
      destruct (Z.eqb_spec x 0); [contradiction|]. rewrite upd_same. repeat split; auto.
      apply (dll_frame q); [exact K5| | |reflexivity].
      * cbn [rem_heap q_ptr q_prev]. destruct (slot_eqb_spec (SNext x) s) as [E|_]; [|reflexivity].
        exfalso. apply (Hs x); [simpl; auto|exact E].
      * intros z Hz. cbn [rem_heap q_ptr q_prev]. destruct (slot_eqb_spec (SNext z) s) as [E|_].
        { exfalso. apply (Hs z); [simpl; auto|exact E]. }
        split; [reflexivity|]. rewrite K1. destruct (Z.eqb_spec x 0); [contradiction|].
        apply upd_other. intro. subst z. contradiction.
  - cbn [app] in H |- *.
    pose proof (dll_nodup q _ _ H) as Nd. apply NoDup_cons_iff in Nd. destruct Nd as [Ny Nr].
    pose proof (dll_prev q _ _ (y :: a) e r H eq_refl) as [Pe _].
    assert (Hp' : p = match rev a with [] => SNext y | z :: _ => SNext z end).
    { rewrite Hp. simpl. now destruct (rev a). }
    cbn [dll] in H |- *. destruct H as [H1 [H2 [H3 [H4 H5]]]].
    assert (Hps : p <> s).
    { rewrite Hp'. destruct (rev a) as [|z c] eqn:R; [now apply Hs; left|].
      apply Hs. right. apply in_or_app. left. apply in_rev. rewrite R. now left. }
    repeat split; auto.
    + cbn [rem_heap q_ptr q_prev]. destruct (slot_eqb_spec s p); [congruence|exact H1].
    + simpl. destruct (Z.eqb_spec (q_ptr q (SNext e)) 0) as [E|N]; [exact H4|].
      rewrite upd_other; [exact H4|]. intro E.
      pose proof (dll_suffix q _ _ a e r H5 eq_refl) as Hr.
      destruct r as [|x r]; simpl in Hr; [congruence|].
      apply Ny. apply in_or_app. right. right. left. destruct Hr as [Hr _]. congruence.
    + apply IH; [exact H5|exact Hp'|].
      intros x Hx E. injection E as ->. apply Ny. exact Hx.
Qed.

Lemma remove_notin (l : list Z) e : ~ In e l -> remove Z.eq_dec e l = l.
Proof. apply notin_remove. Qed.

Lemma remove_ok q h e l :
  dll q (SFirst h) l -> In e l ->
  exists q', list_remove q e = Some q' /\
  dll q' (SFirst h) (remove Z.eq_dec e l) /\ q_mem q' = q_mem q /\
  forall g m, g <> h -> dll q (SFirst g) m -> dll q' (SFirst g) m.
Proof.
  intros Hl Hin. pose proof (dll_nodup q l _ Hl) as Nd.
  destruct (in_split _ _ Hin) as [a [r E]].
  destruct (dll_prev q l _ a e r Hl E) as [Hp [He Hm]].
  set (p := match rev a with [] => SFirst h | y :: _ => SNext y end) in *.
  assert (Ne : ~ In e a /\ ~ In e r).
  { rewrite E in Nd. apply NoDup_remove_2 in Nd. split; intro; apply Nd; apply in_or_app; auto. }
  pose proof (dll_suffix q l _ a e r Hl E) as Hr.
  assert (Hsp : slot_ok q p = true).
  { unfold p. destruct (rev a) as [|y c] eqn:R; [reflexivity|].
    assert (Ea : l = rev c ++ y :: e :: r).
    { rewrite E, <- (rev_involutive a), R. simpl. now rewrite <- app_assoc. }
    destruct (dll_prev q l _ _ y _ Hl Ea) as [_ [A B]]. now apply slot_ok_next. }
  exists (rem_heap q e p). split.
  { apply remove_eq; auto.
    - destruct r as [|x r]; simpl in Hr; [congruence|]. destruct Hr as [-> _]. intro. subst x. apply Ne. now left.
    - destruct r as [|x r]; simpl in Hr; [now left|]. right. destruct Hr as [-> [_ [M _]]]. exact M. }
  split.
  { rewrite E. rewrite remove_app. simpl. destruct (Z.eq_dec e e); [|congruence].
    rewrite !remove_notin by tauto. rewrite E in Hl. apply rem_dll; [exact Hl|reflexivity|discriminate]. }
  split; [reflexivity|].
  intros g m Hg Hdm.
  assert (Dis : forall x, In x l -> ~ In x m).
  { intros x Hx. apply (dll_disjoint q (length l) l m h g x); auto. }
  apply (dll_frame q); [exact Hdm| | |reflexivity].
  - cbn [rem_heap q_ptr]. destruct (slot_eqb_spec (SFirst g) p) as [Q|_]; [|reflexivity].
    exfalso. unfold p in Q. destruct (rev a); congruence.
  - intros x Hx. cbn [rem_heap q_ptr q_prev]. split.
    + destruct (slot_eqb_spec (SNext x) p) as [Q|_]; [|reflexivity].
      exfalso. unfold p in Q. destruct (rev a) as [|y c] eqn:R; [discriminate|]. injection Q as ->.
      apply (Dis y); [|exact Hx]. rewrite E. apply in_or_app. left. apply in_rev. rewrite R. now left.
    + destruct (Z.eqb_spec (q_ptr q (SNext e)) 0) as [Z0|N]; [reflexivity|].
      apply upd_other. intro. subst x.
      destruct r as [|x r]; simpl in Hr; [contradiction|]. destruct Hr as [Q _]. rewrite Q in Hx.
      apply (Dis x); [|exact Hx]. rewrite E. apply in_or_app. right. right. now left.
Qed.

(** ** Walking *)

Lemma walk_dll q : forall l s f, dll q s l -> (length l <= f)%nat -> list_walk q (q_ptr q s) f = Some l.
Proof.
  induction l as [|x r IH]; intros s f H Hf; cbn [dll] in H.
  - rewrite H. destruct f; reflexivity.
  - destruct H as [H1 [H2 [H3 [_ H5]]]]. rewrite H1. destruct f as [|f]; [simpl in Hf; lia|].
    cbn [list_walk]. destruct (Z.eqb_spec x 0); [contradiction|].
    unfold get_ptr. rewrite (slot_ok_next q x H2 H3).
    rewrite (IH (SNext x) f H5); [reflexivity|simpl in Hf; lia].
Qed.

Definition rep (q : qheap) (L : lists) : Prop := forall h, dll q (SFirst h) (L h).

Lemma rep_step q L o : rep q L -> allowed (q_mem q) L o ->
  exists q', q_step q (conc o) = Some q' /\ rep q' (after L o) /\ q_mem q' = q_mem q.
Proof.
  intros R A. destruct o as [h e|h e]; simpl in A |- *.
  - destruct A as [A1 [A2 A3]].
    destruct (insert_ok q h e (L h) (R h) A1 A2 (A3 h)) as [H1 [H2 H3]].
    eexists. split; [exact H1|]. split; [|reflexivity]. intros g. unfold upd.
    destruct (Z.eqb_spec g h) as [->|N]; [exact H2|]. apply H3; auto.
  - destruct (remove_ok q h e (L h) (R h) A) as [q' [H1 [H2 [H3 H4]]]].
    exists q'. split; [exact H1|]. split; [|exact H3]. intros g. unfold upd.
    destruct (Z.eqb_spec g h) as [->|N]; [exact H2|]. apply H4; auto.
Qed.

Lemma rep_run : forall os q L, rep q L -> allowed_run (q_mem q) L os ->
  exists q', q_run q (map conc os) = Some q' /\ rep q' (after_run L os).
Proof.
  induction os as [|o r IH]; intros q L R A; simpl in *; [eauto|].
  destruct A as [A1 A2]. destruct (rep_step q L o R A1) as [q1 [H1 [H2 H3]]].
  rewrite H1. apply IH; [exact H2|now rewrite H3].
Qed.
