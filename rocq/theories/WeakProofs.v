(** Proofs about the spinlock on processors that delay stores and load early. *)
From Verif Require Import WeakModel WeakSpec.

Lemma two_splits {A} (e f : A) q b2 : forall p b1, p ++ e :: q = b1 ++ f :: b2 ->
  (p = b1 /\ e = f /\ q = b2) \/
  (exists r, b1 = p ++ e :: r /\ q = r ++ f :: b2) \/
  (exists r, p = b1 ++ f :: r /\ b2 = r ++ e :: q).
Proof.
  induction p as [|a p IH]; intros [|b b1] H; cbn in H; inversion H; subst; clear H.
  - auto.
  - right; left. now exists b1.
  - right; right. now exists p.
  - destruct (IH b1 H2) as [[-> [-> ->]]|[[r [-> ->]]|[r [-> ->]]]]; [now left|right; left; now exists r|right; right; now exists r].
Qed.

Lemma newest_app b1 : forall b2 x d, newest (b1 ++ b2) x d = newest b2 x (newest b1 x d).
Proof. induction b1 as [|[y v|] b IH]; intros; cbn; auto. Qed.

Section Weak.
Variable a : arch.
Variable prot : Z -> bool.
Variable m : Z -> Z.
Hypothesis order : fifo a = true \/ barrier a = true.
Hypothesis loads : early a = false \/ isync a = true.
Hypothesis prot_lock : prot LOCK = false.

Definition np (e : entry) : Prop := match e with Ent x _ => prot x = false /\ x <> LOCK | Fence => True end.
Definition clean (b : list entry) : Prop := Forall np b.
Definition nolock (b : list entry) : Prop := Forall (fun e => of_lock e = false) b.

(** What the one inside has loaded early is still right. *)
Definition good_pre (s : wstate) : Prop :=
  (early a = false -> forall t x, w_pre s t x = None) /\
  (forall t x v, w_in s t = true -> prot x = true -> w_pre s t x = Some v -> v = latest m (w_hist s) x).

Lemma clean_nolock b : clean b -> nolock b.
Proof.
  unfold clean, nolock. intros H. eapply Forall_impl; [|exact H]. intros [x v|]; cbn; [|auto].
  intros [_ N]. now apply Z.eqb_neq.
Qed.

(** Nothing protected in it: transparent for protected places. *)
Lemma newest_skip b x d : (forall y v, In (Ent y v) b -> y <> x) -> newest b x d = d.
Proof.
  revert d. induction b as [|[y v|] b IH]; intros d H; cbn; [auto| |].
  - destruct (Z.eqb_spec x y) as [E|_]; [exfalso; apply (H y v); [now left|auto]|]. apply IH. intros z w J. apply (H z w). now right.
  - apply IH. intros z w J. apply (H z w). now right.
Qed.
Lemma newest_clean b x d : clean b -> prot x = true -> newest b x d = d.
Proof.
  intros C P. apply newest_skip. intros y v J ->. unfold clean in C. rewrite Forall_forall in C. apply C in J. cbn in J.
  destruct J as [J _]. congruence.
Qed.

Definition late (b : list entry) : Prop := exists b1 b2, b = b1 ++ Ent LOCK 0 :: b2 /\ clean b2 /\ nolock b1 /\
  (fifo a = true \/ clean b1 \/ exists c1 c2, b1 = c1 ++ Fence :: c2 /\ clean c2).

Definition inv (s : wstate) : Prop := exists o : option Z,
  holder (w_hist s) = match o with Some t => if w_in s t then Some t else None | None => None end /\
  (forall t, o <> Some t -> w_in s t = false /\ clean (w_buf s t)) /\
  match o with
  | None => w_mem s LOCK = 0
  | Some t => w_mem s LOCK = 1 /\ (if w_in s t then nolock (w_buf s t) else late (w_buf s t))
  end /\
  (forall x, prot x = true -> latest m (w_hist s) x = match o with None => w_mem s x | Some t => wload s t x end) /\
  as_one prot m (w_hist s).

Definition inv2 (s : wstate) : Prop := inv s /\ good_pre s.

Lemma inv0 : inv (w0 m).
Proof.
  exists None. unfold w0. cbn. repeat split; auto; [constructor|].
  intros x P. unfold upd. destruct (Z.eqb_spec x LOCK) as [->|]; [congruence|reflexivity].
Qed.

Lemma neq_lock x : prot x = true -> x <> LOCK.
Proof. intros P ->. congruence. Qed.

Lemma clean_del p e q : clean (p ++ e :: q) -> np e /\ clean (p ++ q).
Proof.
  unfold clean. intros H. apply Forall_app in H. destruct H as [A B]. inversion B; subst.
  split; [assumption|apply Forall_app; auto].
Qed.
Lemma nolock_del p e q : nolock (p ++ e :: q) -> of_lock e = false /\ nolock (p ++ q).
Proof.
  unfold nolock. intros H. apply Forall_app in H. destruct H as [A B]. inversion B; subst.
  split; [assumption|apply Forall_app; auto].
Qed.

Lemma pass_ent p y v : may_pass a p (Ent y v) = true -> p = [] \/
  (fifo a = false /\ ~ In Fence p /\ forall v', ~ In (Ent y v') p).
Proof.
  destruct p as [|e p]; [auto|]. cbn [may_pass]. intros H. right. apply andb_true_iff in H. destruct H as [F H].
  apply negb_true_iff in F. split; [exact F|]. rewrite forallb_forall in H. split.
  - intros J. apply H in J. discriminate J.
  - intros v' J. apply H in J. cbn in J. rewrite Z.eqb_refl in J. discriminate J.
Qed.

(** A store of the thread that reaches memory leaves what the thread itself reads. *)
Lemma newest_flush p y v q x d : may_pass a p (Ent y v) = true ->
  newest (p ++ q) x (if x =? y then v else d) = newest (p ++ Ent y v :: q) x d.
Proof.
  intros H. rewrite !newest_app. cbn. f_equal. destruct (Z.eqb_spec x y) as [->|N]; [|reflexivity].
  apply newest_skip. intros z w J ->. apply pass_ent in H. destruct H as [->|[_ [_ H]]]; [destruct J|now apply (H w)].
Qed.
Lemma newest_fence p q x d : newest (p ++ q) x d = newest (p ++ Fence :: q) x d.
Proof. now rewrite !newest_app. Qed.

Lemma late_flush p e q : may_pass a p e = true -> late (p ++ e :: q) ->
  (of_lock e = false /\ late (p ++ q)) \/ (e = Ent LOCK 0 /\ clean (p ++ q)).
Proof.
  intros MP [b1 [b2 [E [C2 [N1 O]]]]]. apply two_splits in E. destruct E as [[-> [-> ->]]|[[r [-> ->]]|[r [-> ->]]]].
  - right. split; [reflexivity|]. apply pass_ent in MP. destruct MP as [->|[F [NF _]]]; [exact C2|].
    apply Forall_app. split; [|exact C2]. destruct O as [O|[O|[c1 [c2 [-> O]]]]]; [congruence|exact O|].
    exfalso. apply NF, in_or_app. right. now left.
  - left. destruct (nolock_del _ _ _ N1) as [Ne N1']. split; [exact Ne|].
    exists (p ++ r), b2. rewrite <- app_assoc. repeat split; auto.
    destruct O as [O|[O|[c1 [c2 [E O]]]]]; [now left|right; left; now apply (clean_del p e r)|].
    apply two_splits in E. destruct E as [[-> [-> ->]]|[[r' [-> ->]]|[r' [-> ->]]]].
    + destruct c1; [|discriminate MP]. right; left. exact O.
    + right; right. exists (p ++ r'), c2. now rewrite <- app_assoc.
    + exfalso. destruct e as [y v|]; [|destruct c1; discriminate MP].
      apply pass_ent in MP. destruct MP as [MP|[_ [MP _]]]; [destruct c1; discriminate MP|].
      apply MP, in_or_app. right. now left.
  - left. destruct (clean_del _ _ _ C2) as [Ne C2']. split.
    + destruct e as [y v|]; [|reflexivity]. cbn. apply Z.eqb_neq. apply Ne.
    + exists b1, (r ++ q). rewrite <- app_assoc. auto.
Qed.

(** The one inside reads what was stored last. *)
Lemma inside_reads s t x : inv s -> w_in s t = true -> prot x = true -> wload s t x = latest m (w_hist s) x.
Proof.
  intros [o [HO [OT [OM [LA AO]]]]] I P. rewrite (LA x P). destruct o as [u|].
  - destruct (Z.eq_dec u t) as [->|N]; [reflexivity|]. destruct (OT t) as [A _]; congruence.
  - destruct (OT t) as [A _]; congruence.
Qed.
Lemma inside_one s t u : inv s -> w_in s t = true -> w_in s u = true -> t = u.
Proof.
  intros [o [HO [OT _]]] I J. destruct (Z.eq_dec t u) as [|N]; [assumption|exfalso].
  destruct o as [v|]; [|destruct (OT t) as [A _]; congruence].
  destruct (Z.eq_dec v t) as [->|Nt]; [destruct (OT u) as [A _]; congruence|destruct (OT t) as [A _]; congruence].
Qed.
Lemma inside_value s t x : inv s -> good_pre s -> w_in s t = true -> prot x = true -> wvalue s t x = latest m (w_hist s) x.
Proof.
  intros I [_ G] J P. unfold wvalue. destruct (w_pre s t x) as [v|] eqn:E; [now apply (G t x v)|].
  now apply inside_reads.
Qed.

Lemma good_pre0 : good_pre (w0 m).
Proof. split; [reflexivity|]. intros t x v H. discriminate H. Qed.

Lemma pre_set_cases p t x v u y : pre_set p t x v u y = if (u =? t) && (y =? x) then v else p u y.
Proof.
  unfold pre_set, upd. destruct (Z.eqb_spec u t) as [->|]; [|reflexivity]. cbn. now destruct (y =? x).
Qed.

Lemma good_pre_step s i s' : inv s -> good_pre s -> obeys prot s i = true -> wstep a s i = Some s' -> good_pre s'.
Proof.
  intros I [G1 G2] OB ST.
  assert (CL : forall t x u y v, pre_set (w_pre s) t x None u y = Some v -> w_pre s u y = Some v /\ ~ (u = t /\ y = x)).
  { intros t x u y v H. rewrite pre_set_cases in H. destruct (Z.eqb_spec u t); destruct (Z.eqb_spec y x); cbn in H; try discriminate H; split; auto; tauto. }
  assert (CN : forall t x u y, w_pre s u y = None -> pre_set (w_pre s) t x None u y = None).
  { intros t x u y H. rewrite pre_set_cases. now destruct ((u =? t) && (y =? x)). }
  destruct i as [t|t x|t x|t x v|t|t n]; cbn [obeys] in OB; unfold wstep in ST.
  - (* compare_and_swap *)
    destruct (if drains a then _ else _); [|discriminate ST].
    destruct (Z.eqb_spec (w_mem s LOCK) 0) as [E|]; inversion ST; subst s'; clear ST; [|now split]. split; cbn.
    + intros A u y. destruct (isync a); [|now apply G1]. unfold upd. destruct (u =? t); [reflexivity|now apply G1].
    + intros u y v J P H. unfold upd in J. destruct (Z.eqb_spec u t) as [->|N].
      * exfalso. destruct loads as [L|L].
        -- destruct (isync a); [rewrite upd_same in H|rewrite (G1 L) in H]; discriminate H.
        -- rewrite L, upd_same in H. discriminate H.
      * apply (G2 u y v); auto. destruct (isync a); [rewrite upd_other in H by auto|]; exact H.
  - (* load *)
    inversion ST; subst s'; clear ST. split; cbn [w_pre w_in w_hist].
    + intros A u y. apply CN. now apply G1.
    + intros u y v J P H. apply CL in H. destruct H as [H _]. destruct (x =? LOCK); cbn; now apply (G2 u y v).
  - (* a load done early *)
    destruct (early a) eqn:EA; [|discriminate ST]. inversion ST; subst s'; clear ST.
    split; cbn [w_pre w_in w_hist]; [intros A; congruence|]. intros u y v J P H. rewrite pre_set_cases in H.
    destruct (Z.eqb_spec u t) as [->|]; destruct (Z.eqb_spec y x) as [->|]; cbn in H; try (now apply (G2 _ _ v) in H).
    inversion H; subst v. now apply inside_reads.
  - (* store *)
    inversion ST; subst s'; clear ST. split; cbn [w_pre w_in w_hist].
    + intros A u y. apply CN. now apply G1.
    + intros u y v' J P H. apply CL in H. destruct H as [H N]. cbn.
      apply andb_true_iff in OB. destruct OB as [_ OB]. destruct (Z.eqb_spec y x) as [->|]; [|now apply (G2 u y v')].
      exfalso. apply N. split; [|reflexivity]. rewrite P in OB. cbn in OB. now apply (inside_one s).
  - (* spinlock_unlock *)
    inversion ST; subst s'; clear ST. split; cbn [w_pre w_in w_hist].
    + intros A u y. apply CN. now apply G1.
    + intros u y v' J P H. apply CL in H. destruct H as [H N]. cbn. unfold upd in J.
      destruct (u =? t); [discriminate J|]. now apply (G2 u y v').
  - (* a store reaches memory *)
    destruct (nth_error (w_buf s t) n) as [e|] eqn:NE; [|discriminate ST].
    destruct (may_pass a (firstn n (w_buf s t)) e) eqn:MP; [|discriminate ST]. apply (f_equal (fun z => match z with Some z' => z' | None => s end)) in ST. cbv beta iota in ST. subst s'.
    now split.
Qed.

Lemma inv_step s i s' : inv s -> good_pre s -> obeys prot s i = true -> wstep a s i = Some s' -> inv s'.
Proof.
  intros I G OB ST. assert (RD := inside_value s). revert RD. pose proof I as I0. revert I0.
  destruct I as [o [HO [OT [OM [LA AO]]]]]. intros I0 RD. destruct i as [t|t x|t x|t x v|t|t n]; cbn [obeys] in OB; unfold wstep in ST.
  - (* compare_and_swap *)
    destruct (if drains a then _ else _); [|discriminate ST].
    destruct (Z.eqb_spec (w_mem s LOCK) 0) as [E|]; inversion ST; subst s'; clear ST; [|exists o; auto].
    destruct o as [u|]; [destruct OM as [OM _]; rewrite OM in E; discriminate E|].
    destruct (OT t) as [IT CT]; [discriminate|].
    exists (Some t). cbn. rewrite upd_same. repeat split; auto.
    + destruct (OT t0) as [A _]; [discriminate|]. rewrite upd_other; [exact A|congruence].
    + destruct (OT t0) as [_ A]; [discriminate|]. exact A.
    + now apply clean_nolock.
    + intros x P. rewrite (LA x P). unfold wload. cbn. rewrite newest_clean by auto.
      rewrite upd_other; [reflexivity|]. now apply neq_lock.
  - (* load *)
    inversion ST; subst s'; clear ST. exists o. cbn. destruct (x =? LOCK); [auto 6|]. cbn.
    split; [exact HO|]. split; [exact OT|]. split; [exact OM|]. split; [exact LA|]. split; [exact AO|].
    intros P. rewrite P in OB. cbn in OB. split; [|now apply RD].
    destruct o as [u|].
    + destruct (Z.eq_dec u t) as [->|N]; [|destruct (OT t) as [A _]; congruence].
      rewrite OB in HO. exact HO.
    + destruct (OT t) as [A _]; congruence.
  - (* a load done early *)
    destruct (early a); [|discriminate ST]. inversion ST; subst s'; clear ST. exists o. auto 6.
  - (* store *)
    inversion ST; subst s'; clear ST. apply andb_true_iff in OB. destruct OB as [NL OB].
    apply negb_true_iff, Z.eqb_neq in NL. exists o. cbn.
    assert (W : prot x = true -> o = Some t).
    { intros P. rewrite P in OB. cbn in OB. destruct o as [u|].
      - destruct (Z.eq_dec u t) as [->|N]; [reflexivity|destruct (OT t) as [A _]; congruence].
      - destruct (OT t) as [A _]; congruence. }
    assert (WH : prot x = true -> holder (w_hist s) = Some t).
    { intros P. pose proof (W P). subst o. rewrite P in OB. cbn in OB. now rewrite OB in HO. }
    split; [exact HO|]. split.
    { intros u U. destruct (OT u U) as [A B]. split; [exact A|]. unfold upd. destruct (Z.eqb_spec u t) as [->|]; [|exact B].
      apply Forall_app. split; [exact B|]. constructor; [|constructor]. cbn. split; [|exact NL].
      destruct (prot x); [|reflexivity]. exfalso. now apply U, W. }
    split.
    { destruct o as [u|]; [|exact OM]. destruct OM as [OM1 OM2]. split; [exact OM1|].
      unfold upd. destruct (Z.eqb_spec u t) as [->|]; [|exact OM2].
      destruct (w_in s t) eqn:IN.
      - apply Forall_app. split; [exact OM2|]. constructor; [|constructor]. cbn. now apply Z.eqb_neq.
      - destruct OM2 as [b1 [b2 [-> [C2 X]]]]. exists b1, (b2 ++ [Ent x v]). rewrite <- app_assoc. cbn.
        split; [reflexivity|]. split; [|exact X]. apply Forall_app. split; [exact C2|]. constructor; [|constructor].
        split; [|exact NL]. destruct (prot x); [discriminate OB|reflexivity]. }
    split; [|split; [exact AO|exact WH]].
    intros y P. destruct (Z.eqb_spec y x) as [->|N].
    { rewrite (W P). unfold wload. cbn. rewrite upd_same, newest_app. cbn. now rewrite Z.eqb_refl. }
    rewrite (LA y P). destruct o as [u|]; [|reflexivity]. unfold wload. cbn. unfold upd.
    destruct (Z.eqb_spec u t) as [->|]; [|reflexivity]. rewrite newest_app. cbn.
    destruct (Z.eqb_spec y x); [contradiction|reflexivity].
  - (* spinlock_unlock *)
    inversion ST; subst s'; clear ST.
    assert (W : o = Some t).
    { destruct o as [u|]; [destruct (Z.eq_dec u t) as [->|N]; [reflexivity|]|]; destruct (OT t) as [A _]; congruence. }
    subst o. rewrite OB in HO, OM. destruct OM as [OM1 OM2]. exists (Some t). cbn. rewrite !upd_same.
    split; [reflexivity|]. split.
    { intros u U. assert (u <> t) by congruence. rewrite !upd_other by auto. now apply OT. }
    split; [split; [exact OM1|]|].
    { exists (w_buf s t ++ (if barrier a then [Fence] else [])), []. rewrite <- app_assoc. split; [reflexivity|].
      split; [constructor|]. split.
      - apply Forall_app. split; [exact OM2|]. destruct (barrier a); repeat constructor.
      - destruct order as [O|O]; [now left|]. rewrite O. right; right. exists (w_buf s t), []. split; [reflexivity|constructor]. }
    split; [|split; [exact AO|exact HO]].
    intros x P. rewrite (LA x P). unfold wload. cbn. rewrite ?upd_same, !newest_app.
    destruct (barrier a); cbn; (destruct (Z.eqb_spec x LOCK) as [->|]; [congruence|reflexivity]).
  - (* a store reaches memory *)
    destruct (nth_error (w_buf s t) n) as [e|] eqn:NE; [|discriminate ST].
    destruct (may_pass a (firstn n (w_buf s t)) e) eqn:MP; [|discriminate ST]. apply (f_equal (fun z => match z with Some z' => z' | None => s end)) in ST. cbv beta iota in ST. subst s'.
    assert (SP : w_buf s t = firstn n (w_buf s t) ++ e :: skipn (S n) (w_buf s t)).
    { destruct (nth_error_split _ _ NE) as [p [q [E L]]]. rewrite E. subst n.
      rewrite firstn_app, Nat.sub_diag, firstn_all. cbn [firstn]. rewrite app_nil_r.
      replace (S (length p)) with (length (p ++ [e])) by (rewrite app_length; cbn; lia).
      replace (p ++ e :: q) with ((p ++ [e]) ++ q) by now rewrite <- app_assoc.
      rewrite skipn_app, skipn_all, Nat.sub_diag. cbn. now rewrite <- app_assoc. }
    set (p := firstn n (w_buf s t)) in *. set (q := skipn (S n) (w_buf s t)) in *. clearbody p q.
    (* what the owner reads *)
    assert (OWN : forall x, newest (p ++ q) x ((match e with Ent y v => upd (w_mem s) y v | Fence => w_mem s end) x) = wload s t x).
    { intros x. unfold wload. rewrite SP. destruct e as [y v|]; [|apply newest_fence]. unfold upd.
      now apply newest_flush. }
    (* the memory of protected places and the lock, if the entry is neither *)
    assert (MEM : np e -> forall x, prot x = true \/ x = LOCK -> (match e with Ent y v => upd (w_mem s) y v | Fence => w_mem s end) x = w_mem s x).
    { intros N x P. destruct e as [y v|]; [|reflexivity]. destruct N as [N1 N2]. unfold upd.
      destruct (Z.eqb_spec x y) as [->|]; [|reflexivity]. destruct P; congruence. }
    destruct o as [u|].
    + destruct (Z.eq_dec u t) as [->|N].
      * destruct OM as [OM1 OM2]. rewrite SP in OM2.
        assert (MLK : of_lock e = false -> (match e with Ent y v => upd (w_mem s) y v | Fence => w_mem s end) LOCK = 1).
        { intros NL. destruct e as [y v|]; [|exact OM1]. cbn in NL. unfold upd. rewrite Z.eqb_sym, NL. exact OM1. }
        destruct (w_in s t) eqn:IN.
        -- destruct (nolock_del _ _ _ OM2) as [Ne ND]. exists (Some t). cbn. rewrite IN, upd_same.
           split; [exact HO|]. split.
           { intros u U. assert (u <> t) by congruence. rewrite upd_other by auto. now apply OT. }
           split; [split; auto|]. split; [|exact AO]. intros x P. rewrite (LA x P). symmetry. apply OWN.
        -- destruct (late_flush _ _ _ MP OM2) as [[Ne LD]|[-> CD]].
           ++ exists (Some t). cbn. rewrite IN, upd_same. split; [exact HO|]. split.
              { intros u U. assert (u <> t) by congruence. rewrite upd_other by auto. now apply OT. }
              split; [split; auto|]. split; [|exact AO]. intros x P. rewrite (LA x P). symmetry. apply OWN.
           ++ exists None. cbn. split; [exact HO|]. split.
              { intros u _. unfold upd at 1. destruct (Z.eqb_spec u t) as [->|NU]; [auto|]. apply OT. congruence. }
              split; [reflexivity|]. split; [|exact AO]. intros x P. rewrite (LA x P), <- OWN. now apply newest_clean.
      * destruct (OT t) as [IT CT]; [congruence|]. rewrite SP in CT. destruct (clean_del _ _ _ CT) as [Ne CD].
        exists (Some u). cbn. split; [exact HO|]. split.
        { intros w U. unfold upd at 1. destruct (Z.eqb_spec w t) as [->|]; [auto|]. now apply OT. }
        assert (EB : upd (w_buf s) t (p ++ q) u = w_buf s u) by (apply upd_other; auto). rewrite !EB. destruct OM as [OM1 OM2]. split.
        { split; [|exact OM2]. rewrite MEM; auto. }
        split; [|exact AO]. intros x P. rewrite (LA x P). unfold wload. rewrite MEM; auto.
    + destruct (OT t) as [IT CT]; [congruence|]. rewrite SP in CT. destruct (clean_del _ _ _ CT) as [Ne CD].
      exists None. cbn. split; [exact HO|]. split.
      { intros w U. unfold upd at 1. destruct (Z.eqb_spec w t) as [->|]; [auto|]. now apply OT. }
      split; [rewrite MEM; auto|]. split; [|exact AO]. intros x P. rewrite (LA x P). rewrite MEM; auto.
Qed.

Lemma inv2_reach s : wreach a prot m s -> inv2 s.
Proof.
  induction 1 as [|s i s' R [I G] O S]; [split; [exact inv0|exact good_pre0]|].
  split; [exact (inv_step s i s' I G O S)|exact (good_pre_step s i s' I G O S)].
Qed.
Lemma inv_reach s : wreach a prot m s -> inv s.
Proof. intros R. now apply inv2_reach. Qed.
End Weak.

Section Flag.
Variable a : arch.
Variables w F : Z.
Variable D : Z -> bool.
Variable m : Z -> Z.
Hypothesis ord : fifo a = true.
Hypothesis late_loads : early a = false.
Hypothesis DL : D LOCK = false.
Hypothesis FL : F <> LOCK.
Hypothesis DF : D F = false.
Hypothesis m0 : m F = 0.

Definition noD (b : list entry) : Prop := forall y v, In (Ent y v) b -> D y = false.
Definition noF (b : list entry) : Prop := forall y v, In (Ent y v) b -> y <> F.
Definition stored (s : wstate) : bool := flag_stored F (w_hist s).

Definition finv (s : wstate) : Prop :=
  (forall t, t <> w -> noD (w_buf s t) /\ noF (w_buf s t)) /\
  (if stored s
   then (w_mem s F = 0 \/ w_mem s F = 1) /\ (forall v, In (Ent F v) (w_buf s w) -> v = 1) /\
        (noD (w_buf s w) \/ (w_mem s F = 0 /\ exists b1 b2, w_buf s w = b1 ++ Ent F 1 :: b2 /\ noD b2 /\ noF b1))
   else w_mem s F = 0 /\ noF (w_buf s w)) /\
  (forall x, D x = true -> latest m (w_hist s) x = wload s w x) /\
  (flag_seen w F (w_hist s) -> w_mem s F = 1) /\
  handed_over w F D m (w_hist s).
Definition no_pre (s : wstate) : Prop := forall t x, w_pre s t x = None.
Lemma no_pre_step s i s' : no_pre s -> wstep a s i = Some s' -> no_pre s'.
Proof.
  intros N ST. unfold wstep in ST. destruct i as [t|t x|t x|t x v|t|t n].
  - destruct (if drains a then _ else _); [|discriminate ST].
    destruct (w_mem s LOCK =? 0); inversion ST; subst s'; [|exact N]. intros u y. cbn.
    destruct (isync a); [|apply N]. unfold upd. destruct (u =? t); [reflexivity|apply N].
  - inversion ST; subst s'. intros u y. cbn. rewrite pre_set_cases. destruct ((u =? t) && (y =? x)); [reflexivity|apply N].
  - rewrite late_loads in ST. discriminate ST.
  - inversion ST; subst s'. intros u y. cbn. rewrite pre_set_cases. destruct ((u =? t) && (y =? x)); [reflexivity|apply N].
  - inversion ST; subst s'. intros u y. cbn. rewrite pre_set_cases. destruct ((u =? t) && (y =? LOCK)); [reflexivity|apply N].
  - destruct (nth_error (w_buf s t) n) as [e|]; [|discriminate ST]. destruct (may_pass a _ e); [|discriminate ST].
    apply (f_equal (fun z => match z with Some z' => z' | None => s end)) in ST. cbv beta iota in ST. subst s'. exact N.
Qed.

Lemma noD_app b1 b2 : noD b1 -> noD b2 -> noD (b1 ++ b2).
Proof. intros A B y v J. apply in_app_or in J. destruct J; eauto. Qed.
Lemma noF_app b1 b2 : noF b1 -> noF b2 -> noF (b1 ++ b2).
Proof. intros A B y v J. apply in_app_or in J. destruct J; eauto. Qed.
Lemma noD1 y v : D y = false -> noD [Ent y v].
Proof. intros N z u [J|[]]. inversion J; subst. exact N. Qed.
Lemma noF1 y v : y <> F -> noF [Ent y v].
Proof. intros N z u [J|[]]. inversion J; subst. exact N. Qed.
Lemma newest_noD b x d : noD b -> D x = true -> newest b x d = d.
Proof. intros N P. apply newest_skip. intros y v J ->. apply N in J. congruence. Qed.
Lemma newest_noF b d : noF b -> newest b F d = d.
Proof. intros N. apply newest_skip. intros y v J. now apply N in J. Qed.
Lemma DneF x : D x = true -> x <> F. Proof. intros P ->. congruence. Qed.
Lemma DneL x : D x = true -> x <> LOCK. Proof. intros P ->. congruence. Qed.

Lemma finv0 : finv (w0 m).
Proof.
  unfold finv, w0, stored. cbn. repeat split.
  - intros y v J. destruct J. - intros y v J. destruct J.
  - rewrite upd_other by auto. exact m0. - intros y v J. destruct J.
  - intros x P. unfold wload. cbn. now rewrite upd_other by (now apply DneL).
  - intros [u [_ []]].
Qed.

Lemma seen_cons e h : (forall u, u <> w -> e <> Ld u F 1) -> flag_seen w F (e :: h) -> flag_seen w F h.
Proof. intros N [u [U [J|J]]]; [now apply N in J|now exists u]. Qed.

Lemma finv_step s i s' : finv s -> no_pre s -> obeys_flag w F D s i = true -> wstep a s i = Some s' -> finv s'.
Proof.
  intros [OT [PB [LA [SE HO]]]] NP OB ST. unfold finv, stored in *. destruct i as [t|t x|t x|t x v|t|t n]; cbn [obeys_flag] in OB; unfold wstep in ST.
  - (* compare_and_swap *)
    destruct (if drains a then _ else _); [|discriminate ST].
    destruct (w_mem s LOCK =? 0); inversion ST; subst s'; clear ST; [|auto 6]. cbn.
    rewrite !upd_other by auto. split; [exact OT|]. split; [exact PB|]. split.
    { intros x P. rewrite (LA x P). unfold wload. cbn. now rewrite upd_other by (now apply DneL). }
    split; [|auto]. intros X. apply SE. eapply seen_cons; [|exact X]. intros u _. discriminate.
  - (* load *)
    inversion ST; subst s'; clear ST. unfold wvalue. rewrite NP. cbn. destruct (x =? LOCK); [auto 6|]. cbn.
    split; [exact OT|]. split; [exact PB|]. split; [exact LA|]. split.
    { intros [u [U [J|J]]]; [|apply SE; now exists u]. injection J as J1 J2 J3. subst t x. rewrite <- J3.
      destruct (OT u U) as [_ NF]. unfold wload. now rewrite newest_noF by exact NF. }
    split; [exact HO|]. intros P X. rewrite (LA x P).
    destruct (Z.eq_dec t w) as [->|NT]; [reflexivity|]. destruct (OT t NT) as [ND _].
    unfold wload. rewrite (newest_noD _ _ _ ND P). rewrite newest_noD; auto. pose proof (SE X) as M1.
    destruct (flag_stored F (w_hist s)); [|destruct PB as [PB _]; congruence].
    destruct PB as [_ [_ [PB|[PB _]]]]; [exact PB|congruence].
  - (* a load done early *)
    rewrite late_loads in ST. discriminate ST.
  - (* store *)
    inversion ST; subst s'; clear ST. apply andb_true_iff in OB. destruct OB as [NL OB].
    apply negb_true_iff, Z.eqb_neq in NL. cbn.
    assert (W : D x = true \/ x = F -> t = w).
    { intros [P|P]; destruct (Z.eqb_spec x F).
      - subst x. congruence. - rewrite P in OB. cbn in OB. lia. - lia. - congruence. }
    split.
    { intros u U. destruct (OT u U) as [A B]. unfold upd. destruct (Z.eqb_spec u t) as [->|]; [|auto]. split.
      - apply noD_app; [exact A|]. apply noD1. destruct (D x); [|reflexivity]. exfalso. auto.
      - apply noF_app; [exact B|]. apply noF1. intros ->. auto. }
    split.
    { destruct (Z.eqb_spec x F) as [->|NF].
      - cbn. apply andb_true_iff in OB. destruct OB as [T V]. apply Z.eqb_eq in T, V. subst t v. rewrite upd_same.
        split; [|split].
        + destruct (flag_stored F (w_hist s)); [apply PB|left; apply PB].
        + intros v J. apply in_app_or in J. destruct J as [J|[J|[]]]; [|now inversion J].
          destruct (flag_stored F (w_hist s)); [now apply PB|]. destruct PB as [_ PB]. apply PB in J. congruence.
        + destruct (flag_stored F (w_hist s)).
          * destruct PB as [_ [_ [PB|[PM [b1 [b2 [E [B2 B1]]]]]]]].
            -- left. apply noD_app; [exact PB|now apply noD1].
            -- right. split; [exact PM|]. exists b1, (b2 ++ [Ent F 1]). rewrite E, <- app_assoc. split; [reflexivity|].
               split; [|exact B1]. apply noD_app; [exact B2|now apply noD1].
          * right. destruct PB as [PM PB]. split; [exact PM|]. exists (w_buf s w), []. split; [reflexivity|].
            split; [intros y v J; destruct J|exact PB].
      - cbn. fold (flag_stored F (w_hist s)). unfold upd. destruct (Z.eqb_spec w t) as [<-|NT]; [|exact PB].
        destruct (flag_stored F (w_hist s)).
        + assert (DX : D x = false) by (destruct (D x); [cbn in OB; lia|reflexivity]).
          destruct PB as [P1 [P2 P3]]. split; [exact P1|]. split.
          * intros v' J. apply in_app_or in J. destruct J as [J|[J|[]]]; [auto|inversion J; congruence].
          * destruct P3 as [PB|[PM [b1 [b2 [E [B2 B1]]]]]]; [left; apply noD_app; [exact PB|now apply noD1]|].
            right. split; [exact PM|]. exists b1, (b2 ++ [Ent x v]). rewrite E, <- app_assoc. split; [reflexivity|].
            split; [|exact B1]. apply noD_app; [exact B2|now apply noD1].
        + destruct PB as [PM PB]. split; [exact PM|]. apply noF_app; [exact PB|now apply noF1]. }
    split.
    { intros y P. unfold wload. cbn. unfold upd. destruct (Z.eqb_spec w t) as [<-|NT].
      - rewrite newest_app. cbn. rewrite (LA y P). reflexivity.
      - destruct (Z.eqb_spec y x) as [->|]; [exfalso; apply NT; symmetry; auto|]. now rewrite (LA y P). }
    split; [|auto]. intros X. apply SE. eapply seen_cons; [|exact X]. intros u _. discriminate.
  - (* spinlock_unlock *)
    inversion ST; subst s'; clear ST. cbn.
    set (g := (if barrier a then [Fence] else []) ++ [Ent LOCK 0]).
    assert (GD : noD g) by (subst g; destruct (barrier a); intros y v J; cbn in J; intuition; congruence).
    assert (GF : noF g) by (subst g; destruct (barrier a); intros y v J; cbn in J; intuition; congruence).
    split.
    { intros u U. destruct (OT u U) as [A B]. unfold upd. destruct (Z.eqb_spec u t); [|auto]. subst u. split; [now apply noD_app|now apply noF_app]. }
    split.
    { fold (flag_stored F (w_hist s)). unfold upd. destruct (Z.eqb_spec w t) as [<-|NT]; [|exact PB]. destruct (flag_stored F (w_hist s)).
      - destruct PB as [P1 [P2 P3]]. split; [exact P1|]. split.
        + intros v' J. apply in_app_or in J. destruct J as [J|J]; [auto|]. apply GF in J. congruence.
        + destruct P3 as [PB|[PM [b1 [b2 [E [B2 B1]]]]]]; [left; now apply noD_app|].
          right. split; [exact PM|]. exists b1, (b2 ++ g). rewrite E, <- app_assoc. split; [reflexivity|].
          split; [now apply noD_app|exact B1].
      - destruct PB as [PM PB]. split; [exact PM|now apply noF_app]. }
    split.
    { intros y P. rewrite (LA y P). unfold wload. cbn. unfold upd. destruct (Z.eqb_spec w t) as [<-|NT]; [|reflexivity].
      rewrite newest_app. now rewrite (newest_noD g) by auto. }
    split; [|auto]. intros X. apply SE. eapply seen_cons; [|exact X]. intros u _. discriminate.
  - (* a store reaches memory: the oldest *)
    destruct (nth_error (w_buf s t) n) as [e|] eqn:NE; [|discriminate ST].
    destruct (may_pass a (firstn n (w_buf s t)) e) eqn:MP; [|discriminate ST].
    assert (N0 : n = 0%nat /\ exists q, w_buf s t = e :: q).
    { destruct n as [|n].
      - split; [reflexivity|]. destruct (w_buf s t) as [|e' q]; cbn in NE; [discriminate NE|]. inversion NE; subst. now exists q.
      - exfalso. destruct (w_buf s t) as [|e' q]; [discriminate NE|]. cbn in MP. destruct e; [|discriminate MP].
        rewrite ord in MP. discriminate MP. }
    destruct N0 as [-> [q EQ]]. clear NE MP.
    assert (ST' : mkw (match e with Ent x v => upd (w_mem s) x v | Fence => w_mem s end) (upd (w_buf s) t q) (w_pre s) (w_in s) (w_hist s) = s').
    { rewrite EQ in ST. cbn in ST. now inversion ST. }
    subst s'. clear ST. cbn. fold (flag_stored F (w_hist s)).
    destruct (Z.eq_dec t w) as [->|NT].
    + rewrite upd_same. split.
      { intros u U. rewrite upd_other by auto. now apply OT. }
      assert (LD : forall x, D x = true -> latest m (w_hist s) x = newest q x ((match e with Ent y v => upd (w_mem s) y v | Fence => w_mem s end) x)).
      { intros x P. rewrite (LA x P). unfold wload. rewrite EQ. destruct e as [y v|]; cbn; reflexivity. }
      rewrite EQ in PB. split; [|split; [|split; [|exact HO]]].
      * destruct (flag_stored F (w_hist s)).
        -- destruct PB as [P1 [P2 P3]]. split; [|split].
           ++ destruct e as [y v|]; [|exact P1]. unfold upd. destruct (Z.eqb_spec F y) as [<-|]; [|exact P1].
              right. apply P2. now left.
           ++ intros v J. apply P2. now right.
           ++ destruct P3 as [PB|[PM [b1 [b2 [E [B2 B1]]]]]]; [left; intros y v J; apply (PB y v); now right|].
              destruct b1 as [|e' b1]; cbn in E; inversion E; subst; [left; exact B2|].
              right. split; [|exists b1, b2; split; [reflexivity|]; split; [exact B2|intros y v J; apply (B1 y v); now right]].
              destruct e' as [y v|]; [|exact PM]. unfold upd. destruct (Z.eqb_spec F y) as [<-|]; [|exact PM].
              exfalso. apply (B1 F v); [now left|reflexivity].
        -- destruct PB as [PM PB]. split; [|intros y v J; apply (PB y v); now right].
           destruct e as [y v|]; [|exact PM]. unfold upd. destruct (Z.eqb_spec F y) as [<-|]; [|exact PM].
           exfalso. apply (PB F v); [now left|reflexivity].
      * intros x P. now apply LD.
      * intros X. pose proof (SE X) as M1. destruct e as [y v|]; [|exact M1]. unfold upd. destruct (Z.eqb_spec F y) as [<-|]; [|exact M1].
        destruct (flag_stored F (w_hist s)); [apply PB; now left|destruct PB as [PB _]; congruence].
    + destruct (OT t NT) as [ND NF]. rewrite EQ in ND, NF. assert (EB : upd (w_buf s) t q w = w_buf s w) by (apply upd_other; auto). rewrite !EB.
      assert (MF : (match e with Ent y v => upd (w_mem s) y v | Fence => w_mem s end) F = w_mem s F).
      { destruct e as [y v|]; [|reflexivity]. apply upd_other. intros <-. apply (NF F v); [now left|reflexivity]. }
      rewrite MF. split.
      { intros u U. unfold upd. destruct (Z.eqb_spec u t) as [->|]; [|now apply OT].
        split; [intros y v J; apply (ND y v); now right|intros y v J; apply (NF y v); now right]. }
      split; [exact PB|]. split; [|auto].
      intros x P. rewrite (LA x P). unfold wload. f_equal.
      destruct e as [y v|]; [|reflexivity]. symmetry. apply upd_other. intros ->. rewrite (ND y v) in P; [discriminate P|now left].
Qed.

Lemma finv_reach s : freach a w F D m s -> finv s.
Proof.
  intros R. enough (H : finv s /\ no_pre s) by apply H.
  induction R as [|s i s' R [I N] O S]; [split; [exact finv0|intros t x; reflexivity]|].
  split; [exact (finv_step s i s' I N O S)|exact (no_pre_step s i s' N S)].
Qed.
End Flag.
