(** Proofs about the signal layer in the child of a fork. *)
From Verif Require Import SignalModel SignalSpec SignalProofs SignalProofs2.
From Verif Require Import SigRaceModel SigRaceSpec SigRaceProofs SigRaceSeq SigForkModel SigForkSpec.

(** ** The child's run is one that the parent's other threads did not disturb *)
Lemma rrun_snoc c : forall l s0 t ch, rrun c s0 (l ++ [(t, ch)]) =
  match rrun c s0 l with Some s => rstep c s t ch | None => None end.
Proof.
  induction l as [|[u x] l IH]; intros s0 t ch; cbn.
  - destruct (rstep c s0 t ch); reflexivity.
  - destruct (rstep c s0 u x); [apply IH|reflexivity].
Qed.

Definition like_on (V : Z -> Prop) (s0 s s' : rstate) : Prop :=
  r_st s' = r_st s /\ r_tr s' = r_tr s ++ r_tr s0 /\
  forall t, V t ->
    t_pc (r_th s' t) = t_pc (r_th s t) /\
    (t_pc (r_th s t) <> PIdle -> r_th s' t = r_th s t).

Lemma like_step c (V : Z -> Prop) s0 s s' t ch s1 : V t ->
  like_on V s0 s s' -> rstep c s t ch = Some s1 ->
  exists s1', rstep c s' t ch = Some s1' /\ like_on V s0 s1 s1'.
Proof.
  intros I0 (L1 & L2 & L3). destruct (L3 t I0) as [P Q]. unfold rstep, idle. rewrite P.
  destruct ch as [o|].
  - destruct (t_pc (r_th s t)) eqn:Ep; cbn; try discriminate.
    destruct (is_mask o); cbn; [discriminate|]. intros [= <-]. eexists. split; [reflexivity|].
    split; [exact L1|]. split; [cbn; now rewrite L2|]. intros u Hu. cbn.
    destruct (Z.eqb_spec u t) as [->|Hne]; [rewrite !upd_same; auto|rewrite !upd_other by exact Hne; now apply L3].
  - destruct (t_pc (r_th s t)) eqn:Ep; try discriminate;
    (assert (E : r_th s' t = r_th s t) by (apply Q; discriminate)); rewrite E, L1;
    (destruct (exec c (r_st s) (r_th s t)) as [st' [th'|r]]; intros [= <-]; eexists; (split; [reflexivity|]);
     (split; [reflexivity|]); (split; [cbn; now rewrite L2|]); intros u Hu; cbn;
     (destruct (Z.eqb_spec u t) as [->|Hne];
      [rewrite !upd_same; auto|rewrite !upd_other by exact Hne; now apply L3])).
Qed.

Lemma like_run c (V : Z -> Prop) s0 : forall l s s' s1, (forall t ch, In (t, ch) l -> V t) ->
  like_on V s0 s s' -> rrun c s l = Some s1 -> exists s1', rrun c s' l = Some s1' /\ like_on V s0 s1 s1'.
Proof.
  induction l as [|[t ch] l IH]; intros s s' s1 H L E; cbn in *.
  - injection E as <-. eauto.
  - destruct (rstep c s t ch) as [s2|] eqn:E2; [|discriminate].
    destruct (like_step c V s0 s s' t ch s2) as (s2' & A & B); [eapply H; now left|exact L|exact E2|].
    rewrite A. apply (IH s2 s2' s1); auto. intros u x Hu. apply (H u x). now right.
Qed.

Definition like (s0 : rstate) := like_on (fun t => t_pc (r_th s0 t) = PIdle) s0.

Lemma idle_when c k0 s0 t : reached c k0 s0 -> (forall g, inside (r_tr s0) t g = false) ->
  t_pc (r_th s0 t) = PIdle.
Proof.
  intros R H. destruct (linked_reach c k0 s0 R t) as [_ L].
  destruct (t_pc (r_th s0 t)) eqn:Ep; [reflexivity| ..];
  (destruct L as (_ & _ & L); [discriminate|]; specialize (H (op_sig (t_op (r_th s0 t))));
   rewrite L, Z.eqb_refl in H; discriminate).
Qed.

Lemma rrun_app c : forall l1 l2 s, rrun c s (l1 ++ l2) =
  match rrun c s l1 with Some s' => rrun c s' l2 | None => None end.
Proof.
  induction l1 as [|[t ch] l1 IH]; intros l2 s; cbn; [reflexivity|].
  destruct (rstep c s t ch); [apply IH|reflexivity].
Qed.

Lemma child_like c k0 s0 s : in_child c k0 s0 s -> exists s', reached c k0 s' /\ like s0 s s'.
Proof.
  intros ([l0 R] & l & H & E). assert (R0 : reached c k0 s0) by (now exists l0).
  destruct (like_run c (fun t => t_pc (r_th s0 t) = PIdle) s0 l (child s0) s0 s) as (s' & A & B).
  - intros t ch Hin. apply (idle_when c k0); [exact R0|now apply (H t ch)].
  - split; [reflexivity|]. split; [reflexivity|]. intros t Ht. cbn. rewrite Ht. split; [reflexivity|]. intros X; now destruct X.
  - exact E.
  - exists s'. split; [|exact B]. exists (l0 ++ l). rewrite rrun_app, R. exact A.
Qed.

Lemma child_of_like c k0 f s0 s : in_child_of c k0 f s0 s ->
  exists s', reached c k0 s' /\ r_st s' = r_st s /\ r_tr s' = r_tr s ++ r_tr s0.
Proof.
  intros ([l0 R] & l & H & E). assert (R0 : reached c k0 s0) by (now exists l0).
  destruct (like_run c (fun t => t = f \/ t_pc (r_th s0 t) = PIdle) s0 l (child_of f s0) s0 s) as (s' & A & B).
  - intros t ch Hin. destruct (H t ch Hin) as [Hf|Hi]; [now left|right]. now apply (idle_when c k0).
  - split; [reflexivity|]. split; [reflexivity|]. intros t Ht. cbn. destruct (Z.eqb_spec t f) as [->|Hne]; [auto|].
    destruct Ht as [|Ht]; [contradiction|]. rewrite Ht. split; [reflexivity|]. intros X; now destruct X.
  - exact E.
  - exists s'. destruct B as (B1 & B2 & _). split; [|auto]. exists (l0 ++ l). rewrite rrun_app, R. exact A.
Qed.

(** ** Histories of parent and child together *)
Lemma inside_both tr q t g : inside tr t g = false -> inside q t g = false -> inside (tr ++ q) t g = false.
Proof.
  induction tr as [|[u o|u o r] tr IH]; cbn; auto; destruct (u =? t); auto.
Qed.
Lemma quiet_both tr q g : quiet tr g -> quiet q g -> quiet (tr ++ q) g.
Proof. intros A B t. now apply inside_both. Qed.
Lemma apart_both tr q g : apart tr g -> apart q g -> quiet q g -> apart (tr ++ q) g.
Proof.
  intros A B Q. induction tr as [|[u o|u o r] tr IH]; cbn in *; auto.
  destruct A as [A1 A2]. split; auto. intros E. apply quiet_both; auto.
Qed.

(** ** From the fork on, whatever the parent's threads were doing *)
Lemma child_ind c k0 s0 (P : rstate -> Prop) : reached c k0 s0 ->
  P (child s0) ->
  (forall s t ch s', in_child c k0 s0 s -> (forall g, inside (r_tr s0) t g = false) ->
     P s -> rstep c s t ch = Some s' -> P s') ->
  forall s, in_child c k0 s0 s -> P s.
Proof.
  intros R0 H0 HS s (_ & l & H & E). revert s E.
  induction l as [|[t ch] l IH] using rev_ind; intros s E; [cbn in E; congruence|].
  rewrite rrun_snoc in E. destruct (rrun c (child s0) l) as [s1|] eqn:E1; [|discriminate].
  assert (H' : forall u x, In (u, x) l -> forall g, inside (r_tr s0) u g = false)
    by (intros u x Hu; apply (H u x); apply in_or_app; now left).
  apply (HS s1 t ch s).
  - split; [exact R0|]. exists l. auto.
  - apply (H t ch). apply in_or_app. right. now left.
  - now apply IH.
  - exact E.
Qed.

Lemma child_linked c k0 s0 s : in_child c k0 s0 s -> linked s /\ opened s.
Proof.
  intros C. assert (R0 : reached c k0 s0) by apply C. revert s C.
  apply (child_ind c k0 s0 (fun s => linked s /\ opened s) R0).
  - split; [intros t; split; [reflexivity|intros H; now destruct H]|intros t H; now destruct H].
  - intros s t ch s' _ _ [LK OP] E. apply rstep_view in E.
    destruct E as [o Hi Hm|st' th' Hn He|st' r Hn He]; split; intros t'; cbn [r_th r_tr];
    (destruct (Z.eqb_spec t' t) as [->|Hne]; [rewrite upd_same | rewrite upd_other by exact Hne]).
    + cbn. rewrite Z.eqb_refl. split; [discriminate|]. intros _. split; [apply in_or_app; right; now left|]. auto.
    + destruct (LK t') as [A B]. cbn. destruct (Z.eqb_spec t t'); [congruence|].
      split; [exact A|]. intros X. destruct (B X) as (B1 & B2 & B3). split; [apply in_or_app; now left|auto].
    + intros _. exists [], (r_tr s). split; [reflexivity|]. intros e [].
    + intros Hp. destruct (OP t' Hp) as (m & e0 & E & W). exists (ECall t o :: m), e0. rewrite E. split; [reflexivity|].
      intros e [<-|H]; [cbn; apply Z.eqb_neq; auto|auto].
    + pose proof (exec_pc _ _ _ _ _ He Hn) as Hn'. split; [intros X; contradiction|]. intros _.
      rewrite (exec_op _ _ _ _ _ He). now apply (proj2 (LK t)).
    + apply LK.
    + intros _. rewrite (exec_op _ _ _ _ _ He). now apply OP.
    + apply OP.
    + cbn. rewrite Z.eqb_refl. split; [reflexivity|]. intros X. now destruct X.
    + cbn. destruct (Z.eqb_spec t t'); [congruence|]. apply LK.
    + intros Hp. now destruct Hp.
    + intros Hp. destruct (OP t' Hp) as (m & e0 & E & W).
      exists (ERet t (t_op (r_th s t)) r :: m), e0. rewrite E. split; [reflexivity|].
      intros e [<-|H]; [cbn; apply Z.eqb_neq; auto|auto].
Qed.

(** What calls for g report in the child, d being what the table held at the fork. *)
Fixpoint reports (g : Z) (d : act) (tr : list event) : Prop :=
  match tr with
  | [] => True
  | ERet t o r :: e1 =>
      (op_sig o = g ->
         (forall x, r_old r = Some x -> x = last_app (calls (before e1 t)) g d) /\
         (forall x, r_hand r = Some x -> x = sa_handler (last_app (calls (before e1 t)) g d)))
      /\ reports g d e1
  | ECall _ _ :: e1 => reports g d e1
  end.

Record since (c : config) (g : Z) (d : act) (s : rstate) : Prop := {
  S_quiet : quiet (r_tr s) g -> appl_act (tab (r_st s) g) = last_app (calls (r_tr s)) g d;
  S_stage : forall t, inside (r_tr s) t g = true ->
    stage (t_op (r_th s t)) (t_pc (r_th s t)) (last_app (calls (before (r_tr s) t)) g d)
      (appl_act (tab (r_st s) g)) (t_old (r_th s t));
  S_told : reports g d (r_tr s) }.

Lemma since_child c k0 s0 g s : 0 <= c_rtmin c -> managedb c g = true -> in_child c k0 s0 s ->
  apart (r_tr s) g -> since c g (appl_act (tab (r_st s0) g)) s.
Proof.
  intros Hrt Hg C. assert (R0 : reached c k0 s0) by apply C. revert s C.
  apply (child_ind c k0 s0 (fun s => apart (r_tr s) g -> since c g (appl_act (tab (r_st s0) g)) s) R0).
  - intros _. constructor; cbn; auto; discriminate.
  - intros s t ch s' C Ht IH E A'.
    destruct (child_linked c k0 s0 s C) as [LK OPS]. pose proof (OPS t) as OP.
    destruct (child_like c k0 s0 s C) as (sp & Rp & Lst & Ltr & Lth).
    destruct (Lth t (idle_when c k0 s0 t R0 Ht)) as [Lp Lt].
    pose proof (fixed_reach c k0 sp Hrt Rp) as F.
    set (d := appl_act (tab (r_st s0) g)) in *.
    assert (KD : t_pc (r_th s t) <> PIdle -> kind_ok (r_th s t))
      by (intros X; rewrite <- (Lt X); apply (kind_reach c k0 sp Rp)).
    apply rstep_view in E.
    destruct E as [o Hi Hm|st' th' Hn He|st' r Hn He]; cbn [r_tr r_st r_th] in *.
    + pose proof (apart_tail _ _ _ A') as A. destruct (IH A) as [Q1 Q2 Q3].
      constructor; cbn [r_tr r_st r_th]; [| |exact Q3].
      * intros Hq. pose proof (Hq t) as Hqt. cbn in Hqt. rewrite Z.eqb_refl in Hqt. apply Z.eqb_neq in Hqt.
        cbn [calls]. rewrite last_app_app. cbn.
        destruct (app_request o g) eqn:Ea; [apply app_request_sig in Ea; contradiction|].
        apply Q1. intros u. specialize (Hq u). cbn in Hq.
        destruct (Z.eqb_spec t u) as [Etu|]; [rewrite <- Etu|exact Hq]. now apply (proj1 (LK t) Hi).
      * intros u. cbn. destruct (Z.eqb_spec t u) as [Etu|Hne]; [rewrite <- Etu; clear u Etu|].
        -- intros Eo. apply Z.eqb_eq in Eo. rewrite upd_same. cbn. cbn in A'. apply Q1. now apply (proj1 A').
        -- rewrite upd_other by auto. intros Hin. now apply Q2.
    + destruct (IH A') as [Q1 Q2 Q3]. constructor; cbn [r_tr r_st r_th]; [| |exact Q3].
      * intros Hq. assert (Hs : op_sig (t_op (r_th s t)) <> g).
        { specialize (Hq t). rewrite (proj2 (proj2 (proj2 (LK t) Hn))) in Hq. now apply Z.eqb_neq. }
        assert (tab st' g = tab (r_st s) g) as ->; [|now apply Q1].
        exec_cases He; cbn [tab set_tab set_kn]; auto; rewrite upd_other; auto.
      * intros u Hin. destruct (Z.eqb_spec u t) as [->|Hne].
        -- rewrite upd_same. rewrite (exec_op _ _ _ _ _ He).
           apply (exec_stage c _ _ _ _ _ g He); [|exact (KD Hn)|now apply Q2].
           rewrite (proj2 (proj2 (proj2 (LK t) Hn))) in Hin. now apply Z.eqb_eq.
        -- rewrite upd_other by exact Hne.
           assert (Hs : op_sig (t_op (r_th s t)) <> g).
           { intros Hs. apply Hne. apply (one_inside (r_tr s) g); auto.
             rewrite (proj2 (proj2 (proj2 (LK t) Hn))). now apply Z.eqb_eq. }
           assert (tab st' g = tab (r_st s) g) as ->; [|now apply Q2].
           exec_cases He; cbn [tab set_tab set_kn]; auto; rewrite upd_other; auto.
    + destruct (IH A') as [Q1 Q2 Q3].
      assert (T0 : tab st' = tab (r_st s)) by (clear -He; exec_cases He; reflexivity).
      destruct (OP Hn) as (m & e0 & Etr & W).
      assert (Bf : before (r_tr s) t = e0) by (rewrite Etr; now apply before_away).
      assert (PR : op_sig (t_op (r_th s t)) = g -> t_pc (r_th s t) = PRet /\ r = result (t_op (r_th s t)) (t_old (r_th s t))).
      { intros Eo. specialize (Lt Hn).
        destruct (checked_reach c k0 sp Hrt Rp t) as [K1 K2]. rewrite Lt in K1, K2.
        rewrite managedb_unfold, !andb_true_iff, !negb_true_iff in Hg. destruct Hg as [[M1 M2] M3].
        rewrite <- Eo in M1, M2, M3. 
        pose proof (F_avoid _ _ _ F _ M1) as FA. pose proof (F_invalid _ _ _ F _ M1) as FI.
        rewrite Lst in FA, FI. rewrite M2 in FA. rewrite M2, M3 in FI. cbn in FI.
        clear -He K2 M1 M2 FA FI. exec_cases He; auto; exfalso.
        all: try (destruct (K2 eq_refl) as (_ & X & _); congruence).
        all: rewrite M1, ?FA, ?FI in *; discriminate. }
      constructor; cbn [r_tr r_st r_th]; rewrite ?T0.
      * intros Hq. cbn [calls]. destruct (Z.eq_dec (op_sig (t_op (r_th s t))) g) as [Eo|Ho].
        -- destruct (PR Eo) as [Ep _].
           assert (Hin : inside (r_tr s) t g = true).
           { rewrite (proj2 (proj2 (proj2 (LK t) Hn))). now apply Z.eqb_eq. }
           pose proof (Q2 t Hin) as S. rewrite Ep, Bf in S. cbn in S. destruct S as [S _]. rewrite S.
           rewrite (last_app_window (r_tr s) t _ m e0 g d Etr Eo A' W).
           destruct (proj2 (LK t) Hn) as (_ & Hmask & _).
           destruct (t_op (r_th s t)) as [x [y|] z|x y|x y [z|]|]; cbn in *; subst; rewrite ?Z.eqb_refl; auto; discriminate.
        -- apply Q1. intros u. specialize (Hq u). cbn in Hq. destruct (Z.eqb_spec t u) as [Etu|Hne]; [rewrite <- Etu|exact Hq].
           rewrite (proj2 (proj2 (proj2 (LK t) Hn))). now apply Z.eqb_neq.
      * intros u. cbn. destruct (Z.eqb_spec t u) as [Etu|Hne]; [discriminate|].
        rewrite upd_other by auto. intros Hin. now apply Q2.
      * cbn. split; [|exact Q3]. intros Eo. destruct (PR Eo) as [Ep Er].
        assert (Hin : inside (r_tr s) t g = true).
        { rewrite (proj2 (proj2 (proj2 (LK t) Hn))). now apply Z.eqb_eq. }
        pose proof (Q2 t Hin) as S. rewrite Ep in S. cbn in S. destruct S as [_ S].
        subst r. destruct (t_op (r_th s t)) as [x y [|]|x y|x y z|]; cbn in *; split; intros v [= <-];
        rewrite ?S; auto.
Qed.
