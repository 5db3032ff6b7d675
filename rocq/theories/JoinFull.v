(** Proofs: fini_thread comes last, and the library takes nothing away. *)
From Verif Require Export JoinValue.
From Coq Require Import Lia.
Local Open Scope Z_scope.

Definition over (p : pc) : bool := match p with BFini _ _ | BUnlink _ _ | PDone _ | PJoined => true | _ => false end.
Definition finis (s : state) : Prop := forall u, In (LFini u) (s_log s) -> over (t_pc (s_thr s u)) = true.

Lemma finis_one s s1 w x1 es : finis s -> s_thr s1 = upd (s_thr s) w x1 -> s_log s1 = es ++ s_log s ->
  (forall u, In (LFini u) es -> u = w /\ over (t_pc x1) = true) -> (over (t_pc (s_thr s w)) = true -> over (t_pc x1) = true) -> finis s1.
Proof.
  intros F ET EL E O u K. rewrite EL in K. rewrite ET. unfold upd. apply in_app_or in K. destruct K as [K|K].
  - destruct (E u K) as [-> X]. rewrite Z.eqb_refl. exact X.
  - destruct (Z.eqb_spec u w) as [->|]; auto.
Qed.

Lemma finis_step s t c s1 : inv s -> finis s -> no_shoot s t c -> step s t c = Some s1 -> finis s1.
Proof.
  intros I C Q H. unfold no_shoot in Q. unfold step, app, unwind in H.
  destruct (t_pc (s_thr s t)) eqn:P; cases H; inversion H; subst; clear H; try congruence; try exact C;
  try solve [eapply (finis_one s _ _ _ []); [exact C|cbn; reflexivity|reflexivity|intros ? []|cbn; pcs; cbn; auto; discriminate]];
  try solve [eapply (finis_one s _ _ _ [_]); [exact C|cbn; reflexivity|reflexivity|
     intros ? [X|[]]; inversion X; subst; auto|cbn; pcs; cbn; auto; discriminate]].
  - pose proof (make_fresh s I) as MF. rewrite Heqp in MF. destruct MF as (F1 & _ & _ & F4 & _).
    eapply (finis_one s _ t _ []); [exact C|cbn; rewrite F1; reflexivity|exact F4|intros ? []|rewrite P; discriminate].
  - intros u. cbn. intros K. pose proof (C u K) as O. unfold upd. destruct (Z.eqb_spec u t) as [->|]; [rewrite P in O; discriminate|].
    destruct (Z.eqb_spec u (s_next s)) as [->|]; [|exact O]. rewrite (i_fresh _ I _ (Z.le_refl _)) in O. discriminate O.
  - intros u. cbn. intros K. pose proof (C u K) as O. unfold upd. destruct (Z.eqb_spec u t) as [->|]; [rewrite P in O; discriminate|].
    destruct (Z.eqb_spec u (s_next s)) as [->|]; [|exact O]. rewrite (i_fresh _ I _ (Z.le_refl _)) in O. discriminate O.
  - destruct (unlink_thr n s) as [F1 F2].
    eapply (finis_one s _ t _ []); [exact C|cbn; rewrite F1; reflexivity|exact F2|intros ? []|reflexivity].
Qed.

Lemma finis_reach s : reach no_shoot s -> finis s.
Proof. induction 1; [intros ? []|eapply finis_step; [eapply inv_reach|..]; eassumption]. Qed.

Lemma step_does s t c s1 : inv s -> step s t c = Some s1 -> exists es, s_log s1 = es ++ s_log s /\ (es = [] \/ exists e, es = [e]) /\
  (forall e u, In e es -> does u e = true -> u = t /\ over (t_pc (s_thr s t)) = false).
Proof.
  intros I H. unfold step, app, unwind in H.
  destruct (t_pc (s_thr s t)) eqn:P; cases H; inversion H; subst; clear H;
    try (exists []; split; [reflexivity|]; split; [auto|]; intros ? ? []; fail);
    try (eexists [_]; split; [reflexivity|]; split; [eauto|]; intros ? ? [X|[]]; subst; cbn; intros D; try discriminate D;
         apply Z.eqb_eq in D; auto; fail).
  - exists []. split; [|split; [auto|intros ? ? []]]. pose proof (make_fresh s I) as MF. rewrite Heqp in MF. cbn. apply MF.
  - exists []. split; [|split; [auto|intros ? ? []]]. cbn. apply unlink_thr.
Qed.

Lemma fini_last s a e u b : reach no_shoot s -> s_log s = a ++ e :: b -> does u e = true -> ~ In (LFini u) b.
Proof.
  intros R. revert a b. induction R as [|s w c s1 R IH Q S]; intros a b E D K; [destruct a; discriminate E|].
  destruct (step_does _ _ _ _ (inv_reach _ _ R) S) as (es & L & ES & J). rewrite L in E.
  destruct ES as [->|[e2 ->]]; [exact (IH _ _ E D K)|]. destruct a as [|e3 a]; cbn in E; inversion E; subst; [|exact (IH _ _ H1 D K)].
  destruct (J _ u ltac:(left; reflexivity) D) as [-> O]. rewrite (finis_reach _ R w K) in O. discriminate O.
Qed.

(** ** Every plain execution is possible *)

Definition syncpc (p : pc) : bool :=
  match p with PNone | PDone _ | PJoined | PApp | PReal _ | PPost _ _ | BCall _ => true | _ => false end.
Definition sync (s : state) : Prop := s_exit s = false /\ forall t, syncpc (t_pc (s_thr s t)) = true.

Lemma silent s p t c s1 : reach quiet s -> rel s p -> quiet s t c -> step s t c = Some s1 -> acts s t c = [] -> reach quiet s1 /\ rel s1 p.
Proof.
  intros R L Q S A. destruct (sim_step _ _ _ _ _ (inv_reach _ _ R) L Q S) as (p1 & P1 & R1). rewrite A in P1. inversion P1; subst.
  split; [|exact R1]. eapply r_step; eassumption.
Qed.

Lemma spoken s p t c s1 a p1 : reach quiet s -> rel s p -> quiet s t c -> step s t c = Some s1 -> acts s t c = [(t, a)] ->
  p_step p t a = Some p1 -> reach quiet s1 /\ rel s1 p1.
Proof.
  intros R L Q S A PS. destruct (sim_step _ _ _ _ _ (inv_reach _ _ R) L Q S) as (p2 & P2 & R2). rewrite A in P2. cbn in P2. rewrite PS in P2.
  inversion P2; subst. split; [|exact R2]. eapply r_step; eassumption.
Qed.

(** All threads but t are at rest, and t is at q. *)
Record at_ (s : state) (p : plain) (t : Z) (q : pc) : Prop := {
  a_reach : reach quiet s;
  a_rel : rel s p;
  a_exit : s_exit s = false;
  a_rest : forall u, u <> t -> syncpc (t_pc (s_thr s u)) = true;
  a_pc : t_pc (s_thr s t) = q }.

Lemma at_sync s p t q : at_ s p t q -> syncpc q = true -> reach quiet s /\ rel s p /\ sync s.
Proof.
  intros [A B C D E] Q. split; [exact A|]. split; [exact B|]. split; [exact C|]. intros u. destruct (Z.eq_dec u t) as [->|N]; [congruence|auto].
Qed.
Lemma sync_at s p t : reach quiet s -> rel s p -> sync s -> at_ s p t (t_pc (s_thr s t)).
Proof. intros A B [C D]. constructor; auto. Qed.

Lemma at_silent s p t q c s1 x1 : at_ s p t q -> step s t c = Some s1 -> s_thr s1 = upd (s_thr s) t x1 -> s_exit s1 = s_exit s ->
  acts s t c = [] -> c <> CAct -> at_ s1 p t (t_pc x1).
Proof.
  intros [A B C D E] S ET EX AC NA. destruct (silent s p t c s1 A B) as [R1 L1]; [split; [tauto|auto]|exact S|exact AC|].
  constructor; [exact R1|exact L1|congruence| |]; [|rewrite ET, upd_same; reflexivity]. intros u N. rewrite ET, upd_other by exact N. auto.
Qed.

Lemma at_spoken s p t q c s1 w x1 a p1 : at_ s p t q -> step s t c = Some s1 -> s_thr s1 = upd (s_thr s) w x1 -> s_exit s1 = s_exit s ->
  acts s t c = [(t, a)] -> p_step p t a = Some p1 -> (c = CAct -> q = PApp) -> (w = t \/ syncpc q = true) -> at_ s1 p1 w (t_pc x1).
Proof.
  intros [A B C D E] S ET EX AC PS NA W. destruct (spoken s p t c s1 a p1 A B) as [R1 L1]; try assumption; [split; [intros X; rewrite E; auto|auto]|].
  constructor; [exact R1|exact L1|congruence| |]; [|rewrite ET, upd_same; reflexivity]. intros u N. rewrite ET, upd_other by exact N.
  destruct (Z.eq_dec u t) as [->|M]; [|auto]. rewrite E. destruct W; [congruence|assumption].
Qed.

(** The cleanup routine always gets to the end. *)
Lemma clean_ends s p t n v : at_ s p t (BClean n v) -> exists s1, at_ s1 p t (PDone v).
Proof.
  intros A. pose proof (a_pc _ _ _ _ A) as P. set (f := (negb (n_started (s_node s n)) || n_fini (s_node s n) || n_block (s_node s n) || s_fdone s)%bool).
  assert (S : step s t CStep = if f then Some (set_thr t (set_pc (PDone v) (s_thr s t)) s)
    else Some (see (LFini t) (set_thr t (set_pc (BFini n v) (s_thr s t)) (set_node n (fini (s_node s n)) s)))) by (unfold step; rewrite P; reflexivity).
  assert (AC : acts s t CStep = []) by (unfold acts; rewrite P; reflexivity).
  destruct f.
  { eexists. change (PDone v) with (t_pc (set_pc (PDone v) (s_thr s t))). eapply at_silent; [exact A|exact S|reflexivity|reflexivity|exact AC|discriminate]. }
  assert (A1 : exists s1, at_ s1 p t (BFini n v)).
  { eexists. change (BFini n v) with (t_pc (set_pc (BFini n v) (s_thr s t))). eapply at_silent; [exact A|exact S|reflexivity|reflexivity|exact AC|discriminate]. }
  clear - A1. destruct A1 as [s1 A1]. pose proof (a_pc _ _ _ _ A1) as P1.
  assert (A2 : exists s2, at_ s2 p t (BUnlink n v)).
  { eexists. change (BUnlink n v) with (t_pc (set_pc (BUnlink n v) (s_thr s1 t))). eapply (at_silent s1 p t _ (CRet 0)); [exact A1|unfold step; rewrite P1; reflexivity|reflexivity|reflexivity|unfold acts; rewrite P1; reflexivity|discriminate]. }
  clear - A2. destruct A2 as [s2 A2]. pose proof (a_pc _ _ _ _ A2) as P2.
  eexists. change (PDone v) with (t_pc (set_pc (PDone v) (s_thr s2 t))).
  eapply (at_silent s2 p t _ CStep); [exact A2|unfold step; rewrite P2; reflexivity|cbn; rewrite (proj1 (unlink_thr n s2)); reflexivity|
    unfold unlink; destruct (s_exit s2) eqn:X; cbn; auto|unfold acts; rewrite P2; reflexivity|discriminate].
Qed.

(** The next silent step. *)
Ltac next A P c q :=
  match type of A with at_ ?s ?p ?t _ =>
    let s1 := fresh "s" in let A1 := fresh "A" in let P1 := fresh "P" in
    assert (A1 : exists s1, at_ s1 p t q) by
      (eexists; first [change q with (t_pc (set_pc q (s_thr s t))) | idtac];
       eapply (at_silent s p t _ c); [exact A|unfold step; rewrite P; reflexivity|reflexivity|reflexivity|unfold acts; rewrite P; reflexivity|discriminate]);
    clear A P; destruct A1 as [s1 A]; pose proof (a_pc _ _ _ _ A) as P
  end.

Lemma create_goes s p t r a : at_ s p t (PPre r a) -> exists s1 n, at_ s1 p t (PReal n).
Proof.
  intros A. pose proof (a_pc _ _ _ _ A) as P. next A P (CRet 0) (PMake r a).
  assert (A1 : exists s1 n, at_ s1 p t (PFill n r a)).
  { destruct (make s0) as [n s1] eqn:M. pose proof (make_fresh s0 (inv_reach _ _ (a_reach _ _ _ _ A))) as MF. rewrite M in MF.
    destruct MF as (F1 & F2 & F3 & F4 & _). eexists _, n. change (PFill n r a) with (t_pc (set_pc (PFill n r a) (s_thr s0 t))).
    eapply (at_silent s0 p t _ CStep); [exact A|unfold step; rewrite P, M; reflexivity|cbn; rewrite F1; reflexivity|exact F3|unfold acts; rewrite P; reflexivity|discriminate]. }
  clear A P. destruct A1 as (s1 & n & A). pose proof (a_pc _ _ _ _ A) as P. next A P CStep (PReal n). eauto.
Qed.

Lemma begin_goes s p u n : at_ s p u (BLink n) -> exists s1, at_ s1 p u (BCall n).
Proof.
  intros A. pose proof (a_pc _ _ _ _ A) as P. pose proof (a_exit _ _ _ _ A) as X.
  assert (A1 : exists s1, at_ s1 p u (BInit n)).
  { eexists. change (BInit n) with (t_pc (set_bot (Some n) (set_pc (BInit n) (s_thr s u)))).
    eapply (at_silent s p u _ CStep); [exact A|unfold step; rewrite P, X; reflexivity|reflexivity|reflexivity|unfold acts; rewrite P; reflexivity|discriminate]. }
  clear - A1. destruct A1 as (s1 & A). pose proof (a_pc _ _ _ _ A) as P. next A P (CRet 0) (BMark n). next A P CStep (BCall n). eauto.
Qed.

Definition next_state (p1 : plain) : Prop := exists s1, reach quiet s1 /\ rel s1 p1 /\ sync s1.

Lemma full_step s p t a p1 : reach quiet s -> rel s p -> sync s -> p_step p t a = Some p1 -> (t = MAIN -> forall v, a <> AExit v) -> next_state p1.
Proof.
  intros R L S PS NX. pose proof (sync_at s p t R L S) as A. pose proof (proj2 S t) as SY.
  pose proof (l_thr _ _ L) as RT. pose proof PS as PS0. unfold p_step in PS0. rewrite (RT t) in PS0. unfold tmap in PS0. cbn [q_pc q_hs q_pend q_dis q_unw] in PS0.
  remember (t_pc (s_thr s t)) as q eqn:Q. symmetry in Q.
  assert (ONE : forall c s1 x1, step s t c = Some s1 -> s_thr s1 = upd (s_thr s) t x1 -> s_exit s1 = s_exit s ->
    acts s t c = [(t, a)] -> (c = CAct -> q = PApp) -> syncpc (t_pc x1) = true -> next_state p1).
  { intros c s1 x1 H1 H2 H3 H4 H5 H6. exists s1. eapply at_sync; [|exact H6]. eapply at_spoken; eauto. }
  destruct q; try discriminate SY; cbn [pcmap] in PS0; try (destruct a; discriminate PS0).
  - (* application *)
    destruct a; try discriminate PS0.
    + (* pthread_create *)
      destruct (create_goes (see (OCall t r a) (set_thr t (set_pc (PPre r a) (s_thr s t)) s)) p1 t r a) as (s1 & n & A1).
      { change (PPre r a) with (t_pc (set_pc (PPre r a) (s_thr s t))).
        eapply (at_spoken s p t _ (CCreate r a)); [exact A|unfold step; rewrite Q; reflexivity|reflexivity|reflexivity|unfold acts; rewrite Q; reflexivity|exact PS|discriminate|auto]. }
      exists s1. eapply at_sync; [exact A1|reflexivity].
    + (* return *)
      destruct (t_unw (s_thr s t)) eqn:U; [discriminate|]. destruct (t_hs (s_thr s t)) eqn:HS; [|discriminate]. destruct (t =? MAIN) eqn:TM; [discriminate|].
      destruct (t_bot (s_thr s t)) as [n|] eqn:B.
      * destruct (clean_ends (see (OReturn t v) (set_thr t (set_pc (BClean n v) (s_thr s t)) s)) p1 t n v) as (s1 & A1).
        { change (BClean n v) with (t_pc (set_pc (BClean n v) (s_thr s t))).
          eapply (at_spoken s p t _ (CReturn v)); [exact A|unfold step, app; rewrite Q, U, HS, TM, B; reflexivity|reflexivity|reflexivity|unfold acts; rewrite Q; reflexivity|exact PS|discriminate|auto]. }
        exists s1. eapply at_sync; [exact A1|reflexivity].
      * eapply (ONE (CReturn v)); [unfold step, app; rewrite Q, U, HS, TM, B; reflexivity|reflexivity|reflexivity|unfold acts; rewrite Q; reflexivity|discriminate|reflexivity].
    + (* pthread_exit *)
      destruct (t_unw (s_thr s t)) eqn:U; [discriminate|].
      destruct (Z.eqb_spec t MAIN) as [TM|TM]; [destruct (NX TM v eq_refl)|]. apply Z.eqb_neq in TM.
      eapply (ONE (CExit v)); [unfold step, app; rewrite Q, U, TM; reflexivity|reflexivity|reflexivity|unfold acts; rewrite Q; reflexivity|discriminate|cbn; rewrite Q; reflexivity].
    + eapply (ONE (CPush h)); [unfold step, app; rewrite Q; reflexivity|reflexivity|reflexivity|unfold acts; rewrite Q; reflexivity|discriminate|cbn; rewrite Q; reflexivity].
    + destruct (t_hs (s_thr s t)) eqn:HS; [discriminate|].
      eapply (ONE CPop); [unfold step, app; rewrite Q, HS; reflexivity|reflexivity|reflexivity|unfold acts; rewrite Q; reflexivity|discriminate|cbn; rewrite Q; reflexivity].
    + (* join *)
      rewrite (RT u) in PS0. unfold tmap in PS0. cbn [q_pc] in PS0. pose proof (proj2 S u) as SU.
      destruct (t_pc (s_thr s u)) eqn:QU; try discriminate SU; try discriminate PS0.
      exists (see (OJoin t u v) (set_thr u (set_pc PJoined (s_thr s u)) s)). apply (at_sync _ _ u PJoined); [|reflexivity].
      change (at_ (see (OJoin t u v) (set_thr u (set_pc PJoined (s_thr s u)) s)) p1 u (t_pc (set_pc PJoined (s_thr s u)))).
      eapply (at_spoken s p t _ (CJoin u)); [exact A|unfold step, app; rewrite Q, QU; reflexivity|reflexivity|reflexivity|unfold acts; rewrite Q, QU; reflexivity|exact PS|discriminate|auto].
    + (* pthread_cancel *)
      rewrite (RT u) in PS0. unfold tmap in PS0. cbn [q_pc] in PS0. pose proof (proj2 S u) as SU.
      assert (ST : step s t (CCancel u) = Some (set_thr u (set_pend true (s_thr s u)) s)).
      { unfold step, app. rewrite Q. destruct (t_pc (s_thr s u)); try discriminate SU; try discriminate PS0; reflexivity. }
      exists (set_thr u (set_pend true (s_thr s u)) s). eapply at_sync; [eapply (at_spoken s p t _ (CCancel u)); [exact A|exact ST|reflexivity|reflexivity|unfold acts; rewrite Q; reflexivity|exact PS|discriminate|auto]|exact SU].
    + eapply (ONE (CDisable b)); [unfold step, app; rewrite Q; reflexivity|reflexivity|reflexivity|unfold acts; rewrite Q; reflexivity|discriminate|cbn; rewrite Q; reflexivity].
    + (* a cancellation *)
      destruct (t_pend (s_thr s t)) eqn:E1; [|discriminate]. destruct (t_dis (s_thr s t)) eqn:E2; [discriminate|]. destruct (t_unw (s_thr s t)) eqn:E3; [discriminate|].
      assert (CA : cancels (s_thr s t) = true) by (unfold cancels; rewrite E1, E2, E3; reflexivity).
      eapply (ONE CAct); [unfold step, app; rewrite Q, CA; reflexivity|reflexivity|reflexivity|unfold acts; rewrite Q; reflexivity|auto|cbn; rewrite Q; reflexivity].
    + (* the next cleanup handler *)
      destruct (t_unw (s_thr s t)) as [v|] eqn:U; [|discriminate]. destruct (t_hs (s_thr s t)) eqn:HS.
      * destruct (t_bot (s_thr s t)) as [n|] eqn:B.
        -- destruct (clean_ends (set_thr t (set_pc (BClean n v) (s_thr s t)) s) p1 t n v) as (s1 & A1).
           { change (BClean n v) with (t_pc (set_pc (BClean n v) (s_thr s t))) at 2.
             eapply (at_spoken s p t _ CStep); [exact A|unfold step, app, unwind; rewrite Q, U, HS, B; reflexivity|reflexivity|reflexivity|unfold acts; rewrite Q; reflexivity|exact PS|discriminate|auto]. }
           exists s1. eapply at_sync; [exact A1|reflexivity].
        -- eapply (ONE CStep); [unfold step, app, unwind; rewrite Q, U, HS, B; reflexivity|reflexivity|reflexivity|unfold acts; rewrite Q; reflexivity|discriminate|reflexivity].
      * eapply (ONE CStep); [unfold step, app, unwind; rewrite Q, U, HS; reflexivity|reflexivity|reflexivity|unfold acts; rewrite Q; reflexivity|discriminate|cbn; rewrite Q; reflexivity].
  - (* the system makes the thread, or not *)
    destruct a; try discriminate PS0.
    + set (s1 := set_thr t (set_pc (PPost 0 (s_next s)) (s_thr s t)) (set_thr (s_next s) (fresh (BLink n)) (set_next (s_next s + 1) s))).
      assert (ST : step s t COk = Some s1) by (unfold step; rewrite Q; reflexivity).
      destruct (spoken s p t COk s1 AOk p1 R L) as [R1 L1]; [split; [discriminate|rewrite Q; discriminate]|exact ST|unfold acts; rewrite Q; reflexivity|exact PS|].
      destruct (begin_goes s1 p1 (s_next s) n) as (s2 & A2); [|exists s2; eapply at_sync; [exact A2|reflexivity]].
      assert (N : t <> s_next s) by (pose proof (live_lt s t (inv_reach _ _ R) ltac:(congruence)); lia).
      constructor; [exact R1|exact L1|apply S| |]; cbn.
      * intros u M. unfold upd. destruct (Z.eqb_spec u t); [reflexivity|]. destruct (Z.eqb_spec u (s_next s)); [congruence|apply S].
      * rewrite upd_other by congruence. rewrite upd_same. reflexivity.
    + destruct (e =? 0) eqn:E; [discriminate|].
      eapply (ONE (CFail e)); [unfold step; rewrite Q, E; reflexivity|reflexivity|reflexivity|unfold acts; rewrite Q; reflexivity|discriminate|reflexivity].
  - (* pthread_create returns *)
    destruct a; try discriminate PS0. clear ONE Q. pose proof (a_pc _ _ _ _ A) as Q. next A Q (CRet 0) (PBack e u).
    exists (see (OCreate t e u) (set_thr t (set_pc PApp (s_thr s0 t)) s0)). apply (at_sync _ _ t PApp); [|reflexivity].
    change (at_ (see (OCreate t e u) (set_thr t (set_pc PApp (s_thr s0 t)) s0)) p1 t (t_pc (set_pc PApp (s_thr s0 t)))).
    eapply (at_spoken s0 p t _ CStep); [exact A|unfold step; rewrite Q; reflexivity|reflexivity|reflexivity|unfold acts; rewrite Q; reflexivity|exact PS|discriminate|auto].
  - (* the start routine *)
    destruct a; try discriminate PS0.
    eapply (ONE CStep); [unfold step; rewrite Q; reflexivity|reflexivity|reflexivity|unfold acts; rewrite Q; reflexivity|discriminate|reflexivity].
Qed.

Lemma full_run l p : p_run p_init l = Some p -> (forall v, ~ In (MAIN, AExit v) l) -> next_state p.
Proof.
  assert (G : forall l s p0 p, reach quiet s -> rel s p0 -> sync s -> p_run p0 l = Some p -> (forall v, ~ In (MAIN, AExit v) l) -> next_state p).
  { clear. induction l as [|[t a] l IH]; cbn; intros s p0 p R L S H N.
    - inversion H; subst. exists s. auto.
    - destruct (p_step p0 t a) as [p1|] eqn:PS; [|discriminate].
      destruct (full_step s p0 t a p1 R L S PS) as (s1 & R1 & L1 & S1); [intros -> v ->; apply (N v); auto|].
      apply (IH s1 p1 p R1 L1 S1 H). intros v K. apply (N v). auto. }
  intros H N. eapply (G l init p_init); try eassumption; [constructor|apply rel_init|].
  split; [reflexivity|]. intros t. cbn. unfold upd. destruct (t =? MAIN); reflexivity.
Qed.
