(** Proofs: threads end as without the library. *)
From Verif Require Export JoinSpec.
From Coq Require Import Lia.
Local Open Scope Z_scope.

(** ** The nodes a thread holds *)

Definition bots (x : thr) : list Z := match t_bot x with Some n => [n] | None => [] end.
Definition hold (x : thr) : list Z :=
  match t_pc x with
  | PDone _ | PJoined | PNone => []
  | PFill n _ _ | PReal n | BLink n => n :: bots x
  | _ => bots x
  end.
Definition botok (x : thr) : Prop :=
  match t_pc x with
  | BInit n | BMark n | BCall n | BClean n _ | BFini n _ | BUnlink n _ => t_bot x = Some n
  | BLink _ | PNew _ _ | PNone => t_bot x = None
  | _ => True
  end.

Record inv (s : state) : Prop := {
  i_next : 2 <= s_next s;
  i_fresh : forall u, s_next s <= u -> s_thr s u = none;
  i_dis : forall t u n, In n (hold (s_thr s t)) -> In n (hold (s_thr s u)) -> t = u;
  i_nd : forall t, NoDup (hold (s_thr s t));
  i_out : forall t n, In n (hold (s_thr s t)) -> ~ In n (s_free s) /\ n < s_pos s;
  i_free : NoDup (s_free s) /\ forall n, In n (s_free s) -> n < s_pos s;
  i_bot : forall t, botok (s_thr s t) }.

Lemma live_lt s t : inv s -> t_pc (s_thr s t) <> PNone -> t < s_next s.
Proof. intros I N. destruct (Z_lt_le_dec t (s_next s)) as [L|L]; [exact L|]. rewrite (i_fresh _ I t L) in N. destruct N. reflexivity. Qed.

Lemma inv_init : inv init.
Proof.
  assert (H : forall t, hold (s_thr init t) = []).
  { intros t. cbn. unfold upd. destruct (t =? MAIN); reflexivity. }
  constructor; try (intros; rewrite H in *; cbn in *; tauto).
  - cbn. lia.
  - intros u L. cbn in *. rewrite upd_other; [reflexivity|]. unfold MAIN. lia.
  - intros t. rewrite H. constructor.
  - cbn. split; [constructor|tauto].
  - intros t. cbn. unfold upd. destruct (t =? MAIN); cbn; auto.
Qed.

Lemma inv_one s s1 t x1 : inv s -> s_thr s1 = upd (s_thr s) t x1 -> s_free s1 = s_free s -> s_pos s1 = s_pos s -> s_next s1 = s_next s ->
  t_pc (s_thr s t) <> PNone -> hold x1 = hold (s_thr s t) \/ hold x1 = [] \/ (exists n, hold (s_thr s t) = n :: hold x1) -> botok x1 -> inv s1.
Proof.
  intros I ET EF EP EN N H B. pose proof (live_lt _ _ I N) as L.
  assert (K : forall u n, In n (hold (s_thr s1 u)) -> In n (hold (s_thr s u))).
  { intros u n. rewrite ET. unfold upd. destruct (Z.eqb_spec u t) as [->|]; [|auto]. destruct H as [->|[->|[m ->]]]; [auto|intros []|right; assumption]. }
  constructor.
  - rewrite EN. apply (i_next _ I).
  - intros u. rewrite EN, ET. intros M. rewrite upd_other; [apply (i_fresh _ I); exact M|lia].
  - intros a b n A C. eapply (i_dis _ I); apply K; eassumption.
  - intros a. rewrite ET. unfold upd. destruct (Z.eqb_spec a t) as [->|]; [|apply (i_nd _ I)].
    destruct H as [->|[->|[m H]]]; [apply (i_nd _ I)|constructor|]. pose proof (i_nd _ I t) as ND. rewrite H in ND. inversion ND; assumption.
  - intros a n A. rewrite EF, EP. eapply (i_out _ I). apply K; eassumption.
  - rewrite EF, EP. apply (i_free _ I).
  - intros a. rewrite ET. unfold upd. destruct (Z.eqb_spec a t) as [->|]; [exact B|apply (i_bot _ I)].
Qed.

(** A node is taken. *)
Lemma make_fresh s : inv s -> let (n, s1) := make s in
  s_thr s1 = s_thr s /\ s_next s1 = s_next s /\ s_exit s1 = s_exit s /\ s_log s1 = s_log s /\
  (forall t, ~ In n (hold (s_thr s t))) /\ ~ In n (s_free s1) /\ n < s_pos s1 /\ s_pos s <= s_pos s1 /\
  (forall m, In m (s_free s1) -> In m (s_free s)) /\ NoDup (s_free s1) /\ s_node s1 = upd (s_node s) n blank.
Proof.
  intros I. destruct (i_free _ I) as [ND LT]. unfold make. destruct (s_free s) as [|n f] eqn:F; cbn.
  - repeat split; try lia; try tauto; try constructor. intros t A. pose proof (i_out _ I _ _ A). lia.
  - inversion ND; subst. repeat split; try lia; auto.
    + intros t A. destruct (i_out _ I _ _ A) as [X _]. apply X. rewrite F. left. reflexivity.
    + apply LT. left. reflexivity.
Qed.

Lemma inv_same s s1 : inv s -> s_thr s1 = s_thr s -> s_free s1 = s_free s -> s_pos s1 = s_pos s -> s_next s1 = s_next s -> inv s1.
Proof. intros [A B C D E F G] ET EF EP EN. constructor; rewrite ?ET, ?EF, ?EP, ?EN; assumption. Qed.

(** Node n goes from the creator to the new thread. *)
Lemma inv_born s s1 t n x1 y : inv s -> s_thr s1 = upd (upd (s_thr s) (s_next s) y) t x1 -> s_free s1 = s_free s -> s_pos s1 = s_pos s ->
  s_next s1 = s_next s + 1 -> t_pc (s_thr s t) <> PNone -> hold (s_thr s t) = n ++ hold x1 -> hold y = n -> botok x1 -> botok y -> inv s1.
Proof.
  intros I ET EF EP EN N H HY BX BY. pose proof (live_lt _ _ I N) as L. pose proof (i_nd _ I t) as ND. rewrite H in ND.
  assert (K : forall u m, In m (hold (s_thr s1 u)) -> u = s_next s /\ In m n \/ u = t /\ In m (hold x1) \/ u <> t /\ u <> s_next s /\ In m (hold (s_thr s u))).
  { intros u m. rewrite ET. unfold upd. destruct (Z.eqb_spec u t) as [->|]; [auto|]. destruct (Z.eqb_spec u (s_next s)) as [->|]; [|auto].
    rewrite HY. auto. }
  assert (KT : forall m, In m n -> In m (hold (s_thr s t))) by (intros m M; rewrite H; apply in_or_app; auto).
  assert (KX : forall m, In m (hold x1) -> In m (hold (s_thr s t))) by (intros m M; rewrite H; apply in_or_app; auto).
  assert (DJ : forall m, In m n -> In m (hold x1) -> False).
  { intros m M1 M2. clear - ND M1 M2. induction n as [|a n IH]; [exact M1|]. cbn in ND. inversion ND as [|? ? X Y]; subst.
    destruct M1 as [->|M1]; [apply X; apply in_or_app; auto|apply IH; assumption]. }
  constructor.
  - rewrite EN. pose proof (i_next _ I). lia.
  - intros u. rewrite EN, ET. intros M. rewrite !upd_other; [apply (i_fresh _ I); lia|lia|lia].
  - intros a b m A C. apply K in A, C.
    destruct A as [(A1 & A2)|[(A1 & A2)|(A1 & A3 & A2)]]; destruct C as [(C1 & C2)|[(C1 & C2)|(C1 & C3 & C2)]]; subst; try reflexivity; try (exfalso; eauto; fail).
    + exfalso. apply C1. symmetry. eapply (i_dis _ I); [|exact C2]. auto.
    + exfalso. apply C1. symmetry. eapply (i_dis _ I); [|exact C2]. auto.
    + exfalso. apply A1. eapply (i_dis _ I); [exact A2|]. auto.
    + exfalso. apply A1. eapply (i_dis _ I); [exact A2|]. auto.
    + eapply (i_dis _ I); eassumption.
  - intros a. rewrite ET. unfold upd. destruct (Z.eqb_spec a t) as [->|].
    { clear - ND. induction n; [exact ND|]. cbn in ND. inversion ND; auto. }
    destruct (Z.eqb_spec a (s_next s)) as [->|]; [|apply (i_nd _ I)]. rewrite HY. clear - ND.
    induction n; [constructor|]. cbn in ND. inversion ND; subst. constructor; [|auto]. intros X. apply H1. apply in_or_app; auto.
  - intros a m A. rewrite EF, EP. apply K in A. destruct A as [(A1 & A2)|[(A1 & A2)|(A1 & A3 & A2)]]; eapply (i_out _ I); eauto.
  - rewrite EF, EP. apply (i_free _ I).
  - intros a. rewrite ET. unfold upd. destruct (Z.eqb_spec a t) as [->|]; [exact BX|].
    destruct (Z.eqb_spec a (s_next s)) as [->|]; [exact BY|apply (i_bot _ I)].
Qed.

(** A node is taken. *)
Lemma inv_make s s1 s2 n t x1 : inv s -> make s = (n, s1) -> s_thr s2 = upd (s_thr s1) t x1 -> s_free s2 = s_free s1 -> s_pos s2 = s_pos s1 ->
  s_next s2 = s_next s1 -> t_pc (s_thr s t) <> PNone -> hold x1 = n :: hold (s_thr s t) -> botok x1 -> inv s2.
Proof.
  intros I M ET EF EP EN N H B. pose proof (live_lt _ _ I N) as L. pose proof (make_fresh s I) as MF. rewrite M in MF.
  destruct MF as (F1 & F2 & _ & _ & F3 & F4 & F5 & F6 & F7 & F8 & _). rewrite F1 in ET.
  constructor.
  - rewrite EN, F2. apply (i_next _ I).
  - intros u. rewrite EN, ET, F2. intros U. rewrite upd_other; [apply (i_fresh _ I); exact U|lia].
  - intros a b m. rewrite ET. unfold upd. destruct (Z.eqb_spec a t) as [->|]; destruct (Z.eqb_spec b t) as [->|]; try rewrite H; intros A C; try reflexivity.
    + destruct A as [<-|A]; [destruct (F3 b C)|]. eapply (i_dis _ I); eassumption.
    + destruct C as [<-|C]; [destruct (F3 a A)|]. eapply (i_dis _ I); eassumption.
    + eapply (i_dis _ I); eassumption.
  - intros a. rewrite ET. unfold upd. destruct (Z.eqb_spec a t) as [->|]; [|apply (i_nd _ I)]. rewrite H. constructor; [apply F3|apply (i_nd _ I)].
  - intros a m. rewrite ET, EF, EP. unfold upd.
    assert (O : In m (hold (s_thr s a)) -> ~ In m (s_free s1) /\ m < s_pos s1).
    { intros A. destruct (i_out _ I _ _ A) as [X Y]. split; [intros Z; apply X; auto|lia]. }
    destruct (Z.eqb_spec a t) as [->|]; [|exact O]. rewrite H. intros [<-|A]; [auto|exact (O A)].
  - rewrite EF, EP. split; [exact F8|]. intros m U. pose proof (proj2 (i_free _ I) m (F7 m U)). lia.
  - intros a. rewrite ET. unfold upd. destruct (Z.eqb_spec a t) as [->|]; [exact B|apply (i_bot _ I)].
Qed.

(** A node is given back. *)
Lemma inv_unlink s s1 n t x1 : inv s -> s_thr s1 = upd (s_thr s) t x1 -> s_free s1 = n :: s_free s -> s_pos s1 = s_pos s ->
  s_next s1 = s_next s -> t_pc (s_thr s t) <> PNone -> In n (hold (s_thr s t)) -> hold x1 = [] -> botok x1 -> inv s1.
Proof.
  intros I ET EF EP EN N H HX B. pose proof (live_lt _ _ I N) as L. destruct (i_out _ I _ _ H) as [O1 O2]. destruct (i_free _ I) as [ND LT].
  assert (K : forall u m, In m (hold (s_thr s1 u)) -> u <> t /\ In m (hold (s_thr s u))).
  { intros u m. rewrite ET. unfold upd. destruct (Z.eqb_spec u t) as [->|]; [rewrite HX; intros []|auto]. }
  constructor.
  - rewrite EN. apply (i_next _ I).
  - intros u. rewrite EN, ET. intros M. rewrite upd_other; [apply (i_fresh _ I); exact M|lia].
  - intros a b m A C. apply K in A, C. eapply (i_dis _ I); [apply A|apply C].
  - intros a. rewrite ET. unfold upd. destruct (Z.eqb_spec a t) as [->|]; [rewrite HX; constructor|apply (i_nd _ I)].
  - intros a m A. rewrite EF, EP. apply K in A. destruct A as [A1 A2]. destruct (i_out _ I _ _ A2) as [X Y]. split; [|exact Y].
    intros [<-|Z]; [|exact (X Z)]. apply A1. eapply (i_dis _ I); eassumption.
  - rewrite EF, EP. split; [constructor; assumption|]. intros m [<-|U]; auto.
  - intros a. rewrite ET. unfold upd. destruct (Z.eqb_spec a t) as [->|]; [exact B|apply (i_bot _ I)].
Qed.

(** Every case of a step. *)
Ltac cases H :=
  repeat (first
    [ discriminate H
    | match type of H with
      | context [match ?c with CCreate _ _ => _ | _ => _ end] => is_var c; destruct c
      | context [if ?b then _ else _] => destruct b eqn:?
      | context [match t_unw ?x with _ => _ end] => destruct (t_unw x) eqn:?
      | context [match t_hs ?x with _ => _ end] => destruct (t_hs x) eqn:?
      | context [match t_bot ?x with _ => _ end] => destruct (t_bot x) eqn:?
      | context [match t_pc ?x with _ => _ end] => destruct (t_pc x) eqn:?
      | context [let (_, _) := make ?s in _] => destruct (make s) eqn:?
      end ]).

Ltac one_goal P :=
  match goal with |- inv ?s1 =>
    solve [ eapply inv_same; [eassumption|reflexivity|reflexivity|reflexivity|reflexivity]
          | eapply inv_one; [eassumption|cbn; reflexivity|reflexivity|reflexivity|reflexivity|congruence
              |unfold hold, bots; cbn; repeat match goal with E : _ = _ |- _ => rewrite E end; auto
              |unfold botok; cbn; repeat match goal with E : _ = _ |- _ => rewrite E end; auto] ]
  end.

Lemma inv_step s t c s1 : inv s -> step s t c = Some s1 -> inv s1.
Proof.
  intros I H. unfold step, app, unwind in H. pose proof (i_bot _ I t) as B. unfold botok in B.
  destruct (t_pc (s_thr s t)) eqn:P; try rewrite P in B; cases H; inversion H; subst; clear H; try one_goal P.
  all: try (pose proof (i_bot _ I u) as BU; unfold botok in BU;
    match goal with E : t_pc (s_thr _ ?w) = _ |- _ => rewrite E in BU end; one_goal P).
  - eapply inv_make; [eassumption|eassumption|reflexivity|reflexivity|reflexivity|reflexivity|congruence| |exact Logic.I].
    unfold hold. cbn. rewrite P. reflexivity.
  - apply (inv_born s _ t [n] (set_pc (PPost 0 (s_next s)) (s_thr s t)) (fresh (BLink n))); try reflexivity; try assumption; [congruence|].
    unfold hold. cbn. rewrite P. reflexivity.
  - eapply inv_one; [eassumption|cbn; reflexivity|reflexivity|reflexivity|reflexivity|congruence| |exact Logic.I].
    right. right. exists n. unfold hold. cbn. rewrite P. reflexivity.
  - apply (inv_born s _ t [] (set_pc (PBack 0 (s_next s)) (s_thr s t)) (fresh (PNew r a))); try reflexivity; try assumption; [congruence|].
    unfold hold. cbn. rewrite P. reflexivity.
  - unfold unlink. destruct (s_exit s) eqn:X; [one_goal P|].
    eapply (inv_unlink s _ n t); [eassumption|cbn; reflexivity|reflexivity|reflexivity|reflexivity|congruence| |reflexivity|exact Logic.I].
    unfold hold, bots. rewrite P, B. left. reflexivity.
Qed.

Lemma inv_reach ok s : reach ok s -> inv s.
Proof. induction 1; [apply inv_init|eapply inv_step; eassumption]. Qed.

(** ** The same threads without the library *)

Definition pcmap (nodes : Z -> node) (p : pc) : ppc :=
  match p with
  | PNone => QNone | PDone v => QDone v | PJoined => QJoined | PApp => QApp
  | PPre r a | PMake r a | PFill _ r a | PRealIgn r a => QCreate r a
  | PReal n => QCreate (n_rtn (nodes n)) (n_arg (nodes n))
  | PPost e u | PBack e u => QBack e u
  | PNew r a => QNew r a
  | BLink n | BInit n | BMark n | BCall n => QNew (n_rtn (nodes n)) (n_arg (nodes n))
  | BClean _ v | BFini _ v | BUnlink _ v => QDone v
  end.
Definition tmap (nodes : Z -> node) (x : thr) : pthr :=
  mkp (pcmap nodes (t_pc x)) (t_hs x) (t_pend x) (t_dis x) (t_unw x).

Record rel (s : state) (p : plain) : Prop := {
  l_thr : forall t, p_thr p t = tmap (s_node s) (s_thr s t);
  l_next : p_next p = s_next s;
  l_log : p_log p = filter seen (s_log s) }.

Definition keeps (s s1 : state) (u : Z) : Prop :=
  forall n, In n (hold (s_thr s u)) -> n_rtn (s_node s1 n) = n_rtn (s_node s n) /\ n_arg (s_node s1 n) = n_arg (s_node s n).

Lemma tmap_keeps s s1 u : inv s -> keeps s s1 u -> tmap (s_node s1) (s_thr s u) = tmap (s_node s) (s_thr s u).
Proof.
  intros I K. unfold tmap. f_equal. pose proof (i_bot _ I u) as B. unfold keeps, hold, bots in K. unfold botok in B.
  destruct (t_pc (s_thr s u)); cbn; try reflexivity; try rewrite B in K; destruct (K n ltac:(left; reflexivity)) as [-> ->]; reflexivity.
Qed.

Lemma rel_init : rel init p_init.
Proof. constructor; try reflexivity. intros t. cbn. unfold upd. destruct (t =? MAIN); reflexivity. Qed.

(** A step changes thread w only. *)
Lemma rel_one s s1 p p1 w x1 : inv s -> rel s p -> s_thr s1 = upd (s_thr s) w x1 -> s_next s1 = s_next s ->
  (forall u, u <> w -> keeps s s1 u) -> p_next p1 = p_next p ->
  p_log p1 = filter seen (s_log s1) -> (forall u, p_thr p1 u = if u =? w then tmap (s_node s1) x1 else p_thr p u) -> rel s1 p1.
Proof.
  intros I [A B C] ET EN K PN PL PT. constructor; [|congruence|exact PL].
  intros u. rewrite PT, ET. unfold upd. destruct (Z.eqb_spec u w) as [->|N]; [reflexivity|].
  rewrite (tmap_keeps s s1 u I (K u N)). apply A.
Qed.

Lemma keeps_all s s1 : (forall n, n_rtn (s_node s1 n) = n_rtn (s_node s n) /\ n_arg (s_node s1 n) = n_arg (s_node s n)) -> forall u, keeps s s1 u.
Proof. intros H u n _. apply H. Qed.

Lemma keeps_but s s1 n t : inv s -> In n (hold (s_thr s t)) -> (forall m, m <> n -> s_node s1 m = s_node s m) -> forall u, u <> t -> keeps s s1 u.
Proof.
  intros I H E u N m M. destruct (Z.eq_dec m n) as [->|D]; [|rewrite (E m D); auto].
  destruct N. eapply (i_dis _ I); eassumption.
Qed.

(** The act of the plain machine that answers a choice. *)
Definition acts (s : state) (t : Z) (c : choice) : list (Z * act) :=
  match t_pc (s_thr s t), c with
  | PApp, CCreate r a => [(t, ACreate r a)]
  | PApp, CReturn v => [(t, AReturn v)]
  | PApp, CExit v => [(t, AExit v)]
  | PApp, CPush h => [(t, APush h)]
  | PApp, CPop => [(t, APop)]
  | PApp, CJoin u => match t_pc (s_thr s u) with PDone _ => [(t, AJoin u)] | _ => [] end
  | PApp, CCancel u => [(t, ACancel u)]
  | PApp, CDisable b => [(t, ADisable b)]
  | PApp, CAct => [(t, AAct)]
  | PApp, CStep => [(t, AStep)]
  | PReal _, COk | PRealIgn _ _, COk => [(t, AOk)]
  | PReal _, CFail e | PRealIgn _ _, CFail e => [(t, AFail e)]
  | PBack _ _, CStep | PNew _ _, CStep | BCall _, CStep => [(t, AStep)]
  | _, _ => []
  end.

Ltac keep :=
  first
    [ solve [intros ? ?; apply keeps_all; intros ?; cbn; auto]
    | solve [intros ? ?; apply keeps_all; intros ?; cbn; unfold upd;
        match goal with |- context [?m =? ?n] => destruct (Z.eqb_spec m n) as [->|]; cbn; auto end] ].

(** The creation of a thread. *)
Lemma rel_born s p t p1x p2x r a : inv s -> rel s p -> t_pc (s_thr s t) <> PNone ->
  pcmap (s_node s) p2x = QNew r a -> pcmap (s_node s) p1x = QBack 0 (s_next s) ->
  rel (set_thr t (set_pc p1x (s_thr s t)) (set_thr (s_next s) (fresh p2x) (set_next (s_next s + 1) s)))
    (mkplain (upd (upd (p_thr p) (s_next s) (mkp (QNew r a) [] false false None)) t
       (mkp (QBack 0 (s_next s)) (t_hs (s_thr s t)) (t_pend (s_thr s t)) (t_dis (s_thr s t)) (t_unw (s_thr s t))))
       (s_next s + 1) (filter seen (s_log s))).
Proof.
  intros I R N E2 E1. constructor; try reflexivity. intros u. cbn. unfold upd. destruct (Z.eqb_spec u t) as [->|].
  - unfold tmap. cbn. rewrite E1. reflexivity.
  - destruct (Z.eqb_spec u (s_next s)) as [->|]; [|apply (l_thr _ _ R)]. unfold tmap. cbn. rewrite E2. reflexivity.
Qed.

Lemma rel_same s s1 p : inv s -> rel s p -> s_thr s1 = s_thr s -> s_next s1 = s_next s -> filter seen (s_log s1) = filter seen (s_log s) ->
  (forall u, keeps s s1 u) -> rel s1 p.
Proof.
  intros I [A B C] ET EN EL K. constructor; [|congruence|congruence]. intros u. rewrite ET, (tmap_keeps s s1 u I (K u)). apply A.
Qed.

Ltac rel_go I R RL Rt :=
  match goal with |- rel (?S1) ?p1 =>
    match eval cbn in (s_thr S1) with
    | upd (s_thr ?s) ?w ?x => eapply (rel_one s S1 _ p1 w x I R); [reflexivity|reflexivity|keep|reflexivity|cbn; rewrite ?RL; reflexivity|];
      let k := fresh "k" in intros k; cbn [put p_thr]; try unfold upd at 1; destruct (Z.eqb_spec k w) as [->|]; [|reflexivity];
      try (rewrite Rt); unfold tmap; cbn; rewrite ?upd_same; cbn; repeat match goal with E : _ = _ |- _ => rewrite E end; reflexivity
    end
  end.

Lemma sim_step s p t c s1 : inv s -> rel s p -> quiet s t c -> step s t c = Some s1 ->
  exists p1, p_run p (acts s t c) = Some p1 /\ rel s1 p1.
Proof.
  intros I R [QA QL] H. pose proof (l_thr _ _ R) as RT. pose proof (l_next _ _ R) as RN. pose proof (l_log _ _ R) as RL.
  pose proof (RT t) as Rt. unfold step, app, unwind in H. pose proof (i_bot _ I t) as B. unfold botok in B.
  unfold acts. unfold tmap in Rt.
  destruct (t_pc (s_thr s t)) eqn:P; cases H; inversion H; subst; clear H;
   try (specialize (QA eq_refl); discriminate QA); cbn [p_run]; unfold p_step; rewrite ?Rt; cbn [q_pc q_hs q_pend q_dis q_unw pcmap];
   repeat match goal with E : _ = _ |- _ => rewrite E end; try (eexists; split; [reflexivity|]).
  all: try rel_go I R RL Rt.
  all: try (rewrite (RT u); cbn; repeat match goal with E : _ = _ |- _ => rewrite E end; eexists; split; [reflexivity|];
    rel_go I R RL (RT u)).
  - (* cancelled in the application *)
    match goal with E : cancels _ = true |- _ => unfold cancels in E; apply andb_prop in E; destruct E as [E1 E2]; apply andb_prop in E1; destruct E1 as [E1 E3] end.
    apply negb_true_iff in E3. destruct (t_unw (s_thr s t)) eqn:U; [discriminate|]. rewrite E1, E3 in *.
    eexists; split; [reflexivity|]. rel_go I R RL Rt.
  - apply (rel_same s _ p I R); try reflexivity. apply keeps_all. intros m. cbn. unfold upd. destruct (Z.eqb_spec m z) as [->|]; cbn; auto.
  - apply (rel_same s _ p I R); try reflexivity. apply keeps_all. cbn. auto.
  - apply (rel_same s _ p I R); try reflexivity. apply keeps_all. cbn. auto.
  - apply (rel_same s _ p I R); try reflexivity. apply keeps_all. intros m. cbn. unfold upd. destruct (Z.eqb_spec m z) as [->|]; cbn; auto.
  - (* a node is taken *)
    pose proof (make_fresh s I) as MF. rewrite Heqp0 in MF. destruct MF as (F1 & F2 & F3 & F4 & F5 & F6 & F7 & F8 & F9 & F10 & F11).
    eapply (rel_one s _ p p t _ I R); [cbn; rewrite F1; reflexivity|exact F2| |reflexivity|cbn; rewrite F4; exact RL|].
    + intros u _ m M. cbn. rewrite F11, upd_other; [auto|]. intros ->. exact (F5 u M).
    + intros k. destruct (Z.eqb_spec k t) as [->|]; [|reflexivity]. rewrite Rt. reflexivity.
  - (* it is filled *)
    eapply (rel_one s _ p p t _ I R); [reflexivity|reflexivity| |reflexivity|exact RL|].
    + apply (keeps_but s _ n t I); [unfold hold; rewrite P; left; reflexivity|]. intros m M. cbn. apply upd_other. exact M.
    + intros k. destruct (Z.eqb_spec k t) as [->|]; [|reflexivity]. rewrite Rt. unfold tmap. cbn. rewrite upd_same. reflexivity.
  - apply rel_born; try assumption; try reflexivity. congruence.
  - apply rel_born; try assumption; try reflexivity. congruence.
  - (* late *) discriminate (QL n eq_refl).
  - (* given back *)
    eapply (rel_one s _ p p t (set_pc (PDone v) (s_thr s t)) I R); [unfold unlink; destruct (s_exit s); reflexivity|unfold unlink; destruct (s_exit s); reflexivity| |reflexivity| |].
    + apply (keeps_but s _ n t I); [unfold hold, bots; rewrite P, B; left; reflexivity|]. intros m M. unfold unlink.
      destruct (s_exit s); cbn; [reflexivity|]. apply upd_other. exact M.
    + unfold unlink. destruct (s_exit s); exact RL.
    + intros k. destruct (Z.eqb_spec k t) as [->|]; [|reflexivity]. rewrite Rt. reflexivity.
Qed.

Lemma p_run_app p l l2 p1 : p_run p l = Some p1 -> p_run p (l ++ l2) = p_run p1 l2.
Proof.
  revert p. induction l as [|[t c] l IH]; cbn; intros p H; [inversion H; reflexivity|]. destruct (p_step p t c); [apply IH; exact H|discriminate].
Qed.

Lemma sim_reach s : reach quiet s -> exists l p, p_run p_init l = Some p /\ rel s p.
Proof.
  induction 1 as [|s t c s1 R (l & p & L & RL) Q S].
  - exists [], p_init. split; [reflexivity|apply rel_init].
  - destruct (sim_step _ _ _ _ _ (inv_reach _ _ R) RL Q S) as (p1 & P1 & R1). exists (l ++ acts s t c), p1.
    split; [rewrite (p_run_app _ _ _ _ L); exact P1|exact R1].
Qed.
