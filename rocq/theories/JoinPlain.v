(** Proofs: facts on threads without the library. *)
From Verif Require Export JoinFull.
From Coq Require Import Lia.
Local Open Scope Z_scope.

Definition begun (q : ppc) : bool := match q with QNone | QNew _ _ => false | _ => true end.

Record pinv (p : plain) : Prop := {
  v_next : 2 <= p_next p;
  v_new : forall u, p_next p <= u -> q_pc (p_thr p u) = QNone;
  v_start : forall u, u <> MAIN -> begun (q_pc (p_thr p u)) = true -> exists r a, In (OStart u r a) (p_log p);
  v_join : forall t u v, In (OJoin t u v) (p_log p) -> q_pc (p_thr p u) = QJoined }.

Lemma pinv_init : pinv p_init.
Proof.
  constructor; cbn; try tauto; try lia.
  - intros u N. unfold upd. destruct (Z.eqb_spec u MAIN); [unfold MAIN in *; lia|reflexivity].
  - intros u N. rewrite upd_other by exact N. discriminate.
Qed.

Lemma pinv_put p w x es : pinv p -> q_pc (p_thr p w) <> QNone ->
  (begun (q_pc x) = true -> begun (q_pc (p_thr p w)) = true \/ exists r a, In (OStart w r a) es) ->
  (q_pc (p_thr p w) = QJoined -> q_pc x = QJoined) ->
  (forall t u v, In (OJoin t u v) es -> u = w /\ q_pc x = QJoined) -> pinv (put w x es p).
Proof.
  intros [A B C D] N S J E. constructor; cbn.
  - exact A.
  - intros u H. pose proof (B u H) as Z. unfold upd. destruct (Z.eqb_spec u w) as [->|]; [congruence|exact Z].
  - intros u M. unfold upd. destruct (Z.eqb_spec u w) as [->|].
    + intros G. destruct (S G) as [X|(r & a & X)]; [destruct (C w M X) as (r & a & Y)|]; exists r, a; apply in_or_app; auto.
    + intros G. destruct (C u M G) as (r & a & Y). exists r, a. apply in_or_app; auto.
  - intros t u v K. apply in_app_or in K. unfold upd. destruct K as [K|K].
    + destruct (E _ _ _ K) as [-> X]. rewrite Z.eqb_refl. exact X.
    + pose proof (D _ _ _ K). destruct (Z.eqb_spec u w) as [->|]; auto.
Qed.

Lemma pinv_step p t a p1 : pinv p -> p_step p t a = Some p1 -> pinv p1.
Proof.
  intros I H. unfold p_step in H.
  destruct (q_pc (p_thr p t)) eqn:P; destruct a; try discriminate H;
  repeat match type of H with
    | context [match q_unw ?x with _ => _ end] => destruct (q_unw x) eqn:?; try discriminate H
    | context [match q_hs ?x with _ => _ end] => destruct (q_hs x) eqn:?; try discriminate H
    | context [if ?b then _ else _] => destruct b eqn:?; try discriminate H
    | context [match q_pc (p_thr p ?u) with _ => _ end] => destruct (q_pc (p_thr p u)) eqn:?; try discriminate H
    end; inversion H; subst; clear H;
  try solve [apply pinv_put; [exact I|congruence|cbn; rewrite ?P; auto|congruence|cbn; intros ? ? ? K; intuition discriminate]];
  try solve [apply pinv_put; [exact I|congruence|cbn; rewrite ?P; intros _; right; eexists _, _; left; reflexivity|congruence|cbn; intros ? ? ? K; intuition discriminate]];
  try solve [apply pinv_put; [exact I|congruence|cbn; match goal with E : q_pc _ = _ |- _ => rewrite E end; auto|congruence|cbn; intros ? ? ? [K|[]]; inversion K; subst; auto]];
  try solve [apply pinv_put; [exact I|congruence|cbn; repeat match goal with E : q_pc _ = _ |- _ => rewrite E end; auto|cbn; congruence|cbn; intros ? ? ? []]].
  (* a new thread *)
  destruct I as [A B C D].
  assert (L : t < p_next p) by (destruct (Z_lt_le_dec t (p_next p)) as [L|L]; [exact L|rewrite (B t L) in P; discriminate]).
  constructor; cbn; [lia| | |].
  - intros u N. rewrite !upd_other by lia. apply B. lia.
  - intros u N. unfold upd. destruct (Z.eqb_spec u t) as [->|]; cbn; [intros _; apply C; [exact N|rewrite P; reflexivity]|].
    destruct (Z.eqb_spec u (p_next p)); [discriminate|apply C; exact N].
  - intros w u v K. pose proof (D _ _ _ K) as J. unfold upd. destruct (Z.eqb_spec u t) as [->|]; [congruence|].
    destruct (Z.eqb_spec u (p_next p)) as [->|]; [|exact J]. rewrite (B _ (Z.le_refl _)) in J. discriminate J.
Qed.

Lemma pinv_run l : forall p p1, pinv p -> p_run p l = Some p1 -> pinv p1.
Proof.
  induction l as [|[t a] l IH]; cbn; intros p p1 I H; [inversion H; subst; exact I|].
  destruct (p_step p t a) eqn:S; [|discriminate]. eapply IH; [eapply pinv_step; eassumption|exact H].
Qed.

(** Without the library a thread that is joined has run its start routine. *)
Lemma plain_started l p t u v : p_run p_init l = Some p -> u <> MAIN -> In (OJoin t u v) (p_log p) -> exists r a, In (OStart u r a) (p_log p).
Proof.
  intros H N J. pose proof (pinv_run _ _ _ pinv_init H) as I. apply (v_start _ I u N). rewrite (v_join _ I _ _ _ J). reflexivity.
Qed.

(** The log only grows, and pthread_exit is on it. *)
Lemma p_step_log p t a p1 : p_step p t a = Some p1 -> exists es, p_log p1 = es ++ p_log p /\ forall v, a = AExit v -> In (OExit t v) es.
Proof.
  intros H. unfold p_step in H. destruct (q_pc (p_thr p t)) eqn:P; destruct a; try discriminate H;
  repeat match type of H with
    | context [match q_unw ?x with _ => _ end] => destruct (q_unw x) eqn:?; try discriminate H
    | context [match q_hs ?x with _ => _ end] => destruct (q_hs x) eqn:?; try discriminate H
    | context [if ?b then _ else _] => destruct b eqn:?; try discriminate H
    | context [match q_pc (p_thr p ?u) with _ => _ end] => destruct (q_pc (p_thr p u)) eqn:?; try discriminate H
    end; inversion H; subst; clear H; cbn;
  first [eexists [_]; split; [reflexivity|]; intros ? E; solve [discriminate E | inversion E; left; reflexivity]
        | exists []; split; [reflexivity|]; intros ? E; discriminate E].
Qed.

Lemma p_run_exits l : forall p p1 t v, p_run p l = Some p1 -> In (t, AExit v) l -> In (OExit t v) (p_log p1).
Proof.
  assert (M : forall l p p1 e, p_run p l = Some p1 -> In e (p_log p) -> In e (p_log p1)).
  { clear. induction l as [|[t a] l IH]; cbn; intros p p1 e H K; [inversion H; subst; exact K|].
    destruct (p_step p t a) as [p2|] eqn:S; [|discriminate]. destruct (p_step_log _ _ _ _ S) as (es & E & _).
    eapply IH; [exact H|]. rewrite E. apply in_or_app. auto. }
  induction l as [|[w a] l IH]; cbn; intros p p1 t v H K; [destruct K|].
  destruct (p_step p w a) as [p2|] eqn:S; [|discriminate]. destruct K as [K|K]; [|eapply IH; eassumption].
  inversion K; subst. destruct (p_step_log _ _ _ _ S) as (es & E & X). eapply M; [exact H|]. rewrite E. apply in_or_app. left. auto.
Qed.

Lemma quiet_fini s : reach quiet s -> reach fini_quiet s.
Proof.
  induction 1 as [|s t c s1 R IH [Q _] S]; [constructor|]. eapply r_step; [exact IH| |exact S].
  intros n v P E. rewrite (Q E) in P. discriminate P.
Qed.

(** Without the library a thread that is joined gives what its routine returned. *)
Lemma plain_returned l p t u v w : p_run p_init l = Some p -> (forall x, ~ In (OExit MAIN x) (p_log p)) ->
  In (OReturn u v) (p_log p) -> In (OJoin t u w) (p_log p) -> w = v.
Proof.
  intros H N A B. destruct (full_run l p H) as (s & R & L & _).
  { intros x K. exact (N x (p_run_exits _ _ _ _ _ H K)). }
  rewrite (l_log _ _ L) in A, B. apply filter_In in A, B. eapply returned; [apply quiet_fini; exact R|apply A|apply B].
Qed.

Lemma run_reach (ok : state -> Z -> choice -> Prop) (okb : state -> Z -> choice -> bool) :
  (forall s t c, okb s t c = true -> ok s t c) ->
  forall l s s1, reach ok s ->
  (fix go s l := match l with [] => Some s | (t, c) :: l => if okb s t c then match step s t c with Some s2 => go s2 l | None => None end else None end) s l = Some s1 ->
  reach ok s1.
Proof.
  intros K. induction l as [|[t c] l IH]; intros s s1 R H; [inversion H; subst; exact R|].
  destruct (okb s t c) eqn:O; [|discriminate]. destruct (step s t c) as [s2|] eqn:S; [|discriminate].
  eapply IH; [|exact H]. eapply r_step; [exact R|apply K; exact O|exact S].
Qed.

Definition quietb (s : state) (t : Z) (c : choice) : bool :=
  (match c with CAct => match t_pc (s_thr s t) with PApp => true | _ => false end | _ => true end &&
   match t_pc (s_thr s t) with BLink _ => negb (s_exit s) | _ => true end)%bool.
Lemma quietb_ok s t c : quietb s t c = true -> quiet s t c.
Proof.
  unfold quietb, quiet. intros H. apply andb_prop in H. destruct H as [A B]. split.
  - intros ->. destruct (t_pc (s_thr s t)); try discriminate; reflexivity.
  - intros n P. rewrite P in B. apply negb_true_iff. exact B.
Qed.
