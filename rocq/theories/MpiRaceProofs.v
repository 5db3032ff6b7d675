(** Proofs for MpiRaceProps.v. *)
From Verif Require Import MpiRaceModel MpiRaceSpec.

Lemma run_app s l1 : forall l2, run s (l1 ++ l2) = run (run s l1) l2.
Proof. revert s. induction l1 as [|[t c] l1 IH]; intros s l2; [reflexivity|]. cbn. apply IH. Qed.

Lemma run_inv (P : state -> Prop) s l :
  (forall s t c, P s -> P (step s t c)) -> P s -> P (run s l).
Proof. intros H. revert s. induction l as [|[t c] l IH]; intros s Hs; [exact Hs|]. cbn. apply IH. auto. Qed.

Ltac st := repeat match goal with
  | |- context [if ?b then _ else _] => let E := fresh "E" in destruct b eqn:E
  end; cbn.

(** ** Nothing is invented *)
Record from_calls (s : state) : Prop := {
  f_size : s_size s = -1 \/ some_size (hist s) (s_size s);
  f_rank : s_rank s = -1 \/ some_rank (hist s) (s_rank s);
  f_pc : forall t, match pcs s t with
                   | MpiTest a b | SetTest _ a b | SetSize _ a b | SetRank _ a b =>
                       some_size (hist s) a /\ some_rank (hist s) b
                   | _ => True
                   end;
  f_qs : forall l1 t v l2, hist s = l1 ++ QSize t v :: l2 -> v = -1 \/ some_size l2 v;
  f_qr : forall l1 t v l2, hist s = l1 ++ QRank t v :: l2 -> v = -1 \/ some_rank l2 v }.

Lemma some_size_cons e h a : some_size h a -> some_size (e :: h) a.
Proof. intros (t & m & b & H). exists t, m, b. now right. Qed.
Lemma some_rank_cons e h a : some_rank h a -> some_rank (e :: h) a.
Proof. intros (t & m & b & H). exists t, m, b. now right. Qed.

(** All that matters of a step. *)
Lemma from_calls_upd s s' t :
  from_calls s ->
  (hist s' = hist s \/ exists e, hist s' = e :: hist s /\
     (forall u v, e = QSize u v -> v = s_size s) /\ (forall u v, e = QRank u v -> v = s_rank s)) ->
  (s_size s' = s_size s \/ some_size (hist s) (s_size s')) ->
  (s_rank s' = s_rank s \/ some_rank (hist s) (s_rank s')) ->
  (forall u, u <> t -> pcs s' u = pcs s u) ->
  match pcs s' t with
  | MpiTest a b | SetTest _ a b | SetSize _ a b | SetRank _ a b =>
      some_size (hist s') a /\ some_rank (hist s') b
  | _ => True
  end ->
  from_calls s'.
Proof.
  intros F Hh Hs Hr Hp Ht.
  assert (U1 : forall a, some_size (hist s) a -> some_size (hist s') a).
  { intros a X. destruct Hh as [->|(e & -> & _)]; [exact X|now apply some_size_cons]. }
  assert (U2 : forall a, some_rank (hist s) a -> some_rank (hist s') a).
  { intros a X. destruct Hh as [->|(e & -> & _)]; [exact X|now apply some_rank_cons]. }
  split.
  - destruct Hs as [->|X]; [|right; auto]. destruct (f_size s F); auto.
  - destruct Hr as [->|X]; [|right; auto]. destruct (f_rank s F); auto.
  - intros u. destruct (Z.eq_dec u t) as [->|N]; [exact Ht|]. rewrite (Hp u N).
    pose proof (f_pc s F u) as P. destruct (pcs s u); auto; destruct P; auto.
  - intros l1 u v l2 E. destruct Hh as [H|(e & H & Q & _)]; rewrite H in E.
    + exact (f_qs s F _ _ _ _ E).
    + destruct l1 as [|x l1]; cbn in E; injection E as -> E.
      * subst l2. rewrite (Q u v eq_refl). apply (f_size s F).
      * exact (f_qs s F _ _ _ _ E).
  - intros l1 u v l2 E. destruct Hh as [H|(e & H & _ & Q)]; rewrite H in E.
    + exact (f_qr s F _ _ _ _ E).
    + destruct l1 as [|x l1]; cbn in E; injection E as -> E.
      * subst l2. rewrite (Q u v eq_refl). apply (f_rank s F).
      * exact (f_qr s F _ _ _ _ E).
Qed.

Lemma from_calls_step s t c : from_calls s -> from_calls (step s t c).
Proof.
  intros F. pose proof (f_pc s F t) as P. unfold step.
  assert (NP : forall u, u <> t -> forall p, upd (pcs s) t p u = pcs s u)
    by (intros; now apply upd_other).
  destruct (pcs s t) as [|a b|m a b|m a b|m a b|m| |] eqn:E.
  - destruct c as [a b|a b| | | |].
    + apply (from_calls_upd s _ t F); cbn; auto.
      * right. eexists. split; [reflexivity|]. split; discriminate.
      * rewrite upd_same. split; [exists t, false, b|exists t, false, a]; now left.
    + apply (from_calls_upd s _ t F); cbn; auto.
      * right. eexists. split; [reflexivity|]. split; discriminate.
      * rewrite upd_same. split; [exists t, true, b|exists t, true, a]; now left.
    + apply (from_calls_upd s _ t F); cbn; auto; [|now rewrite E].
      right. eexists. split; [reflexivity|]. split; congruence.
    + apply (from_calls_upd s _ t F); cbn; auto; [|now rewrite E].
      right. eexists. split; [reflexivity|]. split; congruence.
    + apply (from_calls_upd s _ t F); cbn; auto; [|now rewrite E].
      right. eexists. split; [reflexivity|]. split; discriminate.
    + destruct (s_count s >? 0); [|exact F].
      apply (from_calls_upd s _ t F); cbn; auto; [|now rewrite E].
      right. eexists. split; [reflexivity|]. split; discriminate.
  - destruct (_ && _); apply (from_calls_upd s _ t F); cbn; auto; rewrite upd_same; auto.
  - destruct (s_first s); [|destruct m]; apply (from_calls_upd s _ t F); cbn; auto;
    rewrite upd_same; auto.
  - destruct P. apply (from_calls_upd s _ t F); cbn; auto; rewrite upd_same; auto.
  - destruct P. apply (from_calls_upd s _ t F); cbn; auto; rewrite upd_same; auto.
  - apply (from_calls_upd s _ t F); cbn; auto; rewrite upd_same; destruct m; auto.
  - apply (from_calls_upd s _ t F); cbn; auto; rewrite upd_same; auto.
  - apply (from_calls_upd s _ t F); cbn; auto.
    + right. eexists. split; [reflexivity|]. split; discriminate.
    + now rewrite upd_same.
Qed.

Lemma from_calls_start : from_calls start.
Proof.
  split; cbn; auto; intros l1 t v l2 E; destruct l1; discriminate.
Qed.

Lemma from_calls_run l : from_calls (run start l).
Proof. apply run_inv; [exact from_calls_step|exact from_calls_start]. Qed.

(** ** Who is inside a call *)
Definition busy (p : pc) : bool := match p with Idle => false | _ => true end.

Lemma publishing_step s t c :
  (forall u, publishing (hist s) u = busy (pcs s u)) ->
  forall u, publishing (hist (step s t c)) u = busy (pcs (step s t c) u).
Proof.
  intros I u. pose proof (I u) as Iu. pose proof (I t) as It. unfold step.
  destruct (pcs s t) as [|a b|m a b|m a b|m a b|m| |] eqn:E;
  repeat match goal with
  | |- context [match ?c with ChSet _ _ => _ | _ => _ end] => destruct c
  | |- context [if ?b then go _ _ _ else _] => destruct b
  | |- context [if ?b then say _ _ else _] => destruct b
  end; cbn; unfold upd; rewrite ?(Z.eqb_sym t u);
  try (destruct (Z.eqb_spec u t) as [->|N]; cbn; auto; rewrite ?E in *; cbn in *; auto;
       try (destruct m; auto); fail);
  auto.
Qed.

Lemma publishing_run l u : publishing (hist (run start l)) u = busy (pcs (run start l) u).
Proof.
  revert u. apply (run_inv (fun s => forall u, publishing (hist s) u = busy (pcs s u))).
  - intros s t c I. now apply publishing_step.
  - reflexivity.
Qed.

(** ** It settles *)
Definition settled (s : state) : Prop :=
  s_first s = false /\
  forall t, match pcs s t with SetSize _ _ _ | SetRank _ _ _ | SetDone _ => False | _ => True end.

Definition same_answers (a b : Z) (l : list event) : Prop :=
  forall t v, (In (QSize t v) l -> v = a) /\ (In (QRank t v) l -> v = b).

Lemma settled_step s t c :
  settled s ->
  settled (step s t c) /\ s_size (step s t c) = s_size s /\ s_rank (step s t c) = s_rank s /\
  exists l, hist (step s t c) = l ++ hist s /\ same_answers (s_size s) (s_rank s) l.
Proof.
  intros [F P]. pose proof (P t) as Pt. unfold settled, step.
  assert (K : forall p, match p with SetSize _ _ _ | SetRank _ _ _ | SetDone _ => False | _ => True end ->
    forall u, match upd (pcs s) t p u with SetSize _ _ _ | SetRank _ _ _ | SetDone _ => False | _ => True end).
  { intros p Hp u. unfold upd. destruct (u =? t); [exact Hp|apply P]. }
  assert (N : forall e, (forall u v, e = QSize u v -> v = s_size s) ->
                        (forall u v, e = QRank u v -> v = s_rank s) ->
              same_answers (s_size s) (s_rank s) [e]).
  { intros e H1 H2 u v. split; intros [->|[]]; eauto. }
  assert (N0 : same_answers (s_size s) (s_rank s) []) by (intros u v; split; intros []).
  destruct (pcs s t) as [|a b|m a b|m a b|m a b|m| |] eqn:E; try contradiction.
  - destruct c as [a b|a b| | | |]; try match goal with |- context [s_count s >? 0] => destruct (s_count s >? 0) end; cbn;
    (split; [split; [exact F|try exact P; apply K; exact I]|]);
    (split; [reflexivity|split; [reflexivity|]]);
    try (eexists [_]; split; [reflexivity|]; apply N; congruence).
    exists []. split; [reflexivity|exact N0].
  - destruct (_ && _); cbn; (split; [split; [exact F|apply K; exact I]|]);
    (split; [reflexivity|split; [reflexivity|]]); exists []; now split.
  - rewrite F. cbn. (split; [split; [exact F|apply K; destruct m; exact I]|]);
    (split; [reflexivity|split; [reflexivity|]]); exists []; now split.
  - cbn. (split; [split; [exact F|apply K; exact I]|]);
    (split; [reflexivity|split; [reflexivity|]]); exists []; now split.
  - cbn. (split; [split; [exact F|apply K; exact I]|]);
    (split; [reflexivity|split; [reflexivity|]]).
    eexists [_]; split; [reflexivity|]; apply N; congruence.
Qed.

Lemma settled_run l : forall s, settled s ->
  exists new, hist (run s l) = new ++ hist s /\ same_answers (s_size s) (s_rank s) new.
Proof.
  induction l as [|[t c] l IH]; intros s S.
  - exists []. split; [reflexivity|]. intros t v. split; intros [].
  - cbn [run]. destruct (settled_step s t c S) as (S' & E1 & E2 & l1 & H1 & A1).
    destruct (IH _ S') as (l2 & H2 & A2). exists (l2 ++ l1). split.
    + rewrite H2, H1. apply app_assoc.
    + intros u v. rewrite E1, E2 in A2. split; intros I; apply in_app_or in I;
      destruct I as [I|I]; eauto; try (now apply (A2 u v)); now apply (A1 u v).
Qed.

(** A client call that has returned has left first = 0. *)
Definition set_marks (s : state) : Prop :=
  (exists t a b, In (PCall t false a b) (hist s)) -> s_first s = true ->
  exists t a b, pcs s t = SetTest false a b \/ pcs s t = SetSize false a b \/
                pcs s t = SetRank false a b \/ pcs s t = SetDone false.

Lemma set_marks_step s t c : set_marks s -> set_marks (step s t c).
Proof.
  intros M. unfold set_marks, step in *.
  assert (K : forall p, (forall a b, pcs s t <> SetTest false a b) ->
    (forall a b, pcs s t <> SetSize false a b) -> (forall a b, pcs s t <> SetRank false a b) ->
    pcs s t <> SetDone false ->
    (exists u a b, pcs s u = SetTest false a b \/ pcs s u = SetSize false a b \/
                pcs s u = SetRank false a b \/ pcs s u = SetDone false) ->
    (exists u a b, upd (pcs s) t p u = SetTest false a b \/ upd (pcs s) t p u = SetSize false a b \/
                upd (pcs s) t p u = SetRank false a b \/ upd (pcs s) t p u = SetDone false)).
  { intros p N1 N2 N3 N4 (u & a & b & H). exists u, a, b. rewrite upd_other; [exact H|].
    intros ->. destruct H as [H|[H|[H|H]]]; congruence. }
  destruct (pcs s t) as [|a b|m a b|m a b|m a b|m| |] eqn:E.
  - destruct c as [a b|a b| | | |]; try match goal with |- context [s_count s >? 0] => destruct (s_count s >? 0) end; cbn.
    + intros _ _. exists t, a, b. left. apply upd_same.
    + intros (u & x & y & [H|H]) F; [discriminate|]. apply K; try congruence. apply M; eauto.
    + intros (u & x & y & [H|H]) F; [discriminate|]. apply M; eauto.
    + intros (u & x & y & [H|H]) F; [discriminate|]. apply M; eauto.
    + intros (u & x & y & [H|H]) F; [discriminate|]. apply M; eauto.
    + intros (u & x & y & [H|H]) F; [discriminate|]. apply M; eauto.
    + exact M.
  - destruct (_ && _); cbn; intros H F; apply K; try congruence; auto.
  - destruct (s_first s) eqn:Fs; cbn; intros H F.
    + destruct m.
      * apply K; try congruence; auto.
      * exists t, a, b. right. left. apply upd_same.
    + congruence.
  - cbn. intros H F. destruct m.
    + apply K; try congruence; auto.
    + exists t, a, b. right. right. left. apply upd_same.
  - cbn. intros H F. destruct m.
    + apply K; try congruence; auto.
    + exists t, a, b. right. right. right. apply upd_same.
  - cbn. discriminate.
  - cbn. intros H F. apply K; try congruence; auto.
  - cbn. intros (u & x & y & [H|H]) F; [discriminate|]. apply K; try congruence. apply M; eauto.
Qed.

Lemma set_marks_run l : set_marks (run start l).
Proof.
  apply run_inv; [exact set_marks_step|]. intros (t & a & b & []).
Qed.

Lemma quiet_settled l :
  (forall t, publishing (hist (run start l)) t = false) ->
  (exists t a b, In (PCall t false a b) (hist (run start l))) ->
  settled (run start l).
Proof.
  intros Q C. set (s := run start l) in *.
  assert (I : forall t, pcs s t = Idle).
  { intros t. specialize (Q t). unfold s in Q. rewrite publishing_run in Q. fold s in Q.
    destruct (pcs s t); try discriminate. reflexivity. }
  split.
  - destruct (s_first s) eqn:F; [|reflexivity]. exfalso.
    destruct (set_marks_run l C F) as (t & a & b & H). fold s in H. rewrite I in H.
    destruct H as [H|[H|[H|H]]]; discriminate.
  - intros t. now rewrite I.
Qed.

Lemma settles l more :
  (forall t, publishing (hist (run start l)) t = false) ->
  (exists t a b, In (PCall t false a b) (hist (run start l))) ->
  exists a b new, since (run start l) (run start (l ++ more)) new /\ same_answers a b new.
Proof.
  intros Q C. pose proof (quiet_settled l Q C) as S. rewrite run_app.
  destruct (settled_run more _ S) as (new & H & A).
  exists (s_size (run start l)), (s_rank (run start l)), new. split; [exact H|exact A].
Qed.

(** ** One call at a time: the first wins *)
Definition stage (s : state) (p : pc) : Prop :=
  let e := first_pub (hist s) in
  let won := s_first s = false /\ e = Some (s_size s, s_rank s) in
  let virgin := s_first s = true /\ s_first_mpi s = true /\ s_size s = -1 /\ s_rank s = -1 in
  match p with
  | Idle => won \/ (virgin /\ e = None)
  | MpiTest a b => won \/ (virgin /\ e = if mpi_ready (hist s) then Some (a, b) else None)
  | SetTest _ a b => won \/ (virgin /\ e = Some (a, b))
  | SetSize _ a b => virgin /\ e = Some (a, b)
  | SetRank _ a b => s_first s = true /\ s_first_mpi s = true /\ s_size s = a /\ s_rank s = -1 /\ e = Some (a, b)
  | SetDone _ => s_first s = true /\ s_first_mpi s = true /\ e = Some (s_size s, s_rank s)
  | MpiDone => won
  | Return => won \/ (virgin /\ e = None)
  end.

Record alone (s : state) : Prop := {
  a_one : exists t, stage s (pcs s t) /\ forall u, u <> t -> pcs s u = Idle;
  a_done : forall p, done_pub (hist s) = Some p ->
    s_first s = false /\ first_pub (hist s) = Some p;
  a_count : inits (hist s) = (fst (inits (hist s)), fst (inits (hist s)) - s_count s) /\
            0 <= s_count s /\ s_count s <= s_max s /\ (0 <? fst (inits (hist s))) = (s_max s >? 0) /\
            0 <= fst (inits (hist s));
  a_qs : forall l1 t v l2, hist s = l1 ++ QSize t v :: l2 ->
    (forall p, done_pub l2 = Some p -> v = fst p) /\
    match first_pub l2 with None => v = -1 | Some p => v = -1 \/ v = fst p end;
  a_qr : forall l1 t v l2, hist s = l1 ++ QRank t v :: l2 ->
    (forall p, done_pub l2 = Some p -> v = snd p) /\
    match first_pub l2 with None => v = -1 | Some p => v = -1 \/ v = snd p end }.

Lemma ready_count s : alone s ->
  mpi_ready (hist s) = (s_count s =? 0) && (s_max s >? 0).
Proof.
  intros A. destruct (a_count s A) as (E & C0 & C1 & C2 & C3). unfold mpi_ready. rewrite E.
  destruct (inits (hist s)) as [x y]. cbn [fst] in *. rewrite C2.
  destruct (s_max s >? 0), (Z.eqb_spec (s_count s) 0), (Z.eqb_spec x (x - s_count s)); auto; lia.
Qed.

(** Steps that say nothing. *)
Lemma alone_quiet s s' t p :
  alone s -> (forall u, u <> t -> pcs s u = Idle) ->
  hist s' = hist s -> pcs s' = upd (pcs s) t p -> s_count s' = s_count s -> s_max s' = s_max s ->
  (s_first s = false -> s_first s' = false) ->
  stage s' p -> alone s'.
Proof.
  intros A O H P C1 C2 F S. split.
  - exists t. rewrite P, upd_same. split; [exact S|]. intros u N. rewrite upd_other; auto.
  - rewrite H. intros q Q. destruct (a_done s A q Q) as [X Y]. auto.
  - rewrite H, C1, C2. apply (a_count s A).
  - rewrite H. apply (a_qs s A).
  - rewrite H. apply (a_qr s A).
Qed.

Lemma stage_bound s p : stage s p ->
  match first_pub (hist s) with
  | None => s_size s = -1 /\ s_rank s = -1
  | Some q => (s_size s = -1 \/ s_size s = fst q) /\ (s_rank s = -1 \/ s_rank s = snd q)
  end.
Proof.
  unfold stage. destruct p; intros H;
  repeat match goal with
  | H : _ \/ _ |- _ => destruct H
  | H : _ /\ _ |- _ => destruct H
  end;
  repeat match goal with H : first_pub _ = _ |- _ => rewrite H; clear H end;
  cbn; try destruct (mpi_ready (hist s)); cbn; auto.
Qed.

(** Steps that add one event. *)
Lemma alone_say s s' t p e :
  alone s -> (forall u, u <> t -> pcs s u = Idle) -> stage s (pcs s t) ->
  hist s' = e :: hist s -> (forall u, u <> t -> pcs s' u = Idle) -> pcs s' t = p ->
  s_first s' = s_first s -> s_size s' = s_size s -> s_rank s' = s_rank s ->
  stage s' p ->
  (forall q, done_pub (e :: hist s) = Some q -> s_first s = false /\ first_pub (e :: hist s) = Some q) ->
  (inits (hist s') = (fst (inits (hist s')), fst (inits (hist s')) - s_count s') /\
   0 <= s_count s' /\ s_count s' <= s_max s' /\ (0 <? fst (inits (hist s'))) = (s_max s' >? 0) /\
   0 <= fst (inits (hist s'))) ->
  (forall u v, e = QSize u v -> v = s_size s) -> (forall u v, e = QRank u v -> v = s_rank s) ->
  alone s'.
Proof.
  intros A O St H O' P F E1 E2 S D C Q1 Q2. split.
  - exists t. rewrite P. split; [exact S|exact O'].
  - rewrite H, F. exact D.
  - exact C.
  - intros l1 u v l2 E. rewrite H in E. destruct l1 as [|x l1]; cbn in E; injection E as -> E.
    + subst l2. rewrite (Q1 u v eq_refl). pose proof (stage_bound _ _ St) as B. split.
      * intros q X. destruct (a_done s A q X) as [F0 Y]. rewrite Y in B.
        clear - St F0 Y. unfold stage in St. destruct (pcs s t);
        repeat match goal with
        | H : _ \/ _ |- _ => destruct H
        | H : _ /\ _ |- _ => destruct H
        end; congruence || (rewrite Y in *; match goal with H : Some _ = Some _ |- _ => injection H as -> end; reflexivity).
      * destruct (first_pub (hist s)); tauto.
    + exact (a_qs s A _ _ _ _ E).
  - intros l1 u v l2 E. rewrite H in E. destruct l1 as [|x l1]; cbn in E; injection E as -> E.
    + subst l2. rewrite (Q2 u v eq_refl). pose proof (stage_bound _ _ St) as B. split.
      * intros q X. destruct (a_done s A q X) as [F0 Y]. rewrite Y in B.
        clear - St F0 Y. unfold stage in St. destruct (pcs s t);
        repeat match goal with
        | H : _ \/ _ |- _ => destruct H
        | H : _ /\ _ |- _ => destruct H
        end; congruence || (rewrite Y in *; match goal with H : Some _ = Some _ |- _ => injection H as -> end; reflexivity).
      * destruct (first_pub (hist s)); tauto.
    + exact (a_qr s A _ _ _ _ E).
Qed.

Lemma alone_start : alone start.
Proof.
  split.
  - exists 0. split; [right; cbn; auto|reflexivity].
  - discriminate.
  - cbn. repeat split; lia.
  - intros [|x l1] t v l2 E; discriminate.
  - intros [|x l1] t v l2 E; discriminate.
Qed.

Lemma serial_step s t c : serial (hist (step s t c)) -> serial (hist s).
Proof.
  unfold step. destruct (pcs s t); cbn; try tauto;
  repeat match goal with
  | |- context [match ?c with ChSet _ _ => _ | _ => _ end] => destruct c
  | |- context [if ?b then _ else _] => destruct b
  end; cbn; tauto.
Qed.

Lemma inits_other e h : match e with InitBegin | InitEnd => False | _ => True end ->
  inits (e :: h) = inits h.
Proof. destruct e; cbn; tauto. Qed.

Definition pub_ok (s : state) : Prop := forall u, publishing (hist s) u = busy (pcs s u).


(** The one that may be busy can be taken to be the one that moves. *)
Lemma mover s t : alone s -> (forall u, u <> t -> pcs s u = Idle) -> stage s (pcs s t).
Proof.
  intros A O. destruct (a_one s A) as (a & St & Oa). destruct (Z.eq_dec a t) as [->|N]; [exact St|].
  rewrite (O a N) in St. rewrite (Oa t); auto.
Qed.

Lemma alone_step s t c :
  alone s -> pub_ok s -> serial (hist (step s t c)) -> alone (step s t c).
Proof.
  intros A PO. destruct (a_one s A) as (a & St & Oa).
  pose proof (ready_count s A) as RC. pose proof (a_count s A) as AC.
  assert (All : (forall u, publishing (hist s) u = false) -> forall u, pcs s u = Idle).
  { intros H u. specialize (H u). rewrite PO in H. destruct (pcs s u); auto; discriminate. }
  unfold step. destruct (pcs s t) as [|x y|m x y|m x y|m x y|m| |] eqn:E.
  - destruct c as [x y|x y| | | |].
    + cbn. intros [_ Q]. pose proof (All Q) as I.
      assert (Ot : forall u, u <> t -> pcs s u = Idle) by auto.
      pose proof (mover s t A Ot) as S. rewrite E in S.
      apply (alone_say s _ t (SetTest false x y) (PCall t false x y) A Ot); cbn; auto;
        try discriminate.
      * now rewrite E.
      * intros u N. rewrite upd_other; auto.
      * apply upd_same.
      * destruct S as [(F & S)|((V1 & V2 & V3 & V4) & S)]; [left|right]; cbn in *; rewrite S; auto.
      * intros q Q'. destruct (a_done s A q Q') as [X1 X2]. rewrite X2. auto.
    + cbn. intros [_ Q]. pose proof (All Q) as I.
      assert (Ot : forall u, u <> t -> pcs s u = Idle) by auto.
      pose proof (mover s t A Ot) as S. rewrite E in S.
      apply (alone_say s _ t (MpiTest x y) (PCall t true x y) A Ot); cbn; auto;
        try discriminate.
      * now rewrite E.
      * intros u N. rewrite upd_other; auto.
      * apply upd_same.
      * destruct S as [(F & S)|((V1 & V2 & V3 & V4) & S)]; [left|right]; cbn in *; rewrite S; auto.
      * intros q Q'. destruct (a_done s A q Q') as [X1 X2]. rewrite X2. auto.
    + cbn. intros _.
      apply (alone_say s _ a (pcs s a) (QSize t (s_size s)) A Oa St); cbn; auto; try congruence.
      * clear - St. unfold stage in *. cbn. destruct (pcs s a); cbn in *;
          destruct (first_pub (hist s)); auto.
      * intros q Q'. destruct (a_done s A q Q') as [X1 X2]. rewrite X2. auto.
    + cbn. intros _.
      apply (alone_say s _ a (pcs s a) (QRank t (s_rank s)) A Oa St); cbn; auto; try congruence.
      * clear - St. unfold stage in *. cbn. destruct (pcs s a); cbn in *;
          destruct (first_pub (hist s)); auto.
      * intros q Q'. destruct (a_done s A q Q') as [X1 X2]. rewrite X2. auto.
    + cbn. intros [_ Q]. pose proof (All Q) as I.
      assert (Ot : forall u, u <> t -> pcs s u = Idle) by auto.
      pose proof (mover s t A Ot) as S.
      apply (alone_say s _ t (pcs s t) InitBegin A Ot S); cbn; auto; try discriminate.
      * rewrite E in *. destruct S as [(F & S)|((V1 & V2 & V3 & V4) & S)]; [left|right]; cbn in *; rewrite S; auto.
      * intros q Q'. destruct (a_done s A q Q') as [X1 X2]. rewrite X2. auto.
      * destruct AC as (C1 & C2 & C3 & C4 & C5). destruct (inits (hist s)) as [i j]. cbn in *.
        injection C1 as ->. rewrite Z.gtb_ltb in *.
        destruct (Z.ltb_spec (s_max s) (s_count s + 1)); (split; [f_equal; lia|]); repeat split; try lia.
    + destruct (s_count s >? 0) eqn:Ec; [|now intros _].
      cbn. intros [_ Q]. pose proof (All Q) as I.
      assert (Ot : forall u, u <> t -> pcs s u = Idle) by auto.
      pose proof (mover s t A Ot) as S.
      apply (alone_say s _ t (pcs s t) InitEnd A Ot S); cbn; auto; try discriminate.
      * rewrite E in *. destruct S as [(F & S)|((V1 & V2 & V3 & V4) & S)]; [left|right]; cbn in *; rewrite S; auto.
      * intros q Q'. destruct (a_done s A q Q') as [X1 X2]. rewrite X2. auto.
      * destruct AC as (C1 & C2 & C3 & C4 & C5). destruct (inits (hist s)) as [i j]. cbn in *.
        injection C1 as ->. rewrite Z.gtb_ltb in *. apply Z.ltb_lt in Ec.
        destruct (Z.ltb_spec (s_max s) (s_count s + -1)); [lia|].
        split; [f_equal; lia|]. repeat split; try lia.
  - assert (Ot : forall u, u <> t -> pcs s u = Idle).
    { intros u N. destruct (Z.eq_dec u a) as [->|N2]; [|auto]. exfalso. rewrite (Oa t) in E; congruence. }
    pose proof (mover s t A Ot) as S. rewrite E in S. intros _.
    destruct (s_first_mpi s && (s_count s =? 0) && (s_max s >? 0)) eqn:G.
    + eapply (alone_quiet s _ t); cbn; eauto.
      apply andb_true_iff in G. destruct G as [G G3]. apply andb_true_iff in G. destruct G as [G1 G2].
      rewrite G2, G3 in RC. cbn in RC. unfold stage in S. rewrite RC in S. exact S.
    + eapply (alone_quiet s _ t); cbn; eauto.
      unfold stage in S |- *. cbn.
      destruct S as [W|(V & S)]; [now left|right]. split; [exact V|].
      destruct V as (_ & V2 & _). rewrite V2 in G. cbn in G. rewrite <- RC in G. rewrite G in S. exact S.
  - assert (Ot : forall u, u <> t -> pcs s u = Idle).
    { intros u N. destruct (Z.eq_dec u a) as [->|N2]; [|auto]. exfalso. rewrite (Oa t) in E; congruence. }
    pose proof (mover s t A Ot) as S. rewrite E in S. intros _.
    destruct (s_first s) eqn:F.
    + eapply (alone_quiet s _ t); cbn; eauto. 
      unfold stage in S |- *. cbn. destruct S as [(W & _)|S]; [congruence|]. rewrite F in *. exact S.
    + eapply (alone_quiet s _ t); cbn; eauto.
      unfold stage in S. rewrite F in S. destruct S as [W|((V & _) & _)]; [|congruence].
      destruct m; unfold stage; cbn; rewrite F; auto.
  - assert (Ot : forall u, u <> t -> pcs s u = Idle).
    { intros u N. destruct (Z.eq_dec u a) as [->|N2]; [|auto]. exfalso. rewrite (Oa t) in E; congruence. }
    pose proof (mover s t A Ot) as S. rewrite E in S. intros _.
    eapply (alone_quiet s _ t); cbn; eauto.
    unfold stage in S |- *. cbn. destruct S as ((V1 & V2 & V3 & V4) & S). auto.
  - assert (Ot : forall u, u <> t -> pcs s u = Idle).
    { intros u N. destruct (Z.eq_dec u a) as [->|N2]; [|auto]. exfalso. rewrite (Oa t) in E; congruence. }
    pose proof (mover s t A Ot) as S. rewrite E in S. intros _.
    eapply (alone_quiet s _ t); cbn; eauto.
    unfold stage in S |- *. cbn. destruct S as (V1 & V2 & V3 & V4 & S). rewrite V3. auto.
  - assert (Ot : forall u, u <> t -> pcs s u = Idle).
    { intros u N. destruct (Z.eq_dec u a) as [->|N2]; [|auto]. exfalso. rewrite (Oa t) in E; congruence. }
    pose proof (mover s t A Ot) as S. rewrite E in S. intros _.
    eapply (alone_quiet s _ t); cbn; eauto.
    unfold stage in S. destruct S as (V1 & V2 & S). destruct m; unfold stage; cbn; auto.
  - assert (Ot : forall u, u <> t -> pcs s u = Idle).
    { intros u N. destruct (Z.eq_dec u a) as [->|N2]; [|auto]. exfalso. rewrite (Oa t) in E; congruence. }
    pose proof (mover s t A Ot) as S. rewrite E in S. intros _.
    eapply (alone_quiet s _ t); cbn; eauto.
    unfold stage in S |- *. cbn. auto.
  - assert (Ot : forall u, u <> t -> pcs s u = Idle).
    { intros u N. destruct (Z.eq_dec u a) as [->|N2]; [|auto]. exfalso. rewrite (Oa t) in E; congruence. }
    pose proof (mover s t A Ot) as S. rewrite E in S. intros _.
    apply (alone_say s _ t Idle (PRet t) A Ot); cbn; auto; try discriminate.
    * now rewrite E.
    * intros u N. rewrite upd_other; auto.
    * apply upd_same.
    * unfold stage in S |- *. cbn. destruct S as [(F & S)|((V1 & V2 & V3 & V4) & S)]; [left|right];
      cbn in *; rewrite S; auto.
    * intros q Q'. unfold stage in S. rewrite Q'. split; [|reflexivity].
      destruct S as [(F & S)|(_ & S)]; [exact F|congruence].
Qed.

Lemma alone_run l : serial (hist (run start l)) -> alone (run start l).
Proof.
  induction l as [|[t c] l IH] using rev_ind; [intros _; exact alone_start|].
  rewrite run_app. cbn [run]. intros S. apply alone_step; [|intros u; apply publishing_run|exact S].
  apply IH. now apply serial_step in S.
Qed.
