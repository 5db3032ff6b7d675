(** * Proofs: an override that returns has called its real function *)

From Coq Require Import List String Bool Arith Lia.
From Verif Require Import OnceModel OnceSpec OnceProofs.
Import ListNotations.
Local Open Scope string_scope.
Local Open Scope list_scope.
Local Open Scope nat_scope.

Definition uses (n : string) (i : instr) : bool :=
  match i with IUse p => String.eqb (snd p) n | _ => false end.

Section Past.
  Variable f : fn.
  Variable n : string.
  Hypothesis in_body : existsb (uses n) (body f) = true.

  (** A frame of f that has made its call. *)
  Definition past (x : frame) : nat :=
    if fn_eq_dec f (fst x) then (if existsb (uses n) (snd x) then 0 else 1) else 0.
  Fixpoint pasts (st : list frame) : nat := match st with [] => 0 | x :: r => past x + pasts r end.
  Fixpoint total (ths : list (list frame)) : nat := match ths with [] => 0 | x :: r => pasts x + total r end.

  Lemma total_app a b : total (a ++ b) = total a + total b.
  Proof. induction a; cbn; lia. Qed.

  Lemma total_at ths t st : nth_error ths t = Some st ->
    total ths = total (firstn t ths) + pasts st + total (skipn (S t) ths).
  Proof.
    revert t. induction ths as [|x r IH]; intros [|t] H; try discriminate H.
    - cbn in H. inversion H; subst. cbn. lia.
    - cbn in H. specialize (IH t H). cbn [firstn total]. cbn [total]. rewrite IH.
      change (skipn (S (S t)) (x :: r)) with (skipn (S t) r). lia.
  Qed.

  Lemma past_call g : past (call g) = 0.
  Proof.
    unfold past, call. cbn. destruct (fn_eq_dec f g) as [<-|]; [|reflexivity]. now rewrite in_body.
  Qed.

  Lemma past_next g i c : uses n i = false \/ f <> g -> past (g, c) = past (g, i :: c).
  Proof.
    unfold past. cbn. destruct (fn_eq_dec f g) as [<-|]; [|reflexivity].
    intros [->|X]; [reflexivity|contradiction].
  Qed.

  Lemma total_set s t st st0 : nth_error (threads s) t = Some st0 ->
    total (threads (set_thread s t st)) + pasts st0 = total (threads s) + pasts st.
  Proof.
    intros H. rewrite (total_at _ _ _ H). cbn [threads set_thread]. rewrite total_app. cbn [total]. lia.
  Qed.

  Lemma past_step s e s' : step s e = Some s' ->
    total (threads s') + (if returning f s e then 1 else 0) + called f n s <=
    total (threads s) + called f n s'.
  Proof.
    intros H.
    (* a new stack that is no more past than the old one *)
    assert (SET : forall s1 t st st0, nth_error (threads s) t = Some st0 -> threads s1 = threads s ->
       calls s1 = calls s -> pasts st <= pasts st0 ->
       total (threads (set_thread s1 t st)) + 0 + called f n s <= total (threads s) + called f n (set_thread s1 t st)).
    { intros s1 t st st0 N T C L. rewrite <- T in N. pose proof (total_set s1 t st st0 N) as X.
      rewrite T in X. unfold called. cbn [calls set_thread]. rewrite C. lia. }
    destruct e as [t ch|t g|t|t|t|]; cbn [step returning] in H |- *.
    - destruct (nth_error (threads s) t) as [[|[g [|i c]] r]|] eqn:N; try discriminate H.
      + inversion H; subst. clear H. pose proof (total_set s t r _ N) as X. cbn [pasts] in X.
        unfold past in X. cbn [fst snd existsb] in X. unfold called. cbn [calls set_thread].
        destruct (fn_eq_dec f g); lia.
      + destruct (uses n i) eqn:U.
        * destruct i; try discriminate U. cbn [exec] in H. inversion H; subst. clear H.
          pose proof (total_set (log_call s g p) t ((g, c) :: r) _ N) as X. cbn [pasts threads log_call] in X.
          unfold called. cbn [calls set_thread log_call filter]. cbn in U. rewrite U, andb_true_r.
          unfold past in X. cbn [fst snd] in X.
          destruct (fn_eq_dec f g); cbn [List.length] in *;
            [|lia]. destruct (existsb (uses n) c); cbn [existsb] in X;
            destruct (uses n (IUse p) || _); lia.
        * assert (PN : past (g, c) = past (g, i :: c)) by (apply past_next; now left).
          assert (A : forall s1 st, threads s1 = threads s -> calls s1 = calls s ->
             pasts st <= past (g, i :: c) + pasts r ->
             total (threads (set_thread s1 t st)) + 0 + called f n s <=
             total (threads s) + called f n (set_thread s1 t st)).
          { intros s1 st T C L. now apply (SET s1 t st _ N). }
          destruct i; cbn [exec] in H; try discriminate H; inversion H; subst; clear H;
            try (apply A; try reflexivity; repeat (match goal with |- context [if ?b then _ else _] => destruct b end);
                 cbn [pasts]; rewrite ?past_call; lia).
          -- (* IUse of another name *)
             specialize (SET s t ((g, c) :: r) _ N eq_refl eq_refl).
             cbn in U. unfold called in *. cbn [calls set_thread log_call filter threads] in *. rewrite U, andb_false_r.
             apply SET. cbn [pasts]. lia.
          -- destruct ch; [|apply A; auto; cbn [pasts]; lia].
             unfold add_thread. cbn [threads]. rewrite total_app. cbn [total pasts]. rewrite past_call.
             specialize (A s ((g, c) :: r) eq_refl eq_refl). cbn [pasts] in A.
             unfold called in *. cbn [calls set_thread] in *. lia.
          -- destruct ch; [|apply A; auto; cbn [pasts]; lia].
             cbn [threads only_thread total pasts]. rewrite past_call.
             rewrite (total_at _ _ _ N). unfold called. cbn [calls only_thread pasts]. lia.
    - destruct (nth_error (threads s) t) as [[|[g0 [|i c]] r]|] eqn:N; try discriminate H.
      destruct i; try discriminate H. destruct (entry g); [|discriminate]. inversion H; subst.
      apply (SET s t _ _ N); auto. cbn [pasts]. rewrite past_call. lia.
    - destruct (nth_error (threads s) t) as [[|[g0 [|i c]] r]|] eqn:N; try discriminate H.
      destruct i; try discriminate H. inversion H; subst.
      apply (SET s t _ _ N); reflexivity.
    - destruct (nth_error (threads s) t) as [[|fr r]|] eqn:N; try discriminate H.
      destruct (installed s); [|discriminate]. inversion H; subst.
      apply (SET s t _ _ N); auto. cbn [pasts]. rewrite past_call. lia.
    - destruct (nth_error (threads s) t) as [[|fr r]|] eqn:N; try discriminate H.
      destruct (shooting s); [|discriminate]. inversion H; subst.
      apply (SET s t _ _ N); auto. cbn [pasts]. rewrite past_call. lia.
    - inversion H; subst. unfold add_thread. cbn [threads]. rewrite total_app. cbn [total pasts].
      rewrite past_call. unfold called. cbn [calls]. lia.
  Qed.

  Lemma past_run es : forall s s', run s es = Some s' ->
    total (threads s') + returns f s es + called f n s <= total (threads s) + called f n s'.
  Proof.
    induction es as [|e es IH]; intros s s' H; cbn [run returns] in *.
    - inversion H; subst. lia.
    - destruct (step s e) as [s1|] eqn:E; [|discriminate]. pose proof (past_step _ _ _ E).
      specialize (IH _ _ H). lia.
  Qed.
End Past.

Definition does (f : fn) : bool :=
  match duty f with
  | None => true
  | Some l => forallb (fun n => existsb (uses n) (body f)) l
  end.
Lemma does_body f : does f = true.
Proof. destruct f; try reflexivity. destruct m, s; reflexivity. Qed.

Lemma return_run es s : run start es = Some s ->
  forall f l n, duty f = Some l -> In n l -> returns f start es <= called f n s.
Proof.
  intros R f l n D I. pose proof (does_body f) as B. unfold does in B. rewrite D, forallb_forall in B.
  pose proof (past_run f n (B n I) es start s R) as X.
  assert (Z : total f n (threads start) = 0).
  { cbn. unfold past. cbn. destruct (fn_eq_dec f F_app) as [->|]; [discriminate D|reflexivity]. }
  rewrite Z in X. lia.
Qed.

(** ** No more calls than entries *)

Fixpoint n_uses (n : string) (c : list instr) : nat :=
  match c with [] => 0 | i :: r => (if uses n i then 1 else 0) + n_uses n r end.

Section Left.
  Variable f : fn.
  Variable n : string.
  Hypothesis in_body : n_uses n (body f) <= 1.

  (** The calls that a frame of f may still make. *)
  Definition left_in (x : frame) : nat := if fn_eq_dec f (fst x) then n_uses n (snd x) else 0.
  Fixpoint lefts (st : list frame) : nat := match st with [] => 0 | x :: r => left_in x + lefts r end.
  Fixpoint ltotal (ths : list (list frame)) : nat := match ths with [] => 0 | x :: r => lefts x + ltotal r end.
  Definition one (g : fn) : nat := if fn_eq_dec f g then 1 else 0.

  Lemma ltotal_app a b : ltotal (a ++ b) = ltotal a + ltotal b.
  Proof. induction a; cbn; lia. Qed.

  Lemma ltotal_at ths t st : nth_error ths t = Some st ->
    ltotal ths = ltotal (firstn t ths) + lefts st + ltotal (skipn (S t) ths).
  Proof.
    revert t. induction ths as [|x r IH]; intros [|t] H; try discriminate H.
    - cbn in H. inversion H; subst. cbn. lia.
    - cbn in H. specialize (IH t H). cbn [firstn ltotal]. rewrite IH.
      change (skipn (S (S t)) (x :: r)) with (skipn (S t) r). lia.
  Qed.

  Lemma left_call g : left_in (call g) <= one g.
  Proof.
    unfold left_in, call, one. cbn [fst snd]. destruct (fn_eq_dec f g) as [<-|]; [exact in_body|lia].
  Qed.

  Lemma left_next g i c : left_in (g, i :: c) = left_in (g, c) + (if uses n i then one g else 0).
  Proof. unfold left_in, one. cbn [fst snd n_uses]. destruct (fn_eq_dec f g), (uses n i); lia. Qed.

  Lemma ltotal_set s t st st0 : nth_error (threads s) t = Some st0 ->
    ltotal (threads (set_thread s t st)) + lefts st0 = ltotal (threads s) + lefts st.
  Proof.
    intros H. rewrite (ltotal_at _ _ _ H). cbn [threads set_thread]. rewrite ltotal_app. cbn [ltotal]. lia.
  Qed.

  Lemma left_step s e s' : step s e = Some s' ->
    ltotal (threads s') + called f n s' <=
    ltotal (threads s) + called f n s + (match entering s e with Some g => one g | None => 0 end).
  Proof.
    intros H.
    assert (SET : forall s1 t st st0 k, nth_error (threads s) t = Some st0 -> threads s1 = threads s ->
       calls s1 = calls s -> lefts st <= lefts st0 + k ->
       ltotal (threads (set_thread s1 t st)) + called f n (set_thread s1 t st) <=
       ltotal (threads s) + called f n s + k).
    { intros s1 t st st0 k N T C L. rewrite <- T in N. pose proof (ltotal_set s1 t st st0 N) as X.
      rewrite T in X. unfold called. cbn [calls set_thread]. rewrite C. lia. }
    destruct e as [t ch|t g|t|t|t|]; cbn [step entering] in H |- *.
    - destruct (nth_error (threads s) t) as [[|[g [|i c]] r]|] eqn:N; try discriminate H.
      + inversion H; subst. apply (SET s t _ _ 0 N); try reflexivity. cbn [lefts]. lia.
      + pose proof (left_next g i c) as LN.
        assert (A : forall s1 st k, threads s1 = threads s -> calls s1 = calls s ->
           lefts st <= left_in (g, i :: c) + lefts r + k ->
           ltotal (threads (set_thread s1 t st)) + called f n (set_thread s1 t st) <=
           ltotal (threads s) + called f n s + k).
        { intros s1 st k T C L. now apply (SET s1 t st _ k N). }
        assert (LC : forall g0, left_in (call g0) <= one g0) by exact left_call.
        destruct i; cbn [exec] in H; try discriminate H; inversion H; subst; clear H;
          try (apply A; try reflexivity; repeat (match goal with |- context [if ?b then _ else _] => destruct b end);
               cbn [lefts]; try specialize (LC g0); try specialize (LC g); lia).
        * (* IUse *)
          pose proof (ltotal_set (log_call s g p) t ((g, c) :: r) _ N) as X. cbn [lefts threads log_call] in X.
          unfold called. cbn [calls set_thread log_call filter]. unfold one in LN. cbn [uses] in LN.
          destruct (fn_eq_dec f g); cbn [andb]; [|lia].
          destruct (String.eqb (snd p) n); cbn [List.length]; lia.
        * destruct ch; [|apply A; try reflexivity; cbn [lefts]; lia].
          unfold add_thread. cbn [threads]. rewrite ltotal_app. cbn [ltotal lefts].
          specialize (A s ((g, c) :: r) 0 eq_refl eq_refl). cbn [lefts] in A. specialize (LC g0).
          unfold called in *. cbn [calls set_thread] in *. lia.
        * destruct ch; [|apply A; try reflexivity; cbn [lefts]; lia].
          cbn [threads only_thread ltotal lefts]. specialize (LC g0).
          rewrite (ltotal_at _ _ _ N). unfold called. cbn [calls only_thread lefts]. lia.
    - destruct (nth_error (threads s) t) as [[|[g0 [|i c]] r]|] eqn:N; try discriminate H.
      destruct i; try discriminate H. destruct (entry g); [|discriminate]. inversion H; subst.
      apply (SET s t _ _ _ N); try reflexivity. cbn [lefts]. pose proof (left_call g). lia.
    - destruct (nth_error (threads s) t) as [[|[g0 [|i c]] r]|] eqn:N; try discriminate H.
      destruct i; try discriminate H. inversion H; subst.
      apply (SET s t _ _ _ N); try reflexivity. cbn [lefts]. rewrite (left_next g0 IClient c). cbn [uses]. lia.
    - destruct (nth_error (threads s) t) as [[|fr r]|] eqn:N; try discriminate H.
      destruct (installed s); [|discriminate]. inversion H; subst.
      apply (SET s t _ _ _ N); try reflexivity. cbn [lefts]. pose proof (left_call F_signal_handler). lia.
    - destruct (nth_error (threads s) t) as [[|fr r]|] eqn:N; try discriminate H.
      destruct (shooting s); [|discriminate]. inversion H; subst.
      apply (SET s t _ _ _ N); try reflexivity. cbn [lefts]. pose proof (left_call F_shootdown_handler). lia.
    - inversion H; subst. unfold add_thread. cbn [threads]. rewrite ltotal_app. cbn [ltotal lefts].
      pose proof (left_call F_app). unfold called. cbn [calls]. lia.
  Qed.

  Lemma left_run es : forall s s', run s es = Some s' ->
    ltotal (threads s') + called f n s' <= ltotal (threads s) + called f n s + entries f s es.
  Proof.
    induction es as [|e es IH]; intros s s' H; cbn [run entries] in *.
    - inversion H; subst. lia.
    - destruct (step s e) as [s1|] eqn:E; [|discriminate]. pose proof (left_step _ _ _ E) as X. unfold one in X.
      specialize (IH _ _ H). lia.
  Qed.
End Left.

Definition does_once (f : fn) : bool :=
  match duty f with
  | None => true
  | Some l => forallb (fun n => n_uses n (body f) <=? 1) l
  end.
Lemma does_once_body f : does_once f = true.
Proof. destruct f; try reflexivity. destruct m, s; reflexivity. Qed.

Lemma entry_run es s : run start es = Some s ->
  forall f l n, duty f = Some l -> In n l -> called f n s <= entries f start es.
Proof.
  intros R f l n D I. pose proof (does_once_body f) as B. unfold does_once in B. rewrite D, forallb_forall in B.
  pose proof (left_run f n (proj1 (Nat.leb_le _ _) (B n I)) es start s R) as X.
  assert (Z : ltotal f n (threads start) = 0).
  { cbn. unfold left_in. cbn. destruct (fn_eq_dec f F_app) as [->|]; reflexivity. }
  rewrite Z in X. unfold called in X at 2. cbn in X. lia.
Qed.
