(** * Proofs about calls of real functions

    A check of the code of every function, by computation, and a proof that
    the check implies that calls go through pointers that have been found. *)

From Coq Require Import List String Bool Arith Lia.
From Verif Require Import OnceModel OnceSpec.
Import ListNotations.
Local Open Scope string_scope.
Local Open Scope list_scope.
Local Open Scope nat_scope.

Lemma ptr_eqb_eq a b : ptr_eqb a b = true <-> a = b.
Proof.
  unfold ptr_eqb. destruct a as [f n], b as [g m]; cbn [fst snd].
  rewrite andb_true_iff, String.eqb_eq. split.
  - intros [A B]. destruct f, g; cbn in A; congruence.
  - intros A; injection A as -> ->. split; [destruct g|]; reflexivity.
Qed.

Lemma flag_eqb_eq a b : flag_eqb a b = true <-> a = b.
Proof. split; [destruct a, b; cbn; congruence | intros ->; destruct b; reflexivity]. Qed.

Definition mem (p : ptr) (K : list ptr) : bool := existsb (ptr_eqb p) K.
Definition sub (A B : list ptr) : bool := forallb (fun p => mem p B) A.

Lemma mem_in p K : mem p K = true <-> In p K.
Proof.
  unfold mem. rewrite existsb_exists. split.
  - intros (q & A & B). apply ptr_eqb_eq in B. subst; exact A.
  - intros A. exists p. split; [exact A | apply ptr_eqb_eq; reflexivity].
Qed.

Lemma sub_in A B : sub A B = true <-> incl A B.
Proof.
  unfold sub, incl. rewrite forallb_forall. split; intros H p I.
  - apply mem_in, H, I.
  - apply mem_in, H, I.
Qed.

(** ** What the check knows about the flags and functions *)

Definition hastyflag (fl : flag) : bool :=
  match fl with FlNormal | FlNames | FlSignal => true | _ => false end.

Definition initfn (fl : flag) : fn :=
  match fl with
  | FlNormal => F_normal_init | FlNames => F_name_init | _ => F_signal_init
  end.

Definition owns (f : fn) (fl : flag) : bool :=
  match f, fl with
  | F_normal_init, FlNormal | F_name_init, FlNames | F_signal_init, FlSignal => true
  | _, _ => false
  end.

Lemma owns_initfn f fl : owns f fl = true -> f = initfn fl.
Proof. destruct f, fl; cbn; congruence. Qed.

Lemma owns_one fl g : hastyflag fl = true -> owns (initfn fl) g = true -> g = fl.
Proof. destruct fl, g; cbn; congruence. Qed.

Lemma hasty_initfn fl : hasty (initfn fl) = true.
Proof. destruct fl; reflexivity. Qed.

Definition rank (f : fn) : nat :=
  match f with
  | F_getspecific => 0 | F_get_tn => 1 | F_debug => 2
  | F_early_init | F_install_loop => 3
  | F_fork_init | F_signal_init | F_name_init => 4
  | F_normal_init => 5
  | _ => 9
  end.

Lemma hasty_rank f : hasty f = true -> rank f <= 5.
Proof. destruct f; cbn; intros; try discriminate; lia. Qed.

Definition notest (fl : flag) (c : list instr) : bool :=
  forallb (fun i => match i with ITest g => negb (flag_eqb fl g) | _ => true end) c.

(** One instruction of [f], with the code that follows it. *)
Definition test1 (f : fn) (i : instr) (c : list instr) : bool :=
  let quiet := rank f <? 9 in
  match i with
  | ITest fl => (negb (hastyflag fl) && negb (hasty f)) || owns f fl
  | ISet fl => negb (hastyflag fl) || (owns f fl && notest fl c)
  | ICall g | IMaybe g | IUsed g => negb quiet || (rank g <? rank f)
  | ILook _ _ | IUse _ => true
  | ILoop | IInstall | IMaybeRet => negb (hasty f)
  | _ => negb quiet
  end.

Fixpoint tests (f : fn) (c : list instr) : bool :=
  match c with [] => true | i :: c' => test1 f i c' && tests f c' end.

Lemma tests_at f : forall k code i c,
  tests f code = true -> skipn k code = i :: c -> test1 f i c = true.
Proof.
  induction k as [|k IH]; intros code i c T E.
  - cbn in E. subst code. cbn in T. apply andb_true_iff in T. apply T.
  - destruct code as [|j code]; cbn in E; [discriminate|].
    cbn in T. apply andb_true_iff in T. apply (IH code); [apply T | exact E].
Qed.

Lemma tests_body f : tests f (body f) = true.
Proof. destruct f; try reflexivity. destruct m, s; reflexivity. Qed.

Lemma skipn_next {A} : forall k (l : list A) i c, skipn k l = i :: c -> skipn (S k) l = c.
Proof.
  induction k as [|k IH]; intros l i c E.
  - cbn in E. subst l. reflexivity.
  - destruct l as [|a l]; cbn in E; [discriminate|]. cbn. apply (IH l i c E).
Qed.

Lemma skipn_in {A} : forall k (l : list A) x, In x (skipn k l) -> In x l.
Proof.
  induction k as [|k IH]; intros l x I; [exact I|].
  destruct l as [|a l]; cbn in I; [exact I | right; apply (IH l x I)].
Qed.

Section Check.
Variable care : ptr -> bool.
Variable guard : flag -> list ptr.
Variables pre post : fn -> list ptr.
Variables gT gI gS : list ptr.

Definition hguards : list ptr := guard FlNormal ++ guard FlNames ++ guard FlSignal.

(** With the pointers of [K] found, [code] of [f] makes only good calls, and
    the pointers of [post f] are found when it returns. *)
Fixpoint chk (f : fn) (K : list ptr) (code : list instr) : bool :=
  match code with
  | [] => sub (post f) K
  | i :: c =>
      match i with
      | ILook p n => String.eqb n (snd p) && chk f (p :: K) c
      | IUse p => (negb (care p) || mem p K) && chk f K c
      | ITest fl => sub (post f) (K ++ guard fl) && chk f K c
      | ISet fl => (hastyflag fl || sub (guard fl) K) && chk f K c
      | ICall g => sub (pre g) K && chk f (K ++ post g) c
      | IMaybe g => sub (pre g) K && chk f K c
      | IMaybeRet => sub (post f) K && chk f K c
      | ITail g => sub (pre g) K && (sub (post f) K && chk f K c)
      | ILoop => sub (pre f) K && chk f K c
      | IUsed g => sub (pre g) (K ++ gT) && chk f K c
      | IUnused g =>
          sub (pre g) K && chk f (K ++ (if sub gT (post g) then gT else [])) c
      | ISetUsed b => (negb b || sub gT K) && chk f K c
      | IClient => chk f K c
      | ISpawn g => sub (pre g) K && (sub hguards K && chk f K c)
      | IFork g => sub (pre g) K && (sub (post f) K && chk f K c)
      | IInstall => sub gI K && chk f K c
      | IShoot => sub gS K && chk f K c
      end
  end.

Fixpoint ok (K : list ptr) (st : list frame) : Prop :=
  match st with
  | [] => True
  | (f, c) :: r => chk f K c = true /\ ok (K ++ post f) r
  end.

Hypothesis all_chk : forall f, chk f (pre f) (body f) = true.
Hypothesis entry_pre : forall f, entry f = true -> pre f = [].
Hypothesis app_pre : pre F_app = [].
Hypothesis handler_pre : sub (pre F_signal_handler) gI = true.
Hypothesis shoot_pre : sub (pre F_shootdown_handler) gS = true.
Hypothesis guard_post : forall fl, hastyflag fl = true -> sub (guard fl) (post (initfn fl)) = true.

Definition weakg : Prop := forall fl, hastyflag fl = true -> guard fl = [].

Lemma sub_app A K K' L : incl K K' -> sub A (K ++ L) = true -> sub A (K' ++ L) = true.
Proof.
  intros I S. apply sub_in. apply sub_in in S. intros p P.
  apply S in P. apply in_app_iff in P. apply in_app_iff.
  destruct P as [P|P]; [left; apply I, P | right; exact P].
Qed.

Lemma sub_mono A K K' : incl K K' -> sub A K = true -> sub A K' = true.
Proof. intros I S. apply sub_in. apply sub_in in S. intros p P. apply I, S, P. Qed.

Lemma incl_app2 (K K' L : list ptr) : incl K K' -> incl (K ++ L) (K' ++ L).
Proof.
  intros I p P. apply in_app_iff in P. apply in_app_iff.
  destruct P as [P|P]; [left; apply I, P | right; exact P].
Qed.

Lemma chk_mono f : forall c K K', incl K K' -> chk f K c = true -> chk f K' c = true.
Proof.
  induction c as [|i c IH]; intros K K' I C; cbn in *.
  - eapply sub_mono; eassumption.
  - destruct i; repeat (apply andb_true_iff in C; destruct C as [?C C]);
      repeat (apply andb_true_iff; split);
      try (eapply sub_mono; eassumption); try (eapply sub_app; eassumption);
      try (eapply IH; [|eassumption]; try exact I; try (apply incl_app2; exact I));
      try assumption.
    + intros q [Q|Q]; [left; exact Q | right; apply I, Q].
    + apply orb_true_iff in C0. apply orb_true_iff.
      destruct C0 as [C0|C0]; [left; exact C0 | right].
      apply mem_in, I, mem_in, C0.
    + apply orb_true_iff in C0. apply orb_true_iff.
      destruct C0 as [C0|C0]; [left; exact C0 | right; eapply sub_mono; eassumption].
    + apply orb_true_iff in C0. apply orb_true_iff.
      destruct C0 as [C0|C0]; [left; exact C0 | right; eapply sub_mono; eassumption].
Qed.

Lemma ok_mono : forall st K K', incl K K' -> ok K st -> ok K' st.
Proof.
  induction st as [|[f c] st IH]; intros K K' I O; cbn in *; [exact Logic.I|].
  destruct O as [A B]. split.
  - eapply chk_mono; eassumption.
  - eapply IH; [apply incl_app2, I | exact B].
Qed.

Lemma ok_call g K st : sub (pre g) K = true -> ok (K ++ post g) st -> ok K (call g :: st).
Proof.
  intros P O. split; [|exact O]. eapply chk_mono; [|apply all_chk].
  apply sub_in, P.
Qed.

Definition found (s : state) (K : list ptr) : Prop :=
  forall p, In p K -> ptrs s p = Some (snd p).

Fixpoint shape (st : list frame) : Prop :=
  match st with
  | [] => True
  | (g, _) :: r =>
      (forall f c, In (f, c) r -> hasty f = true -> rank g < rank f) /\ shape r
  end.

Definition suffix (fr : frame) : Prop := exists k, snd fr = skipn k (body (fst fr)).

Definition running (fl : flag) (st : list frame) : Prop :=
  exists c, In (initfn fl, c) st /\ notest fl c = true.

Record Inv (s : state) : Prop := {
  i_val : forall p o, ptrs s p = Some o -> o = snd p;
  i_used : used s = true -> found s gT;
  i_inst : installed s = true -> found s gI;
  i_shoot : shooting s = true -> found s gS;
  i_flag : forall fl, flags s fl = true ->
    found s (guard fl) \/
    (hastyflag fl = true /\ exists st, threads s = [st] /\ running fl st);
  i_many : List.length (threads s) <> 1 -> forall fl, hastyflag fl = true -> found s (guard fl);
  i_ok : Forall (fun st => exists K, found s K /\ ok K st) (threads s);
  i_shape : weakg \/ Forall shape (threads s);
  i_suf : Forall (Forall suffix) (threads s);
  i_log : forall p, care p = true -> reached s p;
  i_src : forall f p o, In (f, p, o) (calls s) -> In (IUse p) (body f) }.

Lemma found_nil s : found s [].
Proof. intros p []. Qed.

Lemma found_app s A B : found s A -> found s B -> found s (A ++ B).
Proof. intros X Y p P. apply in_app_iff in P. destruct P; auto. Qed.

Lemma found_sub s A B : sub A B = true -> found s B -> found s A.
Proof. intros S F p P. apply F. apply sub_in in S. apply S, P. Qed.

Lemma suffix_call g : suffix (call g).
Proof. exists 0. reflexivity. Qed.

Lemma start_inv : Inv start.
Proof.
  constructor; cbn; try (intros; discriminate); try (intros; congruence).
  - constructor; [|constructor]. exists []. split; [apply found_nil|].
    split; [|exact I]. rewrite <- app_pre. apply all_chk.
  - right. constructor; [|constructor]. split; [intros ? ? []|exact I].
  - constructor; [|constructor]. constructor; [apply suffix_call|constructor].
  - intros p _ f o [].
  - intros f p o [].
Qed.

Lemma nth_split (l : list (list frame)) t st :
  nth_error l t = Some st ->
  exists l1 l2, l = l1 ++ st :: l2 /\
    forall x, firstn t l ++ x :: skipn (S t) l = l1 ++ x :: l2.
Proof.
  intros E. apply nth_error_split in E. destruct E as (l1 & l2 & -> & <-).
  exists l1, l2. split; [reflexivity|]. intros x.
  rewrite firstn_app, firstn_all, Nat.sub_diag. cbn [firstn]. rewrite app_nil_r.
  f_equal. f_equal.
  change (l1 ++ st :: l2) with (l1 ++ [st] ++ l2). rewrite app_assoc.
  replace (S (List.length l1)) with (List.length (l1 ++ [st])) by (rewrite app_length; cbn; lia).
  rewrite skipn_app, skipn_all, Nat.sub_diag. reflexivity.
Qed.

(** One thread's stack changes, and the shared data grow. *)
Lemma upd_inv s s' l1 st l2 st' K :
  Inv s -> threads s = l1 ++ st :: l2 -> threads s' = l1 ++ st' :: l2 ->
  (forall p, ptrs s p = Some (snd p) -> ptrs s' p = Some (snd p)) ->
  (forall p o, ptrs s' p = Some o -> o = snd p) ->
  (used s' = true -> used s = true \/ found s' gT) ->
  (installed s' = true -> installed s = true \/ found s' gI) ->
  (shooting s' = true -> shooting s = true \/ found s' gS) ->
  (forall fl, flags s' fl = true -> flags s fl = true \/ found s' (guard fl)
     \/ (hastyflag fl = true /\ running fl st')) ->
  found s' K -> ok K st' ->
  (weakg \/ shape st') ->
  Forall suffix st' ->
  (forall fl, hastyflag fl = true -> running fl st -> found s' (guard fl) \/ running fl st') ->
  (forall p, care p = true -> reached s' p) ->
  (forall f p o, In (f, p, o) (calls s') -> In (IUse p) (body f)) ->
  Inv s'.
Proof.
  intros H E E' M V U N Sh Fl FK O Shp Su Keep L Src.
  assert (FM : forall A, found s A -> found s' A) by (intros A F p P; apply M, F, P).
  assert (Len : List.length (threads s') = List.length (threads s))
    by (rewrite E, E', !app_length; reflexivity).
  constructor.
  - exact V.
  - intros X. destruct (U X) as [X'|X']; [apply FM, (i_used s H X') | exact X'].
  - intros X. destruct (N X) as [X'|X']; [apply FM, (i_inst s H X') | exact X'].
  - intros X. destruct (Sh X) as [X'|X']; [apply FM, (i_shoot s H X') | exact X'].
  - intros fl X. destruct (Fl fl X) as [X'|[X'|[X1 X2]]].
    + destruct (i_flag s H fl X') as [F|[Hf (st0 & T & R)]]; [left; apply FM, F|].
      rewrite E in T. destruct l1 as [|x l1]; [|destruct l1; cbn in T; discriminate].
      cbn in T. injection T as -> ->.
      destruct (Keep fl Hf R) as [F|R']; [left; exact F|].
      right. split; [exact Hf|]. exists st'. split; [exact E' | exact R'].
    + left; exact X'.
    + destruct (Nat.eq_dec (List.length (threads s)) 1) as [Q|Q].
      * right. split; [exact X1|]. exists st'. split; [|exact X2].
        rewrite E'. rewrite <- Len, E', app_length in Q. cbn in Q.
        destruct l1; [|cbn in Q; lia]. destruct l2; [|cbn in Q; lia]. reflexivity.
      * left. apply FM, (i_many s H Q fl X1).
  - intros Q fl Hf. rewrite Len in Q. apply FM, (i_many s H Q fl Hf).
  - pose proof (i_ok s H) as O0. rewrite E in O0. rewrite E'.
    apply Forall_app in O0. destruct O0 as [O1 O2]. inversion O2 as [|? ? _ O3]; subst.
    apply Forall_app; split; [|constructor].
    + eapply Forall_impl; [|exact O1]. intros a (K0 & A & B). exists K0; split; [apply FM, A|exact B].
    + exists K; split; assumption.
    + eapply Forall_impl; [|exact O3]. intros a (K0 & A & B). exists K0; split; [apply FM, A|exact B].
  - destruct Shp as [W|Shp]; [left; exact W|].
    destruct (i_shape s H) as [W|S0]; [left; exact W|]. right.
    rewrite E in S0. rewrite E'. apply Forall_app in S0. destruct S0 as [O1 O2].
    inversion O2 as [|? ? _ O3]; subst. apply Forall_app; split; [exact O1|constructor; assumption].
  - pose proof (i_suf s H) as S0. rewrite E in S0. rewrite E'.
    apply Forall_app in S0. destruct S0 as [O1 O2].
    inversion O2 as [|? ? _ O3]; subst. apply Forall_app; split; [exact O1|constructor; assumption].
  - exact L.
  - exact Src.
Qed.

Lemma shape_next f c c' r : shape ((f, c) :: r) -> shape ((f, c') :: r).
Proof. intros H; exact H. Qed.

(** A frame of rank at most 8 over the stack cannot hold hasty frames back. *)
Lemma shape_call f c c' r g : shape ((f, c) :: r) ->
  (rank f < 9 -> rank g < rank f) -> shape (call g :: (f, c') :: r).
Proof.
  intros [A B] G. split; [|split; assumption].
  intros h d [X|X] Hh.
  - injection X as -> ->. apply G. pose proof (hasty_rank h Hh). lia.
  - pose proof (A h d X Hh). pose proof (hasty_rank h Hh).
    assert (rank g < rank f) by (apply G; lia). lia.
Qed.

Lemma shape_tail f c r g : shape ((f, c) :: r) ->
  (rank f < 9 -> rank g <= rank f) -> shape (call g :: r).
Proof.
  intros [A B] G. split; [|exact B].
  intros h d X Hh. pose proof (A h d X Hh). pose proof (hasty_rank h Hh).
  assert (rank g <= rank f) by (apply G; lia). lia.
Qed.

Lemma shape_push st fr : (forall f c, In (f, c) st -> hasty f = false) -> shape st ->
  shape (fr :: st).
Proof.
  intros N S. destruct fr as [g d]. split; [|exact S].
  intros f c X Hh. rewrite (N f c X) in Hh. discriminate.
Qed.

(** The frame at the top, when it is not a quiet one, has no hasty one below. *)
Lemma noisy_top f c r : shape ((f, c) :: r) -> rank f = 9 ->
  forall h d, In (h, d) ((f, c) :: r) -> hasty h = false.
Proof.
  intros [A _] R h d [X|X].
  - injection X as -> ->. destruct (hasty h) eqn:Hh; [|reflexivity].
    pose proof (hasty_rank h Hh). lia.
  - destruct (hasty h) eqn:Hh; [|reflexivity].
    pose proof (A h d X Hh). pose proof (hasty_rank h Hh). lia.
Qed.

Lemma rank_top f : rank f < 9 \/ rank f = 9.
Proof. destruct f; cbn; lia. Qed.

(** What [running] says of a frame that has just executed its first
    instruction, or has been left. *)
Lemma running_keep fl f i c r : running fl ((f, i :: c) :: r) -> running fl ((f, c) :: r).
Proof.
  intros (d & [X|X] & N).
  - injection X as -> <-. cbn in N. apply andb_true_iff in N.
    exists c. split; [left; reflexivity | apply N].
  - exists d. split; [right; exact X | exact N].
Qed.

Lemma running_more fl fr st : running fl st -> running fl (fr :: st).
Proof. intros (d & X & N). exists d. split; [right; exact X | exact N]. Qed.

Lemma running_left fl f c r : hasty f = false -> running fl ((f, c) :: r) -> running fl r.
Proof.
  intros Hf (d & [X|X] & N).
  - injection X as -> _. rewrite hasty_initfn in Hf. discriminate.
  - exists d. split; [exact X | exact N].
Qed.

Lemma set_ptr_mono s p n q : ptrs s q = Some (snd q) -> ptrs (set_ptr s p n) q = Some (snd q).
Proof. intros E. cbn. destruct (ptr_eqb p q); rewrite E; reflexivity. Qed.

(** ** One instruction *)

Lemma exec_inv s t f i c r b s' :
  Inv s -> nth_error (threads s) t = Some ((f, i :: c) :: r) ->
  exec s t f i c r b = Some s' -> Inv s'.
Proof.
  intros H N E.
  destruct (nth_split _ _ _ N) as (l1 & l2 & T & Upd).
  pose proof (i_ok s H) as O. rewrite T in O. apply Forall_app in O.
  destruct O as [_ O]. inversion O as [|? ? O1 O2]; subst. clear O O2.
  destruct O1 as (K & FK & [C OR]).
  pose proof (i_suf s H) as S. rewrite T in S. apply Forall_app in S.
  destruct S as [_ S]. inversion S as [|? ? S1 S2]; subst. clear S S2.
  inversion S1 as [|? ? (k & Sk) SR]; subst. clear S1. cbn [fst snd] in Sk.
  assert (Sn : suffix (f, c)) by (exists (Datatypes.S k); cbn [fst snd]; symmetry; eapply skipn_next; symmetry; exact Sk).
  pose proof (tests_at f k (body f) i c (tests_body f) (eq_sym Sk)) as Ts.
  assert (Shp : weakg \/ shape ((f, i :: c) :: r)).
  { destruct (i_shape s H) as [W|S]; [left; exact W|right].
    rewrite T in S. apply Forall_app in S. destruct S as [_ S]. inversion S; subst; assumption. }
  assert (Shn : weakg \/ shape ((f, c) :: r)) by exact Shp.
  assert (Sr : weakg \/ shape r) by (destruct Shp as [W|[_ X]]; [left; exact W|right; exact X]).
  assert (Kp : forall fl, hastyflag fl = true -> running fl ((f, i :: c) :: r) ->
    found s (guard fl) \/ running fl ((f, c) :: r))
    by (intros fl _ R; right; eapply running_keep; exact R).
  pose proof (i_log s H) as Lg. pose proof (i_src s H) as Sc. pose proof (i_val s H) as Vl.
  destruct i; cbn [exec] in E; try discriminate; injection E as <-;
    cbn [chk] in C; repeat (apply andb_true_iff in C; destruct C as [?C C]).
  - (* ILook *)
    apply String.eqb_eq in C0. subst name.
    assert (Pp : ptrs (set_ptr s p (snd p)) p = Some (snd p)).
    { cbn. replace (ptr_eqb p p) with true by (symmetry; apply ptr_eqb_eq; reflexivity).
      destruct (ptrs s p) eqn:Q; [|reflexivity]. f_equal. apply (Vl p s0 Q). }
    eapply (upd_inv s _ l1 _ l2 ((f, c) :: r) (p :: K)); try exact H; try exact T;
      try (cbn; apply Upd); try (cbn; tauto); try assumption.
    + intros q Q. exact (set_ptr_mono s p (snd p) q Q).
    + cbn. intros q o Q. destruct (ptr_eqb p q) eqn:Z; [|apply (Vl q o Q)].
      apply ptr_eqb_eq in Z. subst q. destruct (ptrs s p) eqn:Z; [|congruence].
      injection Q as <-. apply (Vl p s0 Z).
    + intros q [<-|Q]; [exact Pp | exact (set_ptr_mono s p (snd p) q (FK q Q))].
    + cbn [ok]. split; [exact C|]. eapply ok_mono; [|exact OR].
      apply incl_app2. intros q Q; right; exact Q.
    + constructor; assumption.
    + intros fl Hf R. right. eapply running_keep; exact R.
  - (* IUse *)
    eapply (upd_inv s _ l1 _ l2 ((f, c) :: r) K); try exact H; try exact T;
      try (cbn; apply Upd); try (cbn; tauto); try assumption.
    + constructor; assumption.
    + cbn. intros q Q g o [X|X]; [|apply (Lg q Q g o X)].
      injection X as <- <- <-. apply FK. apply orb_true_iff in C0.
      destruct C0 as [C0|C0]; [rewrite Q in C0; discriminate | apply mem_in, C0].
    + cbn. intros g q o [X|X]; [|apply (Sc g q o X)].
      injection X as <- <- <-. eapply skipn_in. rewrite <- Sk. left; reflexivity.
  - (* ITest *)
    destruct (flags s f0) eqn:Q.
    + assert (G : found s (guard f0)).
      { destruct (hastyflag f0) eqn:Hf.
        - destruct Shp as [W|Shp]; [rewrite (W f0 Hf); apply found_nil|].
          destruct (i_flag s H f0 Q) as [X|[_ (st & Ts' & (d & D1 & D2))]]; [exact X|].
          exfalso. rewrite T in Ts'. destruct l1 as [|x l1]; [|destruct l1; discriminate].
          cbn [test1] in Ts'. injection Ts' as <- ->.
          assert (Of : owns f f0 = true) by (cbn in Ts; rewrite Hf in Ts; exact Ts).
          pose proof (owns_initfn f f0 Of) as ->.
          destruct D1 as [D1|D1].
          + injection D1 as <-. cbn in D2. rewrite (proj2 (flag_eqb_eq f0 f0) eq_refl) in D2.
            discriminate.
          + destruct Shp as [A _]. specialize (A _ _ D1 (hasty_initfn f0)). lia.
        - destruct (i_flag s H f0 Q) as [X|[X _]]; [exact X | congruence]. }
      eapply (upd_inv s _ l1 _ l2 r (K ++ post f)); try exact H; try exact T;
        try (cbn; apply Upd); try (cbn; tauto); try assumption.
      * apply found_app; [exact FK|]. eapply found_sub; [exact C0|]. apply found_app; assumption.
      * intros fl Hf (d & [X|X] & Nt).
        -- injection X as -> <-. left. cbn in Ts. rewrite hasty_initfn, andb_false_r in Ts. cbn in Ts.
           pose proof (owns_one _ _ Hf Ts) as ->. exact G.
        -- right. exists d. split; assumption.
    + eapply (upd_inv s _ l1 _ l2 ((f, c) :: r) K); try exact H; try exact T;
        try (cbn; apply Upd); try (cbn; tauto); try assumption.
      * constructor; assumption.
  - (* ISet *)
    eapply (upd_inv s _ l1 _ l2 ((f, c) :: r) K); try exact H; try exact T;
      try (cbn; apply Upd); try (cbn; tauto); try assumption.
    + cbn. intros fl Q. destruct (flag_eqb f0 fl) eqn:Z; [|left; exact Q].
      apply flag_eqb_eq in Z. subst fl. right.
      destruct (hastyflag f0) eqn:Hf.
      * right. split; [reflexivity|]. cbn in Ts. rewrite Hf in Ts. cbn in Ts.
        apply andb_true_iff in Ts. destruct Ts as [T1 T2].
        exists c. rewrite <- (owns_initfn f f0 T1). split; [left; reflexivity | exact T2].
      * left. eapply found_sub; [exact C0 | exact FK].
    + constructor; assumption.
  - (* ICall *)
    eapply (upd_inv s _ l1 _ l2 (call g :: (f, c) :: r) K); try exact H; try exact T;
      try (cbn; apply Upd); try (cbn; tauto); try assumption.
    + apply ok_call; [exact C0|]. split; [exact C|].
      eapply ok_mono; [|exact OR]. intros q Q. apply in_app_iff in Q. rewrite !in_app_iff. tauto.
    + destruct Shp as [W|Shp]; [left; exact W|right]. eapply shape_call; [exact Shp|].
      intros Rk. cbn [test1] in Ts. apply orb_true_iff in Ts. destruct Ts as [Ts|Ts].
      * apply negb_true_iff, Nat.ltb_ge in Ts. lia.
      * apply Nat.ltb_lt, Ts.
    + constructor; [apply suffix_call | constructor; assumption].
    + intros fl Hf R. destruct (Kp fl Hf R) as [X|X]; [left; exact X|right; apply running_more, X].
  - (* IMaybe *)
    destruct b.
    + eapply (upd_inv s _ l1 _ l2 (call g :: (f, c) :: r) K); try exact H; try exact T;
        try (cbn; apply Upd); try (cbn; tauto); try assumption.
      * apply ok_call; [exact C0|]. split.
        -- eapply chk_mono; [|exact C]. intros q Q. apply in_app_iff. tauto.
        -- eapply ok_mono; [|exact OR]. intros q Q. apply in_app_iff in Q. rewrite !in_app_iff. tauto.
      * destruct Shp as [W|Shp]; [left; exact W|right]. eapply shape_call; [exact Shp|].
        intros Rk. cbn [test1] in Ts. apply orb_true_iff in Ts. destruct Ts as [Ts|Ts].
        -- apply negb_true_iff, Nat.ltb_ge in Ts. lia.
        -- apply Nat.ltb_lt, Ts.
      * constructor; [apply suffix_call | constructor; assumption].
      * intros fl Hf R. destruct (Kp fl Hf R) as [X|X]; [left; exact X|right; apply running_more, X].
    + eapply (upd_inv s _ l1 _ l2 ((f, c) :: r) K); try exact H; try exact T;
        try (cbn; apply Upd); try (cbn; tauto); try assumption.
      * constructor; assumption.
  - (* IMaybeRet *)
    destruct b.
    + eapply (upd_inv s _ l1 _ l2 r (K ++ post f)); try exact H; try exact T;
        try (cbn; apply Upd); try (cbn; tauto); try assumption.
      * apply found_app; [exact FK|]. eapply found_sub; [exact C0 | exact FK].
      * intros fl Hf R. right. cbn [test1] in Ts. apply negb_true_iff in Ts.
        eapply running_left; [exact Ts | exact R].
    + eapply (upd_inv s _ l1 _ l2 ((f, c) :: r) K); try exact H; try exact T;
        try (cbn; apply Upd); try (cbn; tauto); try assumption.
      * constructor; assumption.
  - (* ITail *)
    destruct b.
    + assert (Rk : rank f = 9).
      { cbn [test1] in Ts. apply negb_true_iff, Nat.ltb_ge in Ts. destruct (rank_top f); lia. }
      eapply (upd_inv s _ l1 _ l2 (call g :: r) K); try exact H; try exact T;
        try (cbn; apply Upd); try (cbn; tauto); try assumption.
      * apply ok_call; [exact C0|]. eapply ok_mono; [|exact OR].
        intros q Q. apply in_app_iff in Q. apply in_app_iff. left.
        destruct Q as [Q|Q]; [exact Q | apply sub_in in C1; apply C1, Q].
      * destruct Shp as [W|Shp]; [left; exact W|right]. eapply shape_tail; [exact Shp|]. lia.
      * constructor; [apply suffix_call | assumption].
      * intros fl Hf R. right. apply running_more. eapply running_left; [|exact R].
        destruct (hasty f) eqn:Hh; [|reflexivity]. pose proof (hasty_rank f Hh). lia.
    + eapply (upd_inv s _ l1 _ l2 ((f, c) :: r) K); try exact H; try exact T;
        try (cbn; apply Upd); try (cbn; tauto); try assumption.
      * constructor; assumption.
  - (* ILoop *)
    destruct b.
    + eapply (upd_inv s _ l1 _ l2 (call f :: r) K); try exact H; try exact T;
        try (cbn; apply Upd); try (cbn; tauto); try assumption.
      * apply ok_call; [exact C0 | exact OR].
      * constructor; [apply suffix_call | assumption].
      * intros fl Hf R. right. apply running_more. eapply running_left; [|exact R].
        cbn [test1] in Ts. apply negb_true_iff in Ts. exact Ts.
    + eapply (upd_inv s _ l1 _ l2 ((f, c) :: r) K); try exact H; try exact T;
        try (cbn; apply Upd); try (cbn; tauto); try assumption.
      * constructor; assumption.
  - (* IUsed *)
    destruct (used s) eqn:Us.
    + eapply (upd_inv s _ l1 _ l2 (call g :: (f, c) :: r) (K ++ gT)); try exact H; try exact T;
        try (cbn; apply Upd); try (cbn; tauto); try assumption.
      * apply found_app; [exact FK | exact (i_used s H Us)].
      * apply ok_call; [exact C0|]. split.
        -- eapply chk_mono; [|exact C]. intros q Q. rewrite !in_app_iff. tauto.
        -- eapply ok_mono; [|exact OR]. intros q Q. apply in_app_iff in Q. rewrite !in_app_iff. tauto.
      * destruct Shp as [W|Shp]; [left; exact W|right]. eapply shape_call; [exact Shp|].
        intros Rk. cbn [test1] in Ts. apply orb_true_iff in Ts. destruct Ts as [Ts|Ts].
        -- apply negb_true_iff, Nat.ltb_ge in Ts. lia.
        -- apply Nat.ltb_lt, Ts.
      * constructor; [apply suffix_call | constructor; assumption].
      * intros fl Hf R. destruct (Kp fl Hf R) as [X|X]; [left; exact X|right; apply running_more, X].
    + eapply (upd_inv s _ l1 _ l2 ((f, c) :: r) K); try exact H; try exact T;
        try (cbn; apply Upd); try (cbn; tauto); try assumption.
      * constructor; assumption.
  - (* IUnused *)
    assert (Rk : rank f = 9).
    { cbn [test1] in Ts. apply negb_true_iff, Nat.ltb_ge in Ts. destruct (rank_top f); lia. }
    destruct (used s) eqn:Us.
    + eapply (upd_inv s _ l1 _ l2 ((f, c) :: r) (K ++ gT)); try exact H; try exact T;
        try (cbn; apply Upd); try (cbn; tauto); try assumption.
      * apply found_app; [exact FK | exact (i_used s H Us)].
      * split.
        -- eapply chk_mono; [|exact C]. intros q Q. apply in_app_iff in Q. apply in_app_iff.
           destruct Q as [Q|Q]; [left; exact Q|]. destruct (sub gT (post g)); [right; exact Q | destruct Q].
        -- eapply ok_mono; [|exact OR]. intros q Q. apply in_app_iff in Q. rewrite !in_app_iff. tauto.
      * constructor; assumption.
    + eapply (upd_inv s _ l1 _ l2 (call g :: (f, c) :: r) K); try exact H; try exact T;
        try (cbn; apply Upd); try (cbn; tauto); try assumption.
      * apply ok_call; [exact C0|]. split.
        -- eapply chk_mono; [|exact C]. intros q Q. apply in_app_iff in Q. apply in_app_iff.
           destruct Q as [Q|Q]; [left; exact Q|].
           destruct (sub gT (post g)) eqn:Sb; [|destruct Q].
           right. apply sub_in in Sb. apply Sb, Q.
        -- eapply ok_mono; [|exact OR]. intros q Q. apply in_app_iff in Q. rewrite !in_app_iff. tauto.
      * destruct Shp as [W|Shp]; [left; exact W|right]. eapply shape_call; [exact Shp|]. lia.
      * constructor; [apply suffix_call | constructor; assumption].
      * intros fl Hf R. destruct (Kp fl Hf R) as [X|X]; [left; exact X|right; apply running_more, X].
  - (* ISetUsed *)
    eapply (upd_inv s _ l1 _ l2 ((f, c) :: r) K); try exact H; try exact T;
      try (cbn; apply Upd); try (cbn; tauto); try assumption.
    + cbn. intros ->. right. cbn in C0. eapply found_sub; [exact C0 | exact FK].
    + constructor; assumption.
  - (* ISpawn *)
    assert (Q : Inv (set_thread s t ((f, c) :: r))).
    { eapply (upd_inv s _ l1 _ l2 ((f, c) :: r) K); try exact H; try exact T;
        try (cbn; apply Upd); try (cbn; tauto); try assumption.
      * constructor; assumption. }
    destruct b; [|exact Q].
    assert (HG : forall fl, hastyflag fl = true -> found s (guard fl)).
    { intros fl Hf. eapply found_sub; [|exact FK]. apply sub_in. apply sub_in in C1.
      intros q Z. apply C1. unfold hguards. rewrite !in_app_iff.
      destruct fl; try discriminate; tauto. }
    destruct Q as [Q1 Q2 Q3 Q4 Q5 Q6 Q7 Q8 Q9 Q10 Q11].
    constructor; try assumption.
    + intros fl X. destruct (Q5 fl X) as [Y|[Y _]]; [left; exact Y | left; apply HG, Y].
    + intros _ fl Hf. apply HG, Hf.
    + cbn [threads add_thread set_thread]. apply Forall_app. split; [exact Q7|].
      constructor; [|constructor]. exists K. split; [exact FK|].
      apply ok_call; [exact C0 | exact Logic.I].
    + destruct Q8 as [W|Q8]; [left; exact W|right].
      cbn [threads add_thread set_thread]. apply Forall_app. split; [exact Q8|].
      constructor; [|constructor]. split; [intros ? ? []|exact Logic.I].
    + cbn [threads add_thread set_thread]. apply Forall_app. split; [exact Q9|].
      constructor; [|constructor]. constructor; [apply suffix_call|constructor].
  - (* IFork *)
    assert (Rk : rank f = 9).
    { cbn [test1] in Ts. apply negb_true_iff, Nat.ltb_ge in Ts. destruct (rank_top f); lia. }
    destruct b.
    + assert (HG : forall fl, flags s fl = true -> found s (guard fl)).
      { intros fl X. destruct (i_flag s H fl X) as [Y|[Hf (st & Ts' & (d & D1 & _))]]; [exact Y|].
        destruct Shp as [W|Shp]; [rewrite (W fl Hf); apply found_nil|].
        exfalso. rewrite T in Ts'. destruct l1 as [|x l1]; [|destruct l1; discriminate].
        cbn [test1] in Ts'. injection Ts' as <- ->.
        pose proof (noisy_top _ _ _ Shp Rk _ _ D1) as Z. rewrite hasty_initfn in Z. discriminate. }
      constructor; cbn [only_thread ptrs flags used installed shooting threads calls];
        try apply H.
      * intros fl X. left. exact (HG fl X).
      * cbn. congruence.
      * constructor; [|constructor]. exists K. split; [exact FK|].
        apply ok_call; [exact C0|]. eapply ok_mono; [|exact OR].
        intros q Q. apply in_app_iff in Q. apply in_app_iff. left.
        destruct Q as [Q|Q]; [exact Q | apply sub_in in C1; apply C1, Q].
      * destruct Shp as [W|Shp]; [left; exact W|right]. constructor; [|constructor].
        eapply shape_tail; [exact Shp|]. lia.
      * constructor; [|constructor]. constructor; [apply suffix_call | assumption].
    + eapply (upd_inv s _ l1 _ l2 ((f, c) :: r) K); try exact H; try exact T;
        try (cbn; apply Upd); try (cbn; tauto); try assumption.
      * constructor; assumption.
  - (* IInstall *)
    eapply (upd_inv s _ l1 _ l2 ((f, c) :: r) K); try exact H; try exact T;
      try (cbn; apply Upd); try (cbn; tauto); try assumption.
    + intros _. right. eapply found_sub; [exact C0 | exact FK].
    + constructor; assumption.
  - (* IShoot *)
    eapply (upd_inv s _ l1 _ l2 ((f, c) :: r) K); try exact H; try exact T;
      try (cbn; apply Upd); try (cbn; tauto); try assumption.
    + intros _. right. eapply found_sub; [exact C0 | exact FK].
    + constructor; assumption.
Qed.

(** ** One event *)

Lemma calm_frames s st : initialising s = false -> In st (threads s) ->
  forall f c, In (f, c) st -> hasty f = false.
Proof.
  intros I A f c B. destruct (hasty f) eqn:Hf; [|reflexivity]. exfalso.
  enough (initialising s = true) by congruence.
  apply existsb_exists. exists st. split; [exact A|].
  apply existsb_exists. exists (f, c). split; [exact B | exact Hf].
Qed.

Lemma push_inv s t st g K0 :
  Inv s -> nth_error (threads s) t = Some st ->
  sub (pre g) K0 = true -> found s K0 ->
  (weakg \/ forall f c, In (f, c) st -> hasty f = false) ->
  Inv (set_thread s t (call g :: st)).
Proof.
  intros H N P F0 Q.
  destruct (nth_split _ _ _ N) as (l1 & l2 & T & Upd).
  pose proof (i_ok s H) as O. rewrite T in O. apply Forall_app in O.
  destruct O as [_ O]. inversion O as [|? ? O1 O2]; subst. clear O O2.
  destruct O1 as (K & FK & OR).
  pose proof (i_suf s H) as S. rewrite T in S. apply Forall_app in S.
  destruct S as [_ S]. inversion S as [|? ? S1 S2]; subst. clear S S2.
  eapply (upd_inv s _ l1 _ l2 (call g :: st) (K0 ++ K)); try exact H; try exact T;
    try (cbn; apply Upd); try (cbn; tauto).
  - apply (i_val s H).
  - apply found_app; assumption.
  - apply ok_call.
    + eapply sub_mono; [|exact P]. intros q Z. apply in_app_iff. tauto.
    + eapply ok_mono; [|exact OR]. intros q Z. rewrite !in_app_iff. tauto.
  - destruct Q as [W|Q]; [left; exact W|].
    destruct (i_shape s H) as [W|S]; [left; exact W|right].
    apply shape_push; [exact Q|]. rewrite T in S. apply Forall_app in S.
    destruct S as [_ S]. inversion S; assumption.
  - constructor; [apply suffix_call | assumption].
  - intros fl Hf R. right. apply running_more, R.
  - apply (i_log s H).
  - apply (i_src s H).
Qed.

Lemma client_rank f c k : IClient :: c = skipn k (body f) -> rank f = 9.
Proof.
  intros E. pose proof (tests_at f k (body f) _ c (tests_body f) (eq_sym E)) as Ts.
  cbn [test1] in Ts. apply negb_true_iff, Nat.ltb_ge in Ts. destruct (rank_top f); lia.
Qed.

Lemma step_inv s e s' : Inv s -> (weakg \/ polite s e = true) -> step s e = Some s' -> Inv s'.
Proof.
  intros H Pol E. destruct e as [t b|t g|t|t|t|]; cbn [step] in E.
  - (* Run *)
    destruct (nth_error (threads s) t) as [[|[f [|i c]] r]|] eqn:N; try discriminate.
    + injection E as <-.
      destruct (nth_split _ _ _ N) as (l1 & l2 & T & Upd).
      pose proof (i_ok s H) as O. rewrite T in O. apply Forall_app in O.
      destruct O as [_ O]. inversion O as [|? ? O1 O2]; subst. clear O O2.
      destruct O1 as (K & FK & [C OR]). cbn in C.
      pose proof (i_suf s H) as S. rewrite T in S. apply Forall_app in S.
      destruct S as [_ S]. inversion S as [|? ? S1 S2]; subst. clear S S2.
      inversion S1 as [|? ? _ SR]; subst. clear S1.
      assert (FP : found s (post f)) by (eapply found_sub; [exact C | exact FK]).
      eapply (upd_inv s _ l1 _ l2 r (K ++ post f)); try exact H; try exact T;
        try (cbn; apply Upd); try (cbn; tauto); try assumption.
      * apply (i_val s H).
      * apply found_app; assumption.
      * destruct (i_shape s H) as [W|S]; [left; exact W|right].
        rewrite T in S. apply Forall_app in S. destruct S as [_ S].
        inversion S as [|? ? S1 _]; subst. apply S1.
      * intros fl Hf (d & [X|X] & Nt).
        -- injection X as -> _. left. eapply found_sub; [apply guard_post, Hf | exact FP].
        -- right. exists d. split; assumption.
      * apply (i_log s H).
      * apply (i_src s H).
    + eapply exec_inv; eassumption.
  - (* Enter *)
    destruct (nth_error (threads s) t) as [[|[f [|i c]] r]|] eqn:N; try discriminate.
    destruct i; try discriminate. destruct (entry g) eqn:En; [|discriminate].
    injection E as <-.
    eapply (push_inv s t _ g []); [exact H | exact N | rewrite (entry_pre g En); reflexivity
      | apply found_nil |].
    destruct (i_shape s H) as [W|S]; [left; exact W|right].
    rewrite Forall_forall in S. pose proof (S _ (nth_error_In _ _ N)) as Sh.
    pose proof (i_suf s H) as Su. rewrite Forall_forall in Su.
    pose proof (Su _ (nth_error_In _ _ N)) as Su1. inversion Su1 as [|? ? (k & Sk) _]; subst.
    cbn [fst snd] in Sk. exact (noisy_top _ _ _ Sh (client_rank _ _ _ Sk)).
  - (* Leave *)
    destruct (nth_error (threads s) t) as [[|[f [|i c]] r]|] eqn:N; try discriminate.
    destruct i; try discriminate. injection E as <-.
    destruct (nth_split _ _ _ N) as (l1 & l2 & T & Upd).
    pose proof (i_ok s H) as O. rewrite T in O. apply Forall_app in O.
    destruct O as [_ O]. inversion O as [|? ? O1 O2]; subst. clear O O2.
    destruct O1 as (K & FK & [C OR]). cbn in C.
    pose proof (i_suf s H) as S. rewrite T in S. apply Forall_app in S.
    destruct S as [_ S]. inversion S as [|? ? S1 S2]; subst. clear S S2.
    inversion S1 as [|? ? (k & Sk) SR]; subst. clear S1. cbn [fst snd] in Sk.
    eapply (upd_inv s _ l1 _ l2 ((f, c) :: r) K); try exact H; try exact T;
      try (cbn; apply Upd); try (cbn; tauto); try assumption.
    + apply (i_val s H).
    + destruct (i_shape s H) as [W|S]; [left; exact W|right].
      rewrite T in S. apply Forall_app in S. destruct S as [_ S].
      inversion S as [|? ? S1 _]; subst. exact S1.
    + constructor; [|assumption]. exists (Datatypes.S k). cbn [fst snd]. symmetry.
      eapply skipn_next. symmetry. exact Sk.
    + intros fl Hf R. right. eapply running_keep; exact R.
    + apply (i_log s H).
    + apply (i_src s H).
  - (* Signal *)
    destruct (nth_error (threads s) t) as [[|fr r]|] eqn:N; try discriminate.
    destruct (installed s) eqn:Is; [|discriminate]. injection E as <-.
    eapply (push_inv s t _ F_signal_handler gI); [exact H | exact N | exact handler_pre
      | exact (i_inst s H Is) |].
    destruct Pol as [W|Pol]; [left; exact W|right]. cbn in Pol. apply negb_true_iff in Pol.
    exact (calm_frames s _ Pol (nth_error_In _ _ N)).
  - (* Shot *)
    destruct (nth_error (threads s) t) as [[|fr r]|] eqn:N; try discriminate.
    destruct (shooting s) eqn:Is; [|discriminate]. injection E as <-.
    eapply (push_inv s t _ F_shootdown_handler gS); [exact H | exact N | exact shoot_pre
      | exact (i_shoot s H Is) |].
    destruct Pol as [W|Pol]; [left; exact W|right]. cbn in Pol. apply negb_true_iff in Pol.
    exact (calm_frames s _ Pol (nth_error_In _ _ N)).
  - (* Foreign *)
    injection E as <-.
    assert (HG : forall fl, hastyflag fl = true -> found s (guard fl)).
    { intros fl Hf. destruct Pol as [W|Pol]; [rewrite (W fl Hf); apply found_nil|].
      cbn in Pol. unfold settled in Pol. rewrite !andb_true_iff, negb_true_iff in Pol.
      destruct Pol as [[[A B] C] D].
      assert (Fl : flags s fl = true) by (destruct fl; try discriminate; assumption).
      destruct (i_flag s H fl Fl) as [X|[_ (st & T & (d & X & _))]]; [exact X|].
      exfalso. pose proof (calm_frames s st D) as Z. rewrite T in Z.
      specialize (Z (or_introl eq_refl) _ _ X). rewrite hasty_initfn in Z. discriminate. }
    destruct H as [Q1 Q2 Q3 Q4 Q5 Q6 Q7 Q8 Q9 Q10 Q11].
    constructor; try assumption.
    + intros fl X. destruct (Q5 fl X) as [Y|[Y _]]; [left; exact Y | left; apply HG, Y].
    + intros _ fl Hf. apply HG, Hf.
    + cbn [threads add_thread]. apply Forall_app. split; [exact Q7|].
      constructor; [|constructor]. exists []. split; [apply found_nil|].
      apply ok_call; [rewrite app_pre; reflexivity | exact Logic.I].
    + destruct Q8 as [W|Q8]; [left; exact W|right].
      cbn [threads add_thread]. apply Forall_app. split; [exact Q8|].
      constructor; [|constructor]. split; [intros ? ? []|exact Logic.I].
    + cbn [threads add_thread]. apply Forall_app. split; [exact Q9|].
      constructor; [|constructor]. constructor; [apply suffix_call|constructor].
Qed.

Lemma run_inv : forall es s s', Inv s -> (weakg \/ all_polite s es = true) ->
  run s es = Some s' -> Inv s'.
Proof.
  induction es as [|e es IH]; intros s s' H P R; cbn in R.
  - injection R as <-. exact H.
  - destruct (step s e) as [s1|] eqn:E; [|discriminate]. cbn in P. rewrite E in P.
    eapply IH; [| |exact R].
    + eapply step_inv; [exact H | | exact E].
      destruct P as [W|P]; [left; exact W|right; apply andb_true_iff in P; apply P].
    + destruct P as [W|P]; [left; exact W|right; apply andb_true_iff in P; apply P].
Qed.

Lemma checked_run es s : (weakg \/ all_polite start es = true) -> run start es = Some s ->
  forall p, care p = true -> reached s p.
Proof. intros P R. apply i_log. eapply run_inv; [apply start_inv | exact P | exact R]. Qed.

End Check.

(** ** All pointers, when nothing breaks into the initialisations *)

Definition g_names : list ptr :=
  map (fun n => (Fpthread, n))
    ["pthread_create"; "pthread_attr_init"; "pthread_attr_destroy";
     "pthread_attr_getstacksize"; "pthread_attr_setstacksize"; "pthread_equal";
     "pthread_key_create"; "pthread_key_delete"; "pthread_kill"; "pthread_self";
     "pthread_getspecific"; "pthread_setspecific"; "pthread_cleanup_push";
     "pthread_cleanup_pop"; "pthread_setcancelstate"; "sigaction";
     "pthread_sigmask"; "sigwaitinfo"; "sigtimedwait"].
Definition g_signal : list ptr := [(Fsignal, "sigaction"); (Fsignal, "sigprocmask")].
Definition g_fork : list ptr :=
  map (fun n => (Ffork, n))
    ["fork"; "execv"; "execvp"; "execve"; "sigaction"; "sigprocmask"; "system"].
Definition g_dlopen : list ptr := [(Fdlopen, "dlopen"); (Fdlopen, "dlclose")].
Definition g_normal : list ptr :=
  [(Fmain, "_exit"); (Fmain, "exit"); (Fmain, "__libc_start_main");
   (Fmain, "sigprocmask")] ++ g_fork ++ g_signal.

Definition guard_all (fl : flag) : list ptr :=
  match fl with
  | FlNormal => g_normal | FlNames => g_names | FlSignal => g_signal
  | FlFork => g_fork | FlDlopen => g_dlopen | _ => []
  end.

Definition pre_all (f : fn) : list ptr :=
  match f with
  | F_getspecific | F_reset_used | F_shootdown_handler | F_shootdown_used
  | F_shootdown_loop | F_shootdown_kill | F_broadcast_used | F_broadcast_loop
  | F_broadcast_kill | F_begin_thread | F_adjust_stack | F_attr_init
  | F_restore | F_destroy | F_sigwait_loop | F_sigwait_helper
  | F_sigwait_fini | F_sigtimedwait_loop => g_names
  | F_create_ignored => g_names ++ g_normal
  | F_signal_handler | F_install_loop | F_remove_client | F_current_set
  | F_sigaction_avoid | F_install_appl => g_signal
  | F_system_child | F_libc_system => g_fork
  | F_monitor_main => [(Fmain, "main")]
  | _ => []
  end.

Definition post_all (f : fn) : list ptr :=
  match f with
  | F_normal_init | F_begin_process | F_begin_process_child => g_normal
  | F_name_init | F_list_init | F_first_create => g_names
  | F_signal_init => g_signal
  | F_fork_init => g_fork
  | F_dlopen_init => g_dlopen
  | _ => []
  end.

Lemma chk_all f :
  chk (fun _ => true) guard_all pre_all post_all g_names g_signal g_names f
      (pre_all f) (body f) = true.
Proof. destruct f; try (vm_compute; reflexivity). destruct m, s; vm_compute; reflexivity. Qed.

Lemma polite_run es s : run start es = Some s -> all_polite start es = true ->
  forall p, reached s p.
Proof.
  intros R P p.
  apply (checked_run (fun _ => true) guard_all pre_all post_all g_names g_signal g_names)
    with (es := es); try reflexivity; try (right; exact P); try exact R.
  - exact chk_all.
  - intros f E. destruct f; try discriminate E; reflexivity.
  - intros fl E. destruct fl; try discriminate E; vm_compute; reflexivity.
Qed.

(** ** The pointers that need no such care *)

Definition guard_some (fl : flag) : list ptr :=
  match fl with FlFork => g_fork | FlDlopen => g_dlopen | _ => [] end.

Definition pre_some (f : fn) : list ptr :=
  match f with
  | F_system_child | F_libc_system => g_fork
  | F_monitor_main => [(Fmain, "main")]
  | _ => []
  end.

Definition post_some (f : fn) : list ptr :=
  match f with F_fork_init => g_fork | F_dlopen_init => g_dlopen | _ => [] end.

Lemma chk_some f :
  chk careful guard_some pre_some post_some [] [] [] f (pre_some f) (body f) = true.
Proof. destruct f; try (vm_compute; reflexivity). destruct m, s; vm_compute; reflexivity. Qed.

Lemma careful_run es s : run start es = Some s -> forall p, careful p = true -> reached s p.
Proof.
  intros R.
  apply (checked_run careful guard_some pre_some post_some [] [] []) with (es := es);
    try reflexivity; try exact R.
  - exact chk_some.
  - intros f E. destruct f; try discriminate E; reflexivity.
  - intros fl E. destruct fl; try discriminate E; vm_compute; reflexivity.
  - left. intros fl E. destruct fl; try discriminate E; reflexivity.
Qed.

Lemma src_run es s : run start es = Some s ->
  forall f p o, In (f, p, o) (calls s) -> In (IUse p) (body f).
Proof.
  intros R. eapply i_src.
  eapply (run_inv careful guard_some pre_some post_some [] [] []) with (es := es);
    try reflexivity; try exact R.
  - exact chk_some.
  - intros f E. destruct f; try discriminate E; reflexivity.
  - intros fl E. destruct fl; try discriminate E; vm_compute; reflexivity.
  - apply start_inv; try reflexivity. exact chk_some.
  - left. intros fl E. destruct fl; try discriminate E; reflexivity.
Qed.

Definition dutiful (f : fn) : bool :=
  match duty f with
  | None => true
  | Some l =>
      forallb (fun i => match i with
                        | IUse p => existsb (String.eqb (snd p)) l
                        | _ => true end) (body f)
  end.

Lemma duty_body f : dutiful f = true.
Proof. destruct f; try reflexivity. destruct m, s; reflexivity. Qed.

Lemma duty_run es s : run start es = Some s ->
  forall f l p o, duty f = Some l -> In (f, p, o) (calls s) -> In (snd p) l.
Proof.
  intros R f l p o D I. pose proof (src_run es s R f p o I) as B.
  pose proof (duty_body f) as F. unfold dutiful in F. rewrite D, forallb_forall in F.
  specialize (F _ B). cbn in F. apply existsb_exists in F. destruct F as (x & X & E).
  apply String.eqb_eq in E. rewrite E. exact X.
Qed.
