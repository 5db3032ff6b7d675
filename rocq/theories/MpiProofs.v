From Verif Require Import MpiModel MpiSpec.

Section Ind.
  Variable P : act -> Prop.
  Hypothesis HInit : forall e args ret pre real post,
    Forall P pre -> Forall P real -> Forall P post -> P (Init e args ret pre real post).
  Hypothesis HFini : forall e ret pre real post,
    Forall P pre -> Forall P real -> Forall P post -> P (Fini e ret pre real post).
  Hypothesis HRank : forall e size rank ret i j,
    Forall P i -> Forall P j -> P (Rank e size rank ret i j).
  Hypothesis HSet : forall s r, P (SetSizeRank s r).
  Hypothesis HQS : P QuerySize.
  Hypothesis HQR : P QueryRank.
  Fixpoint act_ind2 (a : act) : P a :=
    let fix go (l : list act) : Forall P l :=
      match l with [] => Forall_nil P | a :: r => Forall_cons a (act_ind2 a) (go r) end in
    match a with
    | Init e args ret pre real post => HInit e args ret pre real post (go pre) (go real) (go post)
    | Fini e ret pre real post => HFini e ret pre real post (go pre) (go real) (go post)
    | Rank e size rank ret i j => HRank e size rank ret i j (go i) (go j)
    | SetSizeRank s r => HSet s r
    | QuerySize => HQS
    | QueryRank => HQR
    end.
End Ind.

Definition inc_init (s : mpi) (inc : Z) : mpi := fst (mpi_init_count s inc).
Definition inc_fini (s : mpi) (inc : Z) : mpi := fst (mpi_fini_count s inc).

(** The recursion with the named list runner. *)
Lemma run1_init ma s e args ret pre real post :
  run1 ma s (Init e args ret pre real post) =
  let s1 := inc_init s 1 in
  let outer := init_count s + 1 =? 1 in
  let '(s2, t2) := if outer then let '(s', t') := run ma s1 pre in (s', EPreInit :: t') else (s1, []) in
  let '(s3, t3) := run ma s2 real in
  let '(s4, t4) := if outer then let '(s', t') := run ma s3 post in
                        (s', EInitMpi (init_args ma e args) :: t') else (s3, []) in
  (inc_init s4 (-1), EInitEnter e :: t2 ++ ERealInit e args :: t3 ++ ERealInitDone :: t4 ++
           [EInitLeave (ret_of e ret)]).
Proof. reflexivity. Qed.

Lemma run1_fini ma s e ret pre real post :
  run1 ma s (Fini e ret pre real post) =
  let s1 := inc_fini s 1 in
  let outer := fini_count s + 1 =? 1 in
  let '(s2, t2) := if outer then let '(s', t') := run ma s1 pre in (s', EFiniMpi :: t') else (s1, []) in
  let '(s3, t3) := run ma s2 real in
  let '(s4, t4) := if outer then let '(s', t') := run ma s3 post in
                        (s', EPostFini :: t') else (s3, []) in
  (inc_fini s4 (-1), EFiniEnter e :: t2 ++ ERealFini e :: t3 ++ ERealFiniDone :: t4 ++
           [EFiniLeave (ret_of e ret)]).
Proof. reflexivity. Qed.

Lemma run1_rank ma s e size rank ret i j :
  run1 ma s (Rank e size rank ret i j) =
  let '(s1, t1) := run ma s i in
  let '(s2, t2) := run ma s1 j in
  (set_mpi_size_rank s2 size rank,
   ERankEnter e :: t1 ++ t2 ++ [ERankLeave size rank (ret_of e ret)]).
Proof. reflexivity. Qed.

Lemma run_app ma l1 : forall s l2,
  run ma s (l1 ++ l2) =
  let '(s1, t1) := run ma s l1 in let '(s2, t2) := run ma s1 l2 in (s2, t1 ++ t2).
Proof.
  induction l1 as [|a r IH]; intros s l2; cbn [run app].
  - destruct (run ma s l2). reflexivity.
  - destruct (run1 ma s a) as [s1 t1]. rewrite IH.
    destruct (run ma s1 r) as [s2 t2]. destruct (run ma s2 l2) as [s3 t3].
    now rewrite app_assoc.
Qed.

(** ** Counters are restored *)

Lemma set_mpi_counts s a b :
  init_count (set_mpi_size_rank s a b) = init_count s /\
  fini_count (set_mpi_size_rank s a b) = fini_count s /\
  max_init (set_mpi_size_rank s a b) = max_init s.
Proof.
  unfold set_mpi_size_rank, set_size_rank. destruct (first_mpi s && _ && _); [|auto].
  destruct (first_set s); auto.
Qed.

Definition keeps (ma : Z) (s s' : mpi) : Prop :=
  init_count s' = init_count s /\ fini_count s' = fini_count s.

Lemma keeps_list ma l :
  Forall (fun a => forall s, keeps ma s (fst (run1 ma s a))) l ->
  forall s, keeps ma s (fst (run ma s l)).
Proof.
  induction l as [|a r IH]; intros H s; [split; reflexivity|].
  inversion H; subst. cbn [run]. specialize (H2 s). specialize (IH H3).
  destruct (run1 ma s a) as [s1 t1]. cbn [fst] in *. specialize (IH s1).
  destruct (run ma s1 r) as [s2 t2]. cbn [fst] in *. unfold keeps in *. intuition congruence.
Qed.

Lemma run1_keeps ma a : forall s, keeps ma s (fst (run1 ma s a)).
Proof.
  induction a as [e args ret pre real post Hp Hr Ho|e ret pre real post Hp Hr Ho
                 |e size rank ret i j Hi Hj|sz r| |] using act_ind2; intros s.
  - rewrite run1_init. cbn zeta.
    pose proof (keeps_list ma pre Hp (inc_init s 1)) as K1.
    destruct (init_count s + 1 =? 1).
    + destruct (run ma (inc_init s 1) pre) as [s2 t2].
      pose proof (keeps_list ma real Hr s2) as K2.
      destruct (run ma s2 real) as [s3 t3].
      pose proof (keeps_list ma post Ho s3) as K3.
      destruct (run ma s3 post) as [s4 t4].
      unfold keeps, inc_init in *; cbn in *. lia.
    + pose proof (keeps_list ma real Hr (inc_init s 1)) as K2.
      destruct (run ma (inc_init s 1) real) as [s3 t3].
      unfold keeps, inc_init in *; cbn in *. lia.
  - rewrite run1_fini. cbn zeta.
    pose proof (keeps_list ma pre Hp (inc_fini s 1)) as K1.
    destruct (fini_count s + 1 =? 1).
    + destruct (run ma (inc_fini s 1) pre) as [s2 t2].
      pose proof (keeps_list ma real Hr s2) as K2.
      destruct (run ma s2 real) as [s3 t3].
      pose proof (keeps_list ma post Ho s3) as K3.
      destruct (run ma s3 post) as [s4 t4].
      unfold keeps, inc_fini in *; cbn in *. lia.
    + pose proof (keeps_list ma real Hr (inc_fini s 1)) as K2.
      destruct (run ma (inc_fini s 1) real) as [s3 t3].
      unfold keeps, inc_fini in *; cbn in *. lia.
  - rewrite run1_rank.
    pose proof (keeps_list ma i Hi s) as K1. destruct (run ma s i) as [s1 t1].
    pose proof (keeps_list ma j Hj s1) as K2. destruct (run ma s1 j) as [s2 t2].
    destruct (set_mpi_counts s2 size rank) as (A & B & _).
    unfold keeps in *; cbn [fst] in *. rewrite A, B. lia.
  - unfold keeps; cbn. unfold set_size_rank. destruct (first_set s); cbn; auto.
  - split; reflexivity.
  - split; reflexivity.
Qed.

Lemma run_keeps ma l s : init_count (fst (run ma s l)) = init_count s /\
                         fini_count (fst (run ma s l)) = fini_count s.
Proof. apply keeps_list. apply Forall_forall. intros a _. apply run1_keeps. Qed.

(** ** The client's view *)

Lemma nb_app p a b : nb p (a ++ b) = nb p a + nb p b.
Proof. unfold nb. rewrite filter_app, app_length. lia. Qed.
Lemma nb_cons p e t : nb p (e :: t) = (if p e then 1 else 0) + nb p t.
Proof. unfold nb. cbn. destruct (p e); cbn [length]; lia. Qed.
Lemma nb_nil p : nb p [] = 0. Proof. reflexivity. Qed.
Lemma nb_nonneg p t : 0 <= nb p t. Proof. unfold nb. lia. Qed.

Lemma idepth_app a b : init_depth (a ++ b) = init_depth a + init_depth b.
Proof. unfold init_depth. rewrite !nb_app. lia. Qed.
Lemma fdepth_app a b : fini_depth (a ++ b) = fini_depth a + fini_depth b.
Proof. unfold fini_depth. rewrite !nb_app. lia. Qed.
Lemma idepth_cons e b : init_depth (e :: b) =
  (if enter_init e then 1 else 0) - (if leave_init e then 1 else 0) + init_depth b.
Proof. unfold init_depth. rewrite !nb_cons. lia. Qed.
Lemma fdepth_cons e b : fini_depth (e :: b) =
  (if enter_fini e then 1 else 0) - (if leave_fini e then 1 else 0) + fini_depth b.
Proof. unfold fini_depth. rewrite !nb_cons. lia. Qed.

Lemma init_view_app : forall n t1 d t2, (length t1 <= n)%nat ->
  init_view d t1 = true -> init_view (d + init_depth t1) t2 = true ->
  init_view d (t1 ++ t2) = true.
Proof.
  induction n as [|n IH]; intros t1 d t2 Hn H1 H2.
  { destruct t1; [|cbn in Hn; lia]. cbn [app]. change (init_depth []) with 0 in H2.
    now rewrite Z.add_0_r in H2. }
  destruct t1 as [|e r].
  { cbn [app]. change (init_depth []) with 0 in H2. now rewrite Z.add_0_r in H2. }
  cbn in Hn. rewrite idepth_cons in H2.
  destruct e; cbn [init_view app enter_init leave_init] in *;
    try discriminate H1;
    try (apply IH; [lia|exact H1|]; replace (d + init_depth r) with (d + (0 - 0 + init_depth r)) by lia; exact H2).
  - destruct (d =? 0) eqn:E.
    + destruct r as [|[] r']; try discriminate H1.
      cbn [app]. cbn in Hn. rewrite idepth_cons in H2. cbn [enter_init leave_init] in H2.
      apply IH; [lia|exact H1|].
      replace (d + 1 + init_depth r') with (d + (1 - 0 + (0 - 0 + init_depth r'))) by lia. exact H2.
    + apply IH; [lia|exact H1|].
      replace (d + 1 + init_depth r) with (d + (1 - 0 + init_depth r)) by lia. exact H2.
  - destruct (d =? 1) eqn:E.
    + destruct r as [|[] r']; try discriminate H1.
      cbn [app]. cbn in Hn. rewrite idepth_cons in H2. cbn [enter_init leave_init] in H2.
      apply IH; [lia|exact H1|].
      replace (d + init_depth r') with (d + (0 - 0 + (0 - 0 + init_depth r'))) by lia. exact H2.
    + apply IH; [lia|exact H1|].
      replace (d + init_depth r) with (d + (0 - 0 + init_depth r)) by lia. exact H2.
  - apply IH; [lia|exact H1|].
    replace (d - 1 + init_depth r) with (d + (0 - 1 + init_depth r)) by lia. exact H2.
Qed.

Lemma fini_view_app : forall n t1 d t2, (length t1 <= n)%nat ->
  fini_view d t1 = true -> fini_view (d + fini_depth t1) t2 = true ->
  fini_view d (t1 ++ t2) = true.
Proof.
  induction n as [|n IH]; intros t1 d t2 Hn H1 H2.
  { destruct t1; [|cbn in Hn; lia]. cbn [app]. change (fini_depth []) with 0 in H2.
    now rewrite Z.add_0_r in H2. }
  destruct t1 as [|e r].
  { cbn [app]. change (fini_depth []) with 0 in H2. now rewrite Z.add_0_r in H2. }
  cbn in Hn. rewrite fdepth_cons in H2.
  destruct e; cbn [fini_view app enter_fini leave_fini] in *;
    try discriminate H1;
    try (apply IH; [lia|exact H1|]; replace (d + fini_depth r) with (d + (0 - 0 + fini_depth r)) by lia; exact H2).
  - destruct (d =? 0) eqn:E.
    + destruct r as [|[] r']; try discriminate H1.
      cbn [app]. cbn in Hn. rewrite fdepth_cons in H2. cbn [enter_fini leave_fini] in H2.
      apply IH; [lia|exact H1|].
      replace (d + 1 + fini_depth r') with (d + (1 - 0 + (0 - 0 + fini_depth r'))) by lia. exact H2.
    + apply IH; [lia|exact H1|].
      replace (d + 1 + fini_depth r) with (d + (1 - 0 + fini_depth r)) by lia. exact H2.
  - destruct (d =? 1) eqn:E.
    + destruct r as [|[] r']; try discriminate H1.
      cbn [app]. cbn in Hn. rewrite fdepth_cons in H2. cbn [enter_fini leave_fini] in H2.
      apply IH; [lia|exact H1|].
      replace (d + fini_depth r') with (d + (0 - 0 + (0 - 0 + fini_depth r'))) by lia. exact H2.
    + apply IH; [lia|exact H1|].
      replace (d + fini_depth r) with (d + (0 - 0 + fini_depth r)) by lia. exact H2.
  - apply IH; [lia|exact H1|].
    replace (d - 1 + fini_depth r) with (d + (0 - 1 + fini_depth r)) by lia. exact H2.
Qed.

(** What holds of a complete sub-trace run with counters di, df. *)
Record good (di df : Z) (t : list event) : Prop := mkgood {
  g_iv : init_view di t = true;
  g_fv : fini_view df t = true;
  g_id : init_depth t = 0;
  g_fd : fini_depth t = 0;
  g_icb : 0 < di -> existsb init_cb t = false;
  g_fcb : 0 < df -> existsb fini_cb t = false }.

Lemma good_nil di df : good di df [].
Proof. now constructor. Qed.

Lemma good_app di df a b : good di df a -> good di df b -> good di df (a ++ b).
Proof.
  intros [A1 A2 A3 A4 A5 A6] [B1 B2 B3 B4 B5 B6]. constructor.
  - eapply init_view_app; [reflexivity|exact A1|]. now rewrite A3, Z.add_0_r.
  - eapply fini_view_app; [reflexivity|exact A2|]. now rewrite A4, Z.add_0_r.
  - rewrite idepth_app. lia.
  - rewrite fdepth_app. lia.
  - intros H. rewrite existsb_app, A5, B5 by exact H. reflexivity.
  - intros H. rewrite existsb_app, A6, B6 by exact H. reflexivity.
Qed.

(** One event that neither view cares about. *)
Definition plain (e : event) : bool :=
  match e with
  | ERealInit _ _ | ERealFini _ | ERankEnter _ | ERankLeave _ _ _ | ESet _ _ | ESize _ | ERank _ => true
  | _ => false
  end.

Lemma good_plain di df e : plain e = true -> good di df [e].
Proof. intros H. destruct e; try discriminate H; now constructor. Qed.

Lemma good_plain_cons di df e t : plain e = true -> good di df t -> good di df (e :: t).
Proof. intros. change (e :: t) with ([e] ++ t). apply good_app; [now apply good_plain|assumption]. Qed.

Lemma good_list ma l :
  Forall (fun a => forall s, 0 <= init_count s -> 0 <= fini_count s ->
            good (init_count s) (fini_count s) (snd (run1 ma s a))) l ->
  forall s, 0 <= init_count s -> 0 <= fini_count s ->
    good (init_count s) (fini_count s) (snd (run ma s l)).
Proof.
  induction l as [|a r IH]; intros H s Hi Hf; [apply good_nil|].
  inversion H; subst. cbn [run]. specialize (H2 s Hi Hf). specialize (IH H3).
  pose proof (run1_keeps ma a s) as [K1 K2].
  destruct (run1 ma s a) as [s1 t1]. cbn [fst snd] in *. specialize (IH s1).
  destruct (run ma s1 r) as [s2 t2]. cbn [snd] in *.
  apply good_app; [exact H2|]. rewrite <- K1, <- K2. apply IH; lia.
Qed.

Lemma iv_pl e t d : enter_init e = false -> leave_init e = false -> init_cb e = false ->
  e <> ERealInitDone -> init_view d (e :: t) = init_view d t.
Proof. destruct e; cbn; intros; try discriminate; try reflexivity. congruence. Qed.

Ltac depth := repeat first [rewrite idepth_cons | rewrite idepth_app | rewrite fdepth_cons | rewrite fdepth_app];
  cbn [enter_init leave_init enter_fini leave_fini].

(** The init bracket around good pieces. *)
Lemma good_init d df e args r ma t2 t3 t4 : 0 <= d -> 0 <= df ->
  good (d + 1) df t2 -> good (d + 1) df t3 -> good (d + 1) df t4 ->
  good d df (EInitEnter e :: (if d + 1 =? 1 then EPreInit :: t2 else []) ++ ERealInit e args ::
             t3 ++ ERealInitDone :: (if d + 1 =? 1 then EInitMpi ma :: t4 else []) ++ [EInitLeave r]).
Proof.
  intros Hd Hf [A1 A2 A3 A4 A5 A6] [B1 B2 B3 B4 B5 B6] [C1 C2 C3 C4 C5 C6].
  change (init_depth []) with 0 in *. 
  assert (N1 : init_depth [] = 0) by reflexivity. assert (N2 : fini_depth [] = 0) by reflexivity.
  destruct (d + 1 =? 1) eqn:E.
  - assert (d = 0) as -> by lia. constructor.
    + cbn [app init_view Z.eqb]. 
      apply (init_view_app (length t2)); [lia|exact A1|]. rewrite A3.
      cbn [init_view]. apply (init_view_app (length t3)); [lia|exact B1|]. rewrite B3.
      cbn [init_view app]. change (0 + 1 + 0 + 0 =? 1) with true. cbn iota.
      apply (init_view_app (length t4)); [lia|exact C1|]. rewrite C3. reflexivity.
    + cbn [app fini_view].
      apply (fini_view_app (length t2)); [lia|exact A2|]. rewrite A4.
      cbn [fini_view]. apply (fini_view_app (length t3)); [lia|now rewrite Z.add_0_r|]. rewrite B4.
      cbn [fini_view app].
      apply (fini_view_app (length t4)); [lia|now rewrite !Z.add_0_r|]. reflexivity.
    + cbn [app]. depth. rewrite A3, B3, C3. lia.
    + cbn [app]. depth. rewrite A4, B4, C4. lia.
    + intros. lia.
    + intros H. cbn [existsb app fini_cb orb]. rewrite !existsb_app. cbn [existsb fini_cb orb].
      rewrite existsb_app. cbn [existsb fini_cb orb]. rewrite existsb_app. rewrite A6, B6, C6 by exact H. reflexivity.
  - cbn [app]. constructor.
    + cbn [init_view]. replace (d =? 0) with false by lia.
      apply (init_view_app (length t3)); [lia|exact B1|]. rewrite B3, Z.add_0_r.
      cbn [init_view app]. rewrite E. reflexivity.
    + cbn [fini_view].
      apply (fini_view_app (length t3)); [lia|exact B2|]. reflexivity.
    + depth. rewrite B3. lia.
    + depth. rewrite B4. lia.
    + intros H. cbn [existsb init_cb orb]. rewrite existsb_app. rewrite B5 by lia. reflexivity.
    + intros H. cbn [existsb fini_cb orb]. rewrite existsb_app. rewrite B6 by lia. reflexivity.
Qed.

Lemma good_fini di d e r t2 t3 t4 : 0 <= d -> 0 <= di ->
  good di (d + 1) t2 -> good di (d + 1) t3 -> good di (d + 1) t4 ->
  good di d (EFiniEnter e :: (if d + 1 =? 1 then EFiniMpi :: t2 else []) ++ ERealFini e ::
             t3 ++ ERealFiniDone :: (if d + 1 =? 1 then EPostFini :: t4 else []) ++ [EFiniLeave r]).
Proof.
  intros Hd Hf [A1 A2 A3 A4 A5 A6] [B1 B2 B3 B4 B5 B6] [C1 C2 C3 C4 C5 C6].
  assert (N1 : init_depth [] = 0) by reflexivity. assert (N2 : fini_depth [] = 0) by reflexivity.
  destruct (d + 1 =? 1) eqn:E.
  - assert (d = 0) as -> by lia. constructor.
    + cbn [app init_view].
      apply (init_view_app (length t2)); [lia|exact A1|]. rewrite A3.
      cbn [init_view]. apply (init_view_app (length t3)); [lia|now rewrite Z.add_0_r|]. rewrite B3.
      cbn [init_view app].
      apply (init_view_app (length t4)); [lia|now rewrite !Z.add_0_r|]. reflexivity.
    + cbn [app fini_view Z.eqb]. 
      apply (fini_view_app (length t2)); [lia|exact A2|]. rewrite A4.
      cbn [fini_view]. apply (fini_view_app (length t3)); [lia|exact B2|]. rewrite B4.
      cbn [fini_view app]. change (0 + 1 + 0 + 0 =? 1) with true. cbn iota.
      apply (fini_view_app (length t4)); [lia|exact C2|]. rewrite C4. reflexivity.
    + cbn [app]. depth. rewrite A3, B3, C3. lia.
    + cbn [app]. depth. rewrite A4, B4, C4. lia.
    + intros H. cbn [existsb app init_cb orb]. rewrite !existsb_app. cbn [existsb init_cb orb].
      rewrite existsb_app. cbn [existsb init_cb orb]. rewrite existsb_app. rewrite A5, B5, C5 by exact H. reflexivity.
    + intros. lia.
  - cbn [app]. constructor.
    + cbn [init_view].
      apply (init_view_app (length t3)); [lia|exact B1|]. reflexivity.
    + cbn [fini_view]. replace (d =? 0) with false by lia.
      apply (fini_view_app (length t3)); [lia|exact B2|]. rewrite B4, Z.add_0_r.
      cbn [fini_view app]. rewrite E. reflexivity.
    + depth. rewrite B3. lia.
    + depth. rewrite B4. lia.
    + intros H. cbn [existsb init_cb orb]. rewrite existsb_app. rewrite B5 by lia. reflexivity.
    + intros H. cbn [existsb fini_cb orb]. rewrite existsb_app. rewrite B6 by lia. reflexivity.
Qed.

Lemma run1_good ma a : forall s, 0 <= init_count s -> 0 <= fini_count s ->
  good (init_count s) (fini_count s) (snd (run1 ma s a)).
Proof.
  induction a as [e args ret pre real post Hp Hr Ho|e ret pre real post Hp Hr Ho
                 |e size rank ret i j Hi Hj|sz r| |] using act_ind2; intros s Hi0 Hf0.
  - rewrite run1_init. cbn zeta.
    assert (X1 : init_count (inc_init s 1) = init_count s + 1) by reflexivity.
    assert (X2 : fini_count (inc_init s 1) = fini_count s) by reflexivity.
    pose proof (good_list ma pre Hp (inc_init s 1) ltac:(lia) ltac:(lia)) as G1.
    pose proof (run_keeps ma pre (inc_init s 1)) as [K1 K1'].
    pose proof (good_init (init_count s) (fini_count s) e args (ret_of e ret) (init_args ma e args)) as GI.
    destruct (init_count s + 1 =? 1) eqn:E.
    + destruct (run ma (inc_init s 1) pre) as [s2 t2]. cbn [fst snd] in *.
      pose proof (good_list ma real Hr s2 ltac:(lia) ltac:(lia)) as G2.
      pose proof (run_keeps ma real s2) as [K2 K2'].
      destruct (run ma s2 real) as [s3 t3]. cbn [fst snd] in *.
      pose proof (good_list ma post Ho s3 ltac:(lia) ltac:(lia)) as G3.
      destruct (run ma s3 post) as [s4 t4]. cbn [fst snd] in *.
      rewrite X1, X2 in *. rewrite K1, K1' in *. rewrite K2, K2' in *. now apply GI.
    + pose proof (good_list ma real Hr (inc_init s 1) ltac:(lia) ltac:(lia)) as G2.
      destruct (run ma (inc_init s 1) real) as [s3 t3]. cbn [fst snd] in *.
      rewrite X1, X2 in *. apply (GI [] t3 []); try assumption; apply good_nil.
  - rewrite run1_fini. cbn zeta.
    assert (X1 : fini_count (inc_fini s 1) = fini_count s + 1) by reflexivity.
    assert (X2 : init_count (inc_fini s 1) = init_count s) by reflexivity.
    pose proof (good_list ma pre Hp (inc_fini s 1) ltac:(lia) ltac:(lia)) as G1.
    pose proof (run_keeps ma pre (inc_fini s 1)) as [K1 K1'].
    pose proof (good_fini (init_count s) (fini_count s) e (ret_of e ret)) as GI.
    destruct (fini_count s + 1 =? 1) eqn:E.
    + destruct (run ma (inc_fini s 1) pre) as [s2 t2]. cbn [fst snd] in *.
      pose proof (good_list ma real Hr s2 ltac:(lia) ltac:(lia)) as G2.
      pose proof (run_keeps ma real s2) as [K2 K2'].
      destruct (run ma s2 real) as [s3 t3]. cbn [fst snd] in *.
      pose proof (good_list ma post Ho s3 ltac:(lia) ltac:(lia)) as G3.
      destruct (run ma s3 post) as [s4 t4]. cbn [fst snd] in *.
      rewrite X1, X2 in *. rewrite K1, K1' in *. rewrite K2, K2' in *. now apply GI.
    + pose proof (good_list ma real Hr (inc_fini s 1) ltac:(lia) ltac:(lia)) as G2.
      destruct (run ma (inc_fini s 1) real) as [s3 t3]. cbn [fst snd] in *.
      rewrite X1, X2 in *. apply (GI [] t3 []); try assumption; apply good_nil.
  - rewrite run1_rank.
    pose proof (good_list ma i Hi s Hi0 Hf0) as G1. pose proof (run_keeps ma i s) as [K1 K1'].
    destruct (run ma s i) as [s1 t1]. cbn [fst snd] in *.
    pose proof (good_list ma j Hj s1 ltac:(lia) ltac:(lia)) as G2.
    destruct (run ma s1 j) as [s2 t2]. cbn [fst snd] in *. rewrite K1, K1' in G2.
    apply good_plain_cons; [reflexivity|]. apply good_app; [assumption|].
    apply good_app; [assumption|]. now apply good_plain.
  - now apply good_plain.
  - now apply good_plain.
  - now apply good_plain.
Qed.

Lemma run_good ma l s : 0 <= init_count s -> 0 <= fini_count s ->
  good (init_count s) (fini_count s) (snd (run ma s l)).
Proof. apply good_list. apply Forall_forall. intros a _. apply run1_good. Qed.

(** ** Publication *)

Lemma first_pub_app t1 : forall b t2,
  first_pub b (t1 ++ t2) =
  match first_pub b t1 with Some p => Some p | None => first_pub (b ++ t1) t2 end.
Proof.
  induction t1 as [|e r IH]; intros b t2; cbn [first_pub app].
  - now rewrite app_nil_r.
  - destruct (publishes b e); [reflexivity|]. rewrite IH. rewrite <- app_assoc. reflexivity.
Qed.

Record rel (p : list event) (s : mpi) : Prop := mkrel {
  r_i : init_count s = init_depth p;
  r_m : (max_init s >? 0) = (0 <? nb enter_init p);
  r_mi : init_count s <= max_init s;
  r_m0 : 0 <= max_init s;
  r_i0 : 0 <= init_count s;
  r_first : first_set s = match first_pub [] p with None => true | Some _ => false end;
  r_pub : (m_size s, m_rank s) = published p;
  r_fm : first_mpi s = false -> first_set s = false }.

Definition answers (p t : list event) : Prop :=
  (forall t1 t2 x, t = t1 ++ ESize x :: t2 -> x = fst (published (p ++ t1))) /\
  (forall t1 t2 x, t = t1 ++ ERank x :: t2 -> x = snd (published (p ++ t1))).

Lemma split_app {A} (a b c : list A) x d :
  a ++ b = c ++ x :: d ->
  (exists d', a = c ++ x :: d') \/ (exists c', b = c' ++ x :: d /\ c = a ++ c').
Proof.
  revert c. induction a as [|y a IH]; intros c H.
  - right. exists c. split; [exact H|reflexivity].
  - destruct c as [|z c].
    + cbn in H. inversion H; subst. left. exists a. reflexivity.
    + cbn in H. inversion H; subst. destruct (IH c H2) as [(d' & ->)|(c' & -> & ->)].
      * left. exists d'. reflexivity.
      * right. exists c'. split; reflexivity.
Qed.

Lemma answers_nil p : answers p [].
Proof. split; intros [|]; discriminate. Qed.

Lemma answers_app p a b : answers p a -> answers (p ++ a) b -> answers p (a ++ b).
Proof.
  intros [A1 A2] [B1 B2]. split; intros t1 t2 x H; destruct (split_app _ _ _ _ _ H) as [(d' & E)|(c' & E & ->)].
  - eapply A1; eauto.
  - rewrite app_assoc. eapply B1; eauto.
  - eapply A2; eauto.
  - rewrite app_assoc. eapply B2; eauto.
Qed.

Definition no_query (e : event) : bool := match e with ESize _ | ERank _ => false | _ => true end.
Lemma answers_one p e : no_query e = true -> answers p [e].
Proof. intros H. split; intros [|y [|]] t2 x E; inversion E; subst; discriminate. Qed.

Definition silent (e : event) : bool :=
  negb (enter_init e) && negb (leave_init e) &&
  match e with ESet _ _ | ERankLeave _ _ _ => false | _ => true end.

Lemma first_pub_silent p e : (match e with ESet _ _ | ERankLeave _ _ _ => false | _ => true end) = true ->
  first_pub [] (p ++ [e]) = first_pub [] p.
Proof.
  intros H. rewrite first_pub_app. destruct (first_pub [] p); [reflexivity|].
  cbn. destruct e; try discriminate H; reflexivity.
Qed.

Lemma published_silent p e : (match e with ESet _ _ | ERankLeave _ _ _ => false | _ => true end) = true ->
  published (p ++ [e]) = published p.
Proof. intros H. unfold published. now rewrite first_pub_silent. Qed.

Lemma rel_silent p s e : silent e = true -> rel p s -> rel (p ++ [e]) s.
Proof.
  unfold silent. intros H [A B C D E F G I].
  apply andb_true_iff in H. destruct H as [H H3]. apply andb_true_iff in H. destruct H as [H1 H2].
  constructor; try assumption.
  - rewrite idepth_app, idepth_cons. destruct (enter_init e); [discriminate|].
    destruct (leave_init e); [discriminate|]. change (init_depth []) with 0. lia.
  - rewrite nb_app, nb_cons. destruct (enter_init e); [discriminate|]. rewrite B. rewrite nb_nil.
    now rewrite !Z.add_0_r.
  - now rewrite first_pub_silent.
  - now rewrite published_silent.
Qed.

Lemma rel_enter p s e : rel p s -> rel (p ++ [EInitEnter e]) (inc_init s 1).
Proof.
  intros [A B C D E F G I]. constructor.
  - rewrite idepth_app, idepth_cons. cbn. lia.
  - rewrite nb_app, nb_cons. cbn [enter_init]. rewrite nb_nil. cbn.
    pose proof (nb_nonneg enter_init p). destruct (init_count s + 1 >? max_init s) eqn:X; lia.
  - cbn. destruct (init_count s + 1 >? max_init s) eqn:X; lia.
  - cbn. destruct (init_count s + 1 >? max_init s) eqn:X; lia.
  - cbn. lia.
  - rewrite first_pub_silent by reflexivity. exact F.
  - rewrite published_silent by reflexivity. exact G.
  - exact I.
Qed.

Lemma rel_leave p s r : 1 <= init_count s -> rel p s -> rel (p ++ [EInitLeave r]) (inc_init s (-1)).
Proof.
  intros Hc [A B C D E F G I]. constructor.
  - rewrite idepth_app, idepth_cons. cbn. lia.
  - rewrite nb_app, nb_cons. cbn [enter_init]. rewrite nb_nil. cbn.
    destruct (init_count s + -1 >? max_init s) eqn:X; [lia|]. rewrite B. now rewrite !Z.add_0_r.
  - cbn. destruct (init_count s + -1 >? max_init s) eqn:X; lia.
  - cbn. destruct (init_count s + -1 >? max_init s) eqn:X; lia.
  - cbn. lia.
  - rewrite first_pub_silent by reflexivity. exact F.
  - rewrite published_silent by reflexivity. exact G.
  - exact I.
Qed.

Lemma rel_fini p s i : rel p s -> rel p (inc_fini s i).
Proof. intros [A B C D E F G I]. now constructor. Qed.

Lemma rel_set p s a b : rel p s -> rel (p ++ [ESet a b]) (set_size_rank s a b).
Proof.
  intros [A B C D E F G I]. unfold set_size_rank.
  destruct (first_pub [] p) as [q|] eqn:Q; rewrite F.
  - constructor; try assumption.
    + rewrite idepth_app, idepth_cons. change (init_depth []) with 0. cbn. lia.
    + rewrite nb_app, nb_cons. cbn [enter_init]. rewrite nb_nil, B. now rewrite !Z.add_0_r.
    + rewrite first_pub_app, Q. exact F.
    + unfold published in *. rewrite first_pub_app, Q in *. exact G.
  - constructor; cbn; try assumption; try reflexivity.
    + rewrite idepth_app, idepth_cons. change (init_depth []) with 0. cbn. lia.
    + rewrite nb_app, nb_cons. cbn [enter_init]. rewrite nb_nil, B. now rewrite !Z.add_0_r.
    + rewrite first_pub_app, Q. reflexivity.
    + unfold published in *. rewrite first_pub_app, Q in *. reflexivity.
Qed.

Lemma rel_rank p s a b r : rel p s -> rel (p ++ [ERankLeave a b r]) (set_mpi_size_rank s a b).
Proof.
  intros R. destruct R as [A B C D E F G I].
  assert (Hd : init_depth (p ++ [ERankLeave a b r]) = init_depth p).
  { rewrite idepth_app, idepth_cons. change (init_depth []) with 0. cbn. lia. }
  assert (Hn : nb enter_init (p ++ [ERankLeave a b r]) = nb enter_init p).
  { rewrite nb_app, nb_cons. cbn [enter_init]. rewrite nb_nil. lia. }
  assert (Hp : first_pub [] (p ++ [ERankLeave a b r]) =
               match first_pub [] p with Some q => Some q
               | None => if (init_count s =? 0) && (max_init s >? 0) then Some (a, b) else None end).
  { rewrite first_pub_app. destruct (first_pub [] p); [reflexivity|]. cbn.
    rewrite <- A, <- B. destruct ((init_count s =? 0) && (max_init s >? 0)); reflexivity. }
  unfold set_mpi_size_rank, set_size_rank, published in *.
  destruct (first_pub [] p) as [q|] eqn:Q.
  - rewrite F. destruct (first_mpi s && (init_count s =? 0) && (max_init s >? 0));
      constructor; cbn; unfold published; rewrite ?Hd, ?Hn, ?Hp; auto.
  - rewrite F. assert (first_mpi s = true) as Fm by (destruct (first_mpi s); [reflexivity|]; specialize (I eq_refl); congruence).
    rewrite Fm. cbn [andb] in *. destruct ((init_count s =? 0) && (max_init s >? 0)) eqn:X;
      constructor; cbn; unfold published; rewrite ?Hd, ?Hn, ?Hp; auto; congruence.
Qed.

Definition J (ma : Z) (p : list event) (s s' : mpi) (t : list event) : Prop :=
  rel p s -> rel (p ++ t) s' /\ answers p t.

Lemma J_app ma p s1 s2 s3 a b : J ma p s1 s2 a -> J ma (p ++ a) s2 s3 b -> J ma p s1 s3 (a ++ b).
Proof.
  intros A B R. destruct (A R) as [R2 A2]. destruct (B R2) as [R3 A3].
  rewrite app_assoc. split; [exact R3|]. now apply answers_app.
Qed.

Lemma J_silent ma p s e : silent e = true -> no_query e = true -> J ma p s s [e].
Proof. intros H Q R. split; [now apply rel_silent|now apply answers_one]. Qed.

Lemma J_list ma l :
  Forall (fun a => forall p s, J ma p s (fst (run1 ma s a)) (snd (run1 ma s a))) l ->
  forall p s, J ma p s (fst (run ma s l)) (snd (run ma s l)).
Proof.
  induction l as [|a r IH]; intros H p s.
  - intros R. cbn. rewrite app_nil_r. split; [exact R|apply answers_nil].
  - inversion H; subst. cbn [run]. specialize (H2 p s). specialize (IH H3).
    destruct (run1 ma s a) as [s1 t1]. cbn [fst snd] in *. specialize (IH (p ++ t1) s1).
    destruct (run ma s1 r) as [s2 t2]. cbn [fst snd] in *. eapply J_app; eauto.
Qed.

Lemma J_cons ma p s1 s2 s3 e b : J ma p s1 s2 [e] -> J ma (p ++ [e]) s2 s3 b -> J ma p s1 s3 (e :: b).
Proof. intros. change (e :: b) with ([e] ++ b). eapply J_app; eauto. Qed.

Lemma run1_J ma a : forall p s, J ma p s (fst (run1 ma s a)) (snd (run1 ma s a)).
Proof.
  induction a as [e args ret pre real post Hp Hr Ho|e ret pre real post Hp Hr Ho
                 |e size rank ret i j Hi Hj|sz r| |] using act_ind2; intros p s.
  - assert (Jen : J ma p s (inc_init s 1) [EInitEnter e]).
    { intros R. split; [now apply rel_enter|now apply answers_one]. }
    rewrite run1_init. cbn zeta.
    destruct (init_count s + 1 =? 1).
    + pose proof (fun p => J_list ma pre Hp p (inc_init s 1)) as J1. pose proof (run_keeps ma pre (inc_init s 1)) as [K1 _].
      destruct (run ma (inc_init s 1) pre) as [s2 t2]. cbn [fst snd] in *.
      pose proof (fun p => J_list ma real Hr p s2) as J2. pose proof (run_keeps ma real s2) as [K2 _].
      destruct (run ma s2 real) as [s3 t3]. cbn [fst snd] in *.
      pose proof (fun p => J_list ma post Ho p s3) as J3. pose proof (run_keeps ma post s3) as [K3 _].
      destruct (run ma s3 post) as [s4 t4]. cbn [fst snd] in *.
      intros R0. assert (0 <= init_count s) as Hs by apply R0. revert R0.
      change (J ma p s (inc_init s4 (-1)) (EInitEnter e :: (EPreInit :: t2) ++ ERealInit e args :: t3 ++ ERealInitDone :: (EInitMpi (init_args ma e args) :: t4) ++ [EInitLeave (ret_of e ret)])).
      eapply J_cons; [exact Jen|]. cbn [app].
      eapply J_cons; [now apply J_silent|].
      eapply J_app; [apply J1|].
      eapply J_cons; [now apply J_silent|].
      eapply J_app; [apply J2|].
      eapply J_cons; [now apply J_silent|].
      eapply J_cons; [now apply J_silent|].
      eapply J_app; [apply J3|].
      intros R. split; [|now apply answers_one]. apply rel_leave; [|exact R].
      rewrite K3, K2, K1. cbn. lia.
    + pose proof (fun p => J_list ma real Hr p (inc_init s 1)) as J2. pose proof (run_keeps ma real (inc_init s 1)) as [K2 _].
      destruct (run ma (inc_init s 1) real) as [s3 t3]. cbn [fst snd app] in *.
      intros R0. assert (0 <= init_count s) as Hs by apply R0. revert R0.
      change (J ma p s (inc_init s3 (-1)) (EInitEnter e :: ERealInit e args :: t3 ++ ERealInitDone :: [EInitLeave (ret_of e ret)])).
      eapply J_cons; [exact Jen|].
      eapply J_cons; [now apply J_silent|].
      eapply J_app; [apply J2|].
      eapply J_cons; [now apply J_silent|].
      intros R. split; [|now apply answers_one]. apply rel_leave; [|exact R].
      rewrite K2. cbn. lia.
  - assert (Jen : J ma p s (inc_fini s 1) [EFiniEnter e]).
    { intros R. split; [apply rel_fini; now apply rel_silent|now apply answers_one]. }
    rewrite run1_fini. cbn zeta.
    destruct (fini_count s + 1 =? 1).
    + pose proof (fun p => J_list ma pre Hp p (inc_fini s 1)) as J1.
      destruct (run ma (inc_fini s 1) pre) as [s2 t2]. cbn [fst snd] in *.
      pose proof (fun p => J_list ma real Hr p s2) as J2.
      destruct (run ma s2 real) as [s3 t3]. cbn [fst snd] in *.
      pose proof (fun p => J_list ma post Ho p s3) as J3.
      destruct (run ma s3 post) as [s4 t4]. cbn [fst snd app] in *.
      eapply J_cons; [exact Jen|].
      eapply J_cons; [now apply J_silent|].
      eapply J_app; [apply J1|].
      eapply J_cons; [now apply J_silent|].
      eapply J_app; [apply J2|].
      eapply J_cons; [now apply J_silent|].
      eapply J_cons; [now apply J_silent|].
      eapply J_app; [apply J3|].
      intros R. split; [|now apply answers_one]. apply rel_fini. now apply rel_silent.
    + pose proof (fun p => J_list ma real Hr p (inc_fini s 1)) as J2.
      destruct (run ma (inc_fini s 1) real) as [s3 t3]. cbn [fst snd app] in *.
      eapply J_cons; [exact Jen|].
      eapply J_cons; [now apply J_silent|].
      eapply J_app; [apply J2|].
      eapply J_cons; [now apply J_silent|].
      intros R. split; [|now apply answers_one]. apply rel_fini. now apply rel_silent.
  - rewrite run1_rank.
    pose proof (fun p => J_list ma i Hi p s) as J1. destruct (run ma s i) as [s1 t1]. cbn [fst snd] in *.
    pose proof (fun p => J_list ma j Hj p s1) as J2. destruct (run ma s1 j) as [s2 t2]. cbn [fst snd] in *.
    eapply J_cons; [now apply J_silent|].
    eapply J_app; [apply J1|]. eapply J_app; [apply J2|].
    intros R. split; [now apply rel_rank|now apply answers_one].
  - intros R. split; [now apply rel_set|now apply answers_one].
  - intros R. split; [now apply rel_silent|]. cbn. destruct R as [_ _ _ _ _ _ G _].
    split; intros [|y [|]] t2 x E; inversion E; subst. rewrite app_nil_r. now rewrite <- G.
  - intros R. split; [now apply rel_silent|]. cbn. destruct R as [_ _ _ _ _ _ G _].
    split; intros [|y [|]] t2 x E; inversion E; subst. rewrite app_nil_r. now rewrite <- G.
Qed.

Lemma rel0 : rel [] mpi0.
Proof. constructor; try reflexivity; cbn; try lia; try discriminate. Qed.

Lemma run_answers ma l :
  rel (snd (run ma mpi0 l)) (fst (run ma mpi0 l)) /\ answers [] (snd (run ma mpi0 l)).
Proof.
  assert (H : J ma [] mpi0 (fst (run ma mpi0 l)) (snd (run ma mpi0 l))).
  { apply J_list. apply Forall_forall. intros a _. apply run1_J. }
  exact (H rel0).
Qed.

(** The first publication is stable under extending the trace. *)
Lemma published_stable t1 t2 p : first_pub [] t1 = Some p -> published (t1 ++ t2) = p.
Proof. intros H. unfold published. now rewrite first_pub_app, H. Qed.
