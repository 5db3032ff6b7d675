(** Proofs of the program-start properties, from the shape of a run. *)
From Verif Require Import StartSpec StartProofs.

Ltac flat := repeat (rewrite <- ?app_assoc; cbn [app]); reflexivity.
Ltac shape_of p pre mid body fin St :=
  destruct (run_shape p pre mid body fin St) as
      (S1 & smi & R & S2 & S3 & atm & W & mainev & S4 & End & EQ & ES & F1 & Csmi & Msmi & HR & F2 & F3 &
       PI & FI & Catm & Satm & HW & Cmain & Smain & Mmain & F4 & CE & FE & LB & LO).
Ltac shape St :=
  match goal with
  | |- context[history ?p ?pre ?mid ?body ?fin] => shape_of p pre mid body fin St
  | |- context[run_program ?p ?pre ?mid ?body ?fin _] => shape_of p pre mid body fin St
  end.

Section Lemmas.
  Context (p : program) (pre mid body : list act) (fin : ending).

  (** The history itself, oldest first. *)
  Lemma hist_eq S1 smi R S2 S3 atm W mainev S4 End :
    g_log (run_program p pre mid body fin (start_g p)) =
      rev End ++ S4 ++ mainev :: W ++ atm :: S3 ++ S2 ++ R ++ smi :: S1 ->
    history p pre mid body fin =
      (rev S1 ++ [smi] ++ rev R ++ rev S2 ++ rev S3 ++ [atm] ++ rev W) ++ mainev :: rev S4 ++ End.
  Proof.
    intros E. unfold history. rewrite E.
    repeat (rewrite ?rev_app_distr, ?rev_involutive; cbn [rev app]). flat.
  Qed.

  Lemma end_calls_ok (f : call -> bool) d :
    (forall c, f c = true -> is_exit c = false /\ is_exit_callback c = false) ->
    filter f (end_calls p fin d) = [].
  Proof.
    intros H. apply filter_none. apply Forall_forall. intros c I. destruct (f c) eqn:X; auto.
    apply H in X. destruct X as (X & Y). unfold end_calls in I.
    destruct fin, (is_static (p_build p)); cbn in I;
      repeat (destruct I as [I|I]; [subst c; try discriminate X; discriminate Y|]); destruct I.
  Qed.

  Lemma R_calls (R : list event) (S2 : list event) (f : call -> bool) :
    (if is_static (p_build p) then R = [] /\ S2 = []
     else exists ev, R = [ev] /\ real_start_call p (e_call ev) /\ e_main ev = p_main p) ->
    (forall a b c d, f (RealStartMain a b c d) = false) -> filter f (calls R) = [].
  Proof.
    intros H N. destruct (is_static (p_build p)).
    - destruct H as (-> & _). reflexivity.
    - destruct H as (ev & -> & H & _). cbn. rewrite H, N. reflexivity.
  Qed.
  Lemma W_calls (W : list event) (f : call -> bool) :
    (if is_static (p_build p)
     then exists ev a, W = [ev] /\ settled p ev /\ e_call ev = WrapMain a (p_argv p) (p_envp p) /\ (keeps_argc p -> a = p_argc p)
     else W = []) ->
    (forall a b c, f (WrapMain a b c) = false) -> filter f (calls W) = [].
  Proof.
    intros H N. destruct (is_static (p_build p)).
    - destruct H as (ev & a & -> & _ & H & _). cbn. rewrite H, N. reflexivity.
    - subst. reflexivity.
  Qed.

  (** Counting one kind of call over the whole history. *)
  Lemma count_calls (f : call -> bool) : started p ->
    (forall c, f c = true -> is_init_library c = false /\ is_init_process c = false) ->
    (forall a b c d, f (RealStartMain a b c d) = false) ->
    (forall a b c, f (WrapMain a b c) = false) ->
    exists d, 
    filter f (calls (history p pre mid body fin)) =
      filter f [StartMainInit; AtMain; Main (p_main p) (p_argc p) (p_argv p) (p_envp p)] ++
      filter f (end_calls p fin d).
  Proof.
    intros St Hf H1 H2. shape St. rewrite (hist_eq _ _ _ _ _ _ _ _ _ _ EQ).
    exists (last_data p (S4 ++ S3 ++ S2 ++ S1)).
    rewrite !calls_app. cbn [calls map]. fold (calls (rev S4 ++ End)). rewrite calls_app, !calls_rev.
    cbn [calls map]. rewrite Csmi, Catm, Cmain.
    change (map e_call) with calls. rewrite !filter_app, !filter_rev, CE.
    rewrite (filter_good _ _ _ _ _ f S1 Hf F1), (filter_good _ _ _ _ _ f S2 Hf F2),
      (filter_good _ _ _ _ _ f S3 Hf F3), (R_calls R S2 f HR H1), (W_calls W f HW H2).
    cbn [rev app]. rewrite app_nil_r.
    change (Main (p_main p) (p_argc p) (p_argv p) (p_envp p) :: rev (calls S4) ++ end_calls p fin (last_data p (S4 ++ S3 ++ S2 ++ S1)))
      with ([Main (p_main p) (p_argc p) (p_argv p) (p_envp p)] ++ rev (calls S4) ++ end_calls p fin (last_data p (S4 ++ S3 ++ S2 ++ S1))).
    rewrite !filter_app, filter_rev, (filter_good _ _ _ _ _ f S4 Hf F4).
    cbn [rev app]. rewrite app_assoc, <- !filter_app. reflexivity.
  Qed.

  Lemma main_lemma : started p ->
    exists h1 ev h2, history p pre mid body fin = h1 ++ ev :: h2 /\
      e_call ev = Main (p_main p) (p_argc p) (p_argv p) (p_envp p) /\
      (forall x, In x (h1 ++ h2) -> is_main (e_call x) = false) /\
      (forall i, e_mem ev i = Nat.iter (inits h1) (c_mem (p_client p)) (p_mem p) i).
  Proof.
    intros St.
    destruct (count_calls is_main St) as (d & CM); try (intros c X; destruct c; try discriminate X; auto; fail); auto.
    rewrite (end_calls_ok is_main d) in CM by (intros c X; destruct c; try discriminate X; auto).
    shape St. pose proof (hist_eq _ _ _ _ _ _ _ _ _ _ EQ) as HE.
    rewrite HE in CM |- *.
    eexists _, mainev, _. split; [reflexivity|]. split; [exact Cmain|]. split.
    - intros x I. destruct (is_main (e_call x)) eqn:X; auto. exfalso.
      set (h1 := rev S1 ++ [smi] ++ rev R ++ rev S2 ++ rev S3 ++ [atm] ++ rev W) in *.
      set (h2 := rev S4 ++ End) in *. clearbody h1 h2.
      apply (f_equal (@length call)) in CM. rewrite calls_app in CM.
      change (calls (mainev :: h2)) with ([e_call mainev] ++ calls h2) in CM.
      rewrite !filter_app, Cmain, !app_length in CM. cbn in CM.
      assert (Y : (0 < length (filter is_main (calls (h1 ++ h2))))%nat).
      { assert (Z0 : In (e_call x) (filter is_main (calls (h1 ++ h2))))
          by (apply filter_In; split; auto; apply in_map; auto).
        destruct (filter is_main (calls (h1 ++ h2))); [destruct Z0|cbn; lia]. }
      rewrite calls_app, filter_app, app_length in Y. change (map e_call h2) with (calls h2) in CM. clear - CM Y. lia.
    - intros i. rewrite Mmain.
      assert (IR : inits (rev R) = 0%nat /\ inits (rev W) = 0%nat).
      { unfold inits. rewrite !calls_rev, !filter_rev, (R_calls R S2 is_init_process HR), (W_calls W is_init_process HW); auto. }
      assert (REV : forall l, inits (rev l) = inits l)
        by (intros l; unfold inits; rewrite calls_rev, filter_rev, rev_length; reflexivity).
      match goal with |- Nat.iter ?a _ _ _ = Nat.iter ?b _ _ _ => assert (N : a = b) end.
      { rewrite !inits_app, !REV, !inits_cons, Csmi, Catm. rewrite !REV in IR. destruct IR as (-> & ->).
        cbn [is_init_process]. change (inits []) with 0%nat. clear. lia. }
      rewrite N. reflexivity.
  Qed.

  Lemma status_lemma : started p -> filter is_exit (calls (history p pre mid body fin)) = [final_call fin].
  Proof.
    intros St.
    destruct (count_calls is_exit St) as (d & ->); try (intros c X; destruct c; try discriminate X; auto; fail); auto.
    unfold end_calls. destruct fin, (is_static (p_build p)); reflexivity.
  Qed.

  Lemma last_data_app l1 l2 : last_data p (l1 ++ l2) =
    if Nat.eqb (inits l1) 0 then last_data p l2 else last_data p l1.
  Proof.
    induction l1 as [|x l IH]; auto. cbn [app last_data]. rewrite inits_cons. destruct (e_call x); cbn [is_init_process plus]; auto.
  Qed.
  Lemma result_app acc h1 h2 :
    result_of_last_init p acc (h1 ++ h2) = result_of_last_init p (result_of_last_init p acc h1) h2.
  Proof. revert acc. induction h1 as [|x l IH]; intros acc; cbn; auto. destruct x; auto. Qed.
  Lemma result_none acc h : filter is_init_process h = [] -> result_of_last_init p acc h = acc.
  Proof. induction h as [|x l IH]; cbn; auto. destruct x; cbn; auto; discriminate. Qed.
  Lemma result_last_data l acc :
    result_of_last_init p acc (calls (rev l)) = if Nat.eqb (inits l) 0 then acc else last_data p l.
  Proof.
    induction l as [|x l IH]; auto. cbn [rev last_data]. rewrite calls_app, result_app, IH, inits_cons.
    cbn [calls map]. destruct (e_call x); cbn [is_init_process plus result_of_last_init]; auto.
  Qed.

  Lemma exit_callbacks_lemma : started p ->
    filter is_exit_callback (calls (history p pre mid body fin)) =
      match fin with
      | CallsMonitorExit _ => []
      | _ => [BeginExit EXIT_NORMAL;
              FiniProcess EXIT_NORMAL (result_of_last_init p 0 (calls (history p pre mid body fin)))] ++
             (if is_static (p_build p) then [] else [FiniLibrary])
      end.
  Proof.
    intros St. shape St. pose proof (hist_eq _ _ _ _ _ _ _ _ _ _ EQ) as HE.
    assert (D : result_of_last_init p 0 (calls (history p pre mid body fin)) = last_data p (S4 ++ S3 ++ S2 ++ S1)).
    { rewrite HE, calls_app. change (calls (mainev :: rev S4 ++ End)) with ([e_call mainev] ++ calls (rev S4 ++ End)).
      rewrite (calls_app (rev S4)), !result_app.
      rewrite (result_none _ (calls End)) by (rewrite CE; apply end_calls_ok; intros c X; destruct c; try discriminate X; auto).
      rewrite (result_none _ [e_call mainev]) by (rewrite Cmain; reflexivity).
      rewrite !calls_app, !result_app.
      rewrite (result_none _ (calls (rev W)))
        by (rewrite calls_rev, filter_rev, (W_calls W _ HW); auto).
      rewrite (result_none _ (calls (rev R)))
        by (rewrite calls_rev, filter_rev, (R_calls R S2 _ HR); auto).
      cbn [calls map]. rewrite (result_none _ [e_call atm]) by (rewrite Catm; reflexivity).
      rewrite (result_none _ [e_call smi]) by (rewrite Csmi; reflexivity).
      rewrite !result_last_data, !last_data_app.
      destruct (Nat.eqb (inits S4) 0), (Nat.eqb (inits S3) 0), (Nat.eqb (inits S2) 0); auto.
      destruct (Nat.eqb_spec (inits S1) 0) as [Z0|]; auto.
      clear - Z0. induction S1 as [|x l IH]; cbn; auto. rewrite inits_cons in Z0.
      destruct (e_call x); auto; discriminate Z0. }
    rewrite D, HE.
    assert (Hf : forall c, is_exit_callback c = true -> is_init_library c = false /\ is_init_process c = false)
      by (intros c X; destruct c; try discriminate X; auto).
    rewrite !calls_app. cbn [calls map]. fold (calls (rev S4 ++ End)). rewrite calls_app, !calls_rev.
    cbn [calls map]. rewrite Csmi, Catm, Cmain.
    change (map e_call) with calls. rewrite !filter_app, !filter_rev, CE.
    rewrite (filter_good _ _ _ _ _ _ S1 Hf F1), (filter_good _ _ _ _ _ _ S2 Hf F2),
      (filter_good _ _ _ _ _ _ S3 Hf F3), (R_calls R S2 _ HR), (W_calls W _ HW) by auto.
    cbn [rev app filter is_exit_callback].
    rewrite filter_app, filter_rev, (filter_good _ _ _ _ _ _ S4 Hf F4).
    unfold end_calls. destruct fin, (is_static (p_build p)); reflexivity.
  Qed.

  (** The argument of a statement about each event and the ones before it. *)
  Lemma landmarks_lemma : started p ->
    filter is_landmark (calls (history p pre mid body fin)) =
      [StartMainInit; AtMain; Main (p_main p) (p_argc p) (p_argv p) (p_envp p)].
  Proof.
    intros St.
    destruct (count_calls is_landmark St) as (d & ->); try (intros c X; destruct c; try discriminate X; auto; fail); auto.
    rewrite (end_calls_ok is_landmark d) by (intros c X; destruct c; try discriminate X; auto).
    reflexivity.
  Qed.

  Lemma libs_end End d : calls End = end_calls p fin d -> libs End = 0%nat /\ inits End = 0%nat.
  Proof.
    intros E. unfold libs, inits. rewrite E.
    rewrite !end_calls_ok by (intros c X; destruct c; try discriminate X; auto). auto.
  Qed.

  Lemma library_once_lemma : started p ->
    exists h1 ev h2, history p pre mid body fin = h1 ++ ev :: h2 /\ e_call ev = InitLibrary /\
      (forall x, In x (h1 ++ h2) -> e_call x <> InitLibrary) /\
      (forall x, In x h1 -> is_init_process (e_call x) = false).
  Proof.
    intros St. shape St.
    set (rest := S4 ++ mainev :: W ++ atm :: S3 ++ S2 ++ R ++ smi :: S1) in *.
    assert (HE : history p pre mid body fin = rev rest ++ End)
      by (unfold history; rewrite EQ, rev_app_distr, rev_involutive; reflexivity).
    clearbody rest. rewrite HE.
    assert (X : exists l1 ev l2, rest = l1 ++ ev :: l2 /\ e_call ev = InitLibrary).
    { clear - LB. induction rest as [|x l IH]; [discriminate LB|].
      destruct (is_init_library (e_call x)) eqn:P.
      - exists [], x, l. split; auto. destruct (e_call x); try discriminate P; auto.
      - rewrite libs_cons, P in LB. destruct (IH LB) as (l1 & ev & l2 & E & Q).
        exists (x :: l1), ev, l2. cbn. rewrite E. auto. }
    destruct X as (l1 & ev & l2 & E & Q). exists (rev l2), ev, (rev l1 ++ End).
    assert (LZ : libs l1 = 0%nat /\ libs l2 = 0%nat)
      by (rewrite E, libs_app, libs_cons, Q in LB; cbn in LB; clear - LB; lia).
    assert (NL : forall l, libs l = 0%nat -> forall x, In x l -> e_call x <> InitLibrary).
    { intros l Z0 x I Y. apply in_split in I. destruct I as (a & b & ->).
      rewrite libs_app, libs_cons, Y in Z0. cbn in Z0. clear - Z0. lia. }
    split; [rewrite E, rev_app_distr; cbn; rewrite <- !app_assoc; reflexivity|]. split; [exact Q|]. split.
    - intros x I. rewrite !in_app_iff, <- !in_rev in I. destruct LZ as (Z1 & Z2).
      destruct (libs_end _ _ CE) as (Z3 & _).
      destruct I as [I|[I|I]]; [apply (NL l2)|apply (NL l1)|apply (NL End)]; auto.
    - intros x I. apply in_rev in I. destruct (is_init_process (e_call x)) eqn:P; auto. exfalso.
      apply in_split in I. destruct I as (a & b & ->).
      specialize (LO (l1 ++ ev :: a) x b). rewrite <- app_assoc in LO. cbn in LO. specialize (LO E P).
      destruct LZ as (_ & Z2). rewrite libs_app, libs_cons in Z2. clear - LO Z2. lia.
  Qed.

  Lemma process_before_main_lemma : started p ->
    forall h1 ev h2, history p pre mid body fin = h1 ++ ev :: h2 -> e_call ev = AtMain ->
    exists x, In x h1 /\ is_init_process (e_call x) = true.
  Proof.
    intros St. 
    set (P := fun (ev : event) (l : list event) => e_call ev = AtMain -> exists x, In x l /\ is_init_process (e_call x) = true).
    assert (A : at_each P (g_log (run_program p pre mid body fin (start_g p)))).
    { shape St. rewrite EQ. unfold P.
      apply each_app.
      { intros x l' I Y. apply in_rev in I. apply (in_map e_call) in I. change (map e_call End) with (calls End) in I.
        rewrite CE, Y in I. exfalso. unfold end_calls in I.
        destruct fin, (is_static (p_build p)); cbn in I; intuition discriminate. }
      apply each_app.
      { intros x l' I Y. rewrite Forall_forall in F4. specialize (F4 x I). apply good_call in F4. now destruct F4 as (_ & _ & _ & _ & _ & N). }
      apply each_cons; [rewrite Cmain; discriminate|].
      apply each_app.
      { intros x l' I Y. exfalso. destruct (is_static (p_build p)).
        - destruct HW as (ev & a & -> & _ & C & _). destruct I as [<-|[]]. rewrite C in Y. discriminate Y.
        - subst W. destruct I. }
      apply each_cons.
      { intros _. destruct (has_init _ PI) as (l1 & x & l2 & E & Y). exists x. split; auto.
        assert (I : In x (S3 ++ S2 ++ S1)) by (rewrite E, in_app_iff; right; left; auto).
        rewrite !in_app_iff in *. cbn. tauto. }
      assert (G : forall m a v e l, Forall (good p m a v e) l -> forall x, In x l -> e_call x <> AtMain).
      { intros m a v e l F x I. rewrite Forall_forall in F. specialize (F x I). apply good_call in F. now destruct F as (_ & _ & _ & _ & _ & N). }
      apply each_app; [intros x l' I Y; destruct (G _ _ _ _ _ F3 x I Y)|].
      apply each_app; [intros x l' I Y; destruct (G _ _ _ _ _ F2 x I Y)|].
      apply each_app.
      { intros x l' I Y. exfalso. destruct (is_static (p_build p)).
        - destruct HR as (-> & _). destruct I.
        - destruct HR as (ev & -> & C & _). destruct I as [<-|[]]. rewrite C in Y. discriminate Y. }
      apply each_cons; [rewrite Csmi; discriminate|].
      rewrite <- (app_nil_r S1). apply each_app; [intros x l' I Y; destruct (G _ _ _ _ _ F1 x I Y)|apply each_nil]. }
    intros h1 ev h2 E Y. destruct (each_history P p pre mid body fin A h1 ev h2 E Y) as (x & I & Z0).
    exists x. split; auto. now apply in_rev.
  Qed.
  
  (** Main's address, at each call. *)
  Lemma addr_lemma : started p ->
    forall h1 ev h2, history p pre mid body fin = h1 ++ ev :: h2 ->
      (p_build p = Static \/ In StartMainInit (calls (h1 ++ [ev])) -> e_main ev = p_main p) /\
      (p_build p <> Static -> ~ In StartMainInit (calls (h1 ++ [ev])) -> e_main ev = 0).
  Proof.
    intros St.
    set (P := fun (ev : event) (l : list event) =>
      (p_build p = Static \/ In StartMainInit (calls (ev :: l)) -> e_main ev = p_main p) /\
      (p_build p <> Static -> ~ In StartMainInit (calls (ev :: l)) -> e_main ev = 0)).
    assert (A : at_each P (g_log (run_program p pre mid body fin (start_g p)))).
    { shape St. rewrite EQ. unfold P.
      assert (In1 : forall x l, In StartMainInit (calls (x :: l ++ smi :: S1))).
      { intros x l. right. change (map e_call) with calls. rewrite calls_app, in_app_iff. right. left. exact Csmi. }
      assert (Q : forall x l, e_main x = p_main p ->
         (p_build p = Static \/ In StartMainInit (calls (x :: l ++ smi :: S1)) -> e_main x = p_main p) /\
         (p_build p <> Static -> ~ In StartMainInit (calls (x :: l ++ smi :: S1)) -> e_main x = 0)).
      { intros x l E. split; auto. intros _ N. destruct (N (In1 x l)). }
      assert (G : forall a v e l, Forall (good p (p_main p) a v e) l -> forall x, In x l -> e_main x = p_main p).
      { intros a v e l F x I. rewrite Forall_forall in F. destruct (F x I) as (E & _). exact E. }
      assert (ASS : forall l a b c d e f, l ++ a ++ mainev :: b ++ atm :: c ++ d ++ e ++ smi :: f =
        (l ++ a ++ mainev :: b ++ atm :: c ++ d ++ e) ++ smi :: f)
        by (intros; flat).
      apply each_app.
      { intros x l' I. rewrite ASS. apply Q. apply in_rev in I. rewrite Forall_forall in FE. apply (FE x I). }
      apply each_app.
      { intros x l' I. replace (l' ++ mainev :: W ++ atm :: S3 ++ S2 ++ R ++ smi :: S1) with
          ((l' ++ mainev :: W ++ atm :: S3 ++ S2 ++ R) ++ smi :: S1) by flat.
        apply Q. eauto. }
      apply each_cons.
      { replace (W ++ atm :: S3 ++ S2 ++ R ++ smi :: S1) with ((W ++ atm :: S3 ++ S2 ++ R) ++ smi :: S1)
          by flat.
        apply Q. apply Smain. }
      apply each_app.
      { intros x l' I. replace (l' ++ atm :: S3 ++ S2 ++ R ++ smi :: S1) with ((l' ++ atm :: S3 ++ S2 ++ R) ++ smi :: S1)
          by flat.
        apply Q. destruct (is_static (p_build p)).
        - destruct HW as (ev & a & -> & C & _). destruct I as [<-|[]]. apply C.
        - subst W. destruct I. }
      apply each_cons.
      { replace (S3 ++ S2 ++ R ++ smi :: S1) with ((S3 ++ S2 ++ R) ++ smi :: S1)
          by flat.
        apply Q. apply Satm. }
      apply each_app.
      { intros x l' I. replace (l' ++ S2 ++ R ++ smi :: S1) with ((l' ++ S2 ++ R) ++ smi :: S1)
          by flat. apply Q. eauto. }
      apply each_app.
      { intros x l' I. replace (l' ++ R ++ smi :: S1) with ((l' ++ R) ++ smi :: S1)
          by flat. apply Q. eauto. }
      apply each_app.
      { intros x l' I. apply Q. destruct (is_static (p_build p)).
        - destruct HR as (-> & _). destruct I.
        - destruct HR as (ev & -> & _ & C). destruct I as [<-|[]]. exact C. }
      apply each_cons.
      { split; auto. intros _ N. destruct N. left. exact Csmi. }
      intros l1 ev l2 E. 
      assert (I : In ev S1) by (rewrite E, in_app_iff; right; left; auto).
      assert (N : ~ In StartMainInit (calls (ev :: l2))).
      { intros X. unfold calls in X. apply in_map_iff in X. destruct X as (y & Y & Iy).
        assert (IS : In y S1) by (rewrite E, in_app_iff; right; auto).
        rewrite Forall_forall in F1. specialize (F1 y IS). apply good_call in F1. now destruct F1 as (_ & _ & _ & _ & N & _). }
      rewrite Forall_forall in F1. specialize (F1 ev I). destruct F1 as (M & _).
      unfold first_main in M. split.
      - intros [X|X]; [rewrite X in M; exact M|destruct (N X)].
      - intros X _. destruct (p_build p); [destruct X; reflexivity|exact M|exact M]. }
    intros h1 ev h2 E. destruct (each_history P p pre mid body fin A h1 ev h2 E) as (X & Y). unfold P in *.
    assert (EQ : In StartMainInit (calls (h1 ++ [ev])) <-> In StartMainInit (calls (ev :: rev h1))).
    { unfold calls. rewrite !in_map_iff. split; intros (x & C & I); exists x; (split; [exact C|]).
      - rewrite in_app_iff in I. destruct I as [I|[I|[]]]; [right; now apply in_rev in I|left; auto].
      - rewrite in_app_iff. destruct I as [I|I]; [right; left; auto|left; now apply in_rev]. }
    rewrite EQ. auto.
  Qed.

  (** The arguments, once main has started. *)
  Lemma args_lemma : started p ->
    forall h1 ev h2, history p pre mid body fin = h1 ++ ev :: h2 ->
      In AtMain (calls (h1 ++ [ev])) ->
      exists a, e_args ev = (a, p_argv p, p_envp p) /\ (keeps_argc p -> a = p_argc p) /\
        (forall a' v d, e_call ev = InitProcess a' v d -> a' = a /\ v = p_argv p).
  Proof.
    intros St.
    set (Q := fun ev => exists a, e_args ev = (a, p_argv p, p_envp p) /\ (keeps_argc p -> a = p_argc p) /\
        (forall a' v d, e_call ev = InitProcess a' v d -> a' = a /\ v = p_argv p)).
    set (P := fun (ev : event) (l : list event) => In AtMain (calls (ev :: l)) -> Q ev).
    assert (A : at_each P (g_log (run_program p pre mid body fin (start_g p)))).
    { shape St. rewrite EQ. unfold P.
      assert (S : forall x, settled p x -> is_init_process (e_call x) = false -> Q x).
      { intros x (_ & a & E & Kp) N. exists a. repeat split; auto; rewrite H in N; discriminate N. }
      assert (G : forall x, good p (p_main p) (p_argc p) (p_argv p) (p_envp p) x -> Q x).
      { intros x (_ & a & E & Kp & C). exists a. split; [auto|split; [auto|]].
        intros a' v d X. destruct C as [C|(d' & C)]; rewrite C in X; [discriminate X|].
        injection X as -> -> _. auto. }
      apply each_app.
      { intros x l' I _. apply in_rev in I. rewrite Forall_forall in FE. apply S; [now apply FE|].
        apply (in_map e_call) in I. change (map e_call End) with (calls End) in I. rewrite CE in I.
        unfold end_calls in I. destruct fin, (is_static (p_build p)); cbn in I;
          repeat (destruct I as [I|I]; [rewrite <- I; reflexivity|]); destruct I. }
      apply each_app; [intros x l' I _; apply G; rewrite Forall_forall in F4; auto|].
      apply each_cons; [intros _; apply S; auto; rewrite Cmain; reflexivity|].
      apply each_app.
      { intros x l' I _. destruct (is_static (p_build p)).
        - destruct HW as (ev & a & -> & C & D & _). destruct I as [<-|[]]. apply S; auto. rewrite D. reflexivity.
        - subst W. destruct I. }
      apply each_cons; [intros _; apply S; auto; rewrite Catm; reflexivity|].
      (* before at_main there is no at_main *)
      assert (N : forall x, In x (S3 ++ S2 ++ R ++ smi :: S1) -> e_call x <> AtMain).
      { assert (GG : forall m a v e l, Forall (good p m a v e) l -> forall x, In x l -> e_call x <> AtMain).
        { intros m a v e l F x I. rewrite Forall_forall in F. specialize (F x I). apply good_call in F. now destruct F as (_ & _ & _ & _ & _ & N). }
        intros x I. rewrite !in_app_iff in I. destruct I as [I|[I|[I|[I|I]]]]; eauto.
        - destruct (is_static (p_build p)).
          + destruct HR as (-> & _). destruct I.
          + destruct HR as (ev & -> & C & _). destruct I as [<-|[]]. rewrite C. discriminate.
        - subst x. rewrite Csmi. discriminate. }
      intros l1 ev l2 E X. exfalso. unfold calls in X. apply in_map_iff in X. destruct X as (y & Y & I).
      apply (N y); auto. rewrite E, in_app_iff. right. exact I. }
    intros h1 ev h2 E I. apply (each_history P p pre mid body fin A h1 ev h2 E).
    unfold calls in *. rewrite in_map_iff in *. destruct I as (x & C & I). exists x. split; [exact C|].
    rewrite in_app_iff in I. destruct I as [I|[I|[]]]; [right; now apply in_rev in I|left; auto].
  Qed.

  (** The first init_process. *)
  Lemma first_init_lemma : started p -> no_early_entry pre mid ->
    exists h1 ev h2, history p pre mid body fin = h1 ++ ev :: h2 /\
      e_call ev = InitProcess (p_argc p) (p_argv p) 0 /\
      (forall x, In x h1 -> is_init_process (e_call x) = false).
  Proof.
    intros St NE.
    assert (Z0 : inits (g_log (started_real p pre mid)) = 0%nat).
    { assert (N1 : forall x, In x pre -> x = DoConstructor) by (intros; apply NE; rewrite in_app_iff; auto).
      assert (N2 : forall x, In x mid -> x = DoConstructor) by (intros; apply NE; rewrite in_app_iff; auto).
      unfold started_real.
      destruct (constructors_no_init p pre N1 _ _ _ _ _ (start_at p)) as (_ & Y1).
      destruct (acts_seg _ _ _ _ _ pre _ (start_at p)) as (A1 & _).
      set (g1 := do_acts p pre (start_g p)) in *. clearbody g1.
      change (inits (g_log (start_g p))) with 0%nat in Y1.
      destruct (p_build p) eqn:Bd; cbv zeta.
      - destruct (constructors_no_init p mid N2 _ _ _ _ _ A1) as (_ & Y2).
        destruct (acts_seg _ _ _ _ _ mid _ A1) as (A2 & _).
        destruct (normal_seg _ _ _ _ _ _ A2) as (_ & _ & E & _).
        cbn [emit set_main g_log]. rewrite inits_cons, E, Y2, Y1. reflexivity.
      - match goal with |- context[do_acts p mid ?g] => set (gm := g) end.
        assert (A2 : at_seg p (p_main p) 0 0 0 gm).
        { apply at_seg_emit; auto. apply at_seg_emit; auto.
          destruct A1 as (HJ & V & E & Kp & HL). unfold at_seg, J in *. rewrite Bd. cbn. auto. }
        destruct (constructors_no_init p mid N2 _ _ _ _ _ A2) as (_ & Y2). rewrite Y2.
        unfold gm. cbn [emit set_main g_log]. rewrite !inits_cons, Y1. reflexivity.
      - match goal with |- context[do_acts p mid ?g] => set (gm := g) end.
        assert (A2 : at_seg p (nth 1 (p_stinfo p) 0) 0 0 0 gm).
        { apply at_seg_emit; auto. apply at_seg_emit; auto.
          destruct A1 as (HJ & V & E & Kp & HL). unfold at_seg, J in *. rewrite Bd. cbn. auto. }
        destruct (constructors_no_init p mid N2 _ _ _ _ _ A2) as (_ & Y2). rewrite Y2.
        unfold gm. cbn [emit set_main g_log]. rewrite !inits_cons, Y1. reflexivity. }
    shape St. rewrite ES in Z0.
    assert (Z1 : (inits S2 + inits S1 = 0)%nat)
      by (rewrite !inits_app, inits_cons in Z0; clear - Z0; lia).
    destruct (FI Z1) as (ev & new & -> & C & NN).
    exists (rev (new ++ S2 ++ R ++ smi :: S1)), ev, ([atm] ++ rev W ++ mainev :: rev S4 ++ End).
    split; [|split; [exact C|]].
    - rewrite (hist_eq _ _ _ _ _ _ _ _ _ _ EQ).
      repeat (rewrite ?rev_app_distr; cbn [rev app]). flat.
    - intros x I. apply in_rev in I.
      destruct (is_init_process (e_call x)) eqn:P; auto. exfalso.
      assert (T : inits (new ++ S2 ++ R ++ smi :: S1) = 0%nat) by (rewrite inits_app, NN, Z0; reflexivity).
      apply in_split in I. destruct I as (a & b & E). rewrite E, inits_app, inits_cons, P in T. clear - T. lia.
  Qed.

  (** Which calls of the other two kinds there are. *)
  Lemma start_info_lemma : started p ->
    forall fn a v st, In (RealStartMain fn a v st) (calls (history p pre mid body fin)) ->
      a = p_argc p /\ v = p_argv p /\
      (p_build p = DynamicPPC -> length st = length (p_stinfo p) /\
         forall i, i <> 1%nat -> nth_error st i = nth_error (p_stinfo p) i).
  Proof.
    intros St fn a v st. shape St. rewrite (hist_eq _ _ _ _ _ _ _ _ _ _ EQ). intros I.
    assert (G : forall m a v e l x, Forall (good p m a v e) l -> In x l -> e_call x <> RealStartMain fn a v st /\
       forall b c s, e_call x <> RealStartMain fn b c s).
    { intros m a' v' e l x F Ix. rewrite Forall_forall in F. destruct (F x Ix) as (_ & a1 & _ & _ & [C|(d & C)]);
        rewrite C; split; intros; discriminate. }
    assert (E : exists x, e_call x = RealStartMain fn a v st /\ In x R).
    { unfold calls in I. apply in_map_iff in I. destruct I as (x & C & I). exists x. split; auto.
      rewrite !in_app_iff in I. cbn in I. rewrite ?in_app_iff, <- ?in_rev in I.
      assert (NE : forall l, calls l = end_calls p fin (last_data p (S4 ++ S3 ++ S2 ++ S1)) -> In x l -> False).
      { intros l E Ix. apply (in_map e_call) in Ix. change (map e_call l) with (calls l) in Ix. rewrite E, C in Ix.
        unfold end_calls in Ix. destruct fin, (is_static (p_build p)); cbn in Ix; intuition discriminate. }
      assert (NW : In x W -> False).
      { intros Iw. destruct (is_static (p_build p)).
        - destruct HW as (ev & a' & -> & _ & D & _). destruct Iw as [<-|[]]. rewrite D in C. discriminate C.
        - subst W. destruct Iw. }
      repeat match type of I with _ \/ _ => destruct I as [I|I] end; auto; try (exfalso; now auto); try contradiction;
        try (subst x; exfalso; congruence);
        try (exfalso; match goal with
             | F : Forall (good p _ _ _ _) ?l, J : In x ?l |- _ =>
                 destruct (G _ _ _ _ _ _ F J) as (_ & N); exact (N _ _ _ C) end); exfalso; eauto. }
    destruct E as (x & C & Ix). destruct (is_static (p_build p)) eqn:Bs.
    - destruct HR as (-> & _). destruct Ix.
    - destruct HR as (ev & -> & D & _). destruct Ix as [<-|[]]. rewrite D in C. injection C as _ <- <- <-.
      split; [reflexivity|split; [reflexivity|]]. intros B. rewrite B. cbn [is_ppc].
      unfold replace_second. destruct (p_stinfo p) as [|y [|z l]]; (split; [reflexivity|]); auto.
      intros [|[|i]] N; auto. destruct N. reflexivity.
  Qed.

  Lemma wrap_lemma : started p -> p_build p = Static ->
    exists a, filter (fun c => match c with WrapMain _ _ _ => true | _ => false end)
                (calls (history p pre mid body fin)) = [WrapMain a (p_argv p) (p_envp p)] /\
      (keeps_argc p -> a = p_argc p).
  Proof.
    intros St B. shape St. pose proof (hist_eq _ _ _ _ _ _ _ _ _ _ EQ) as HE. rewrite B in HW, HR. cbn in HW, HR.
    destruct HW as (ev & a & -> & _ & C & Kp). destruct HR as (-> & ->). exists a. split; auto.
    set (f := fun c => match c with WrapMain _ _ _ => true | _ => false end).
    assert (Hf : forall c, f c = true -> is_init_library c = false /\ is_init_process c = false)
      by (intros c X; destruct c; try discriminate X; auto).
    rewrite HE, !calls_app. cbn [calls map]. fold (calls (rev S4 ++ End)). rewrite calls_app, !calls_rev.
    cbn [rev app]. rewrite !filter_app, !filter_rev. cbn [calls map].
    change (map e_call) with calls. rewrite Csmi, Catm, Cmain, C, CE.
    cbn [rev app filter f]. rewrite !filter_app, filter_rev.
    rewrite (filter_good _ _ _ _ _ f S1 Hf F1), (filter_good _ _ _ _ _ f S3 Hf F3).
    cbn [rev app filter f]. rewrite filter_rev, (filter_good _ _ _ _ _ f S4 Hf F4).
    rewrite end_calls_ok by (intros c X; destruct c; try discriminate X; auto). reflexivity.
  Qed.
End Lemmas.
