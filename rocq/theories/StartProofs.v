(** Proofs about program start: the shape of every history. *)
From Verif Require Import StartSpec.

(** [new], newest first, consists of init_library and init_process calls made while
    main's address was [m] and the arguments ([argc a] if the client keeps it) [v] [e]. *)
Definition good (p : program) (m a v e : Z) (ev : event) : Prop :=
  e_main ev = m /\
  exists a', e_args ev = (a', v, e) /\ (keeps_argc p -> a' = a) /\
    (e_call ev = InitLibrary \/ exists d, e_call ev = InitProcess a' v d).

Definition J (p : program) (m : Z) (g : gstate) : Prop :=
  if is_static (p_build p)
  then m = p_main p /\ (g_normal g = true -> g_real_main g = m)
  else g_real_main g = m.

Definition libs (h : list event) : nat := length (filter is_init_library (calls h)).

(** init_library once, before every init_process; the once-flags are right.  The log
    is newest first. *)
Definition L (g : gstate) : Prop :=
  libs (g_log g) = (if g_lib g then 1 else 0)%nat /\
  (forall l1 ev l2, g_log g = l1 ++ ev :: l2 -> is_init_process (e_call ev) = true ->
     (0 < libs l2)%nat).

Definition seg (p : program) (m a v e : Z) (g g' : gstate) : Prop :=
  exists new, g_log g' = new ++ g_log g /\ Forall (good p m a v e) new /\
    g_mem g' = Nat.iter (inits new) (c_mem (p_client p)) (g_mem g) /\
    g_cookie g' = g_cookie g /\ g_win g' = g_win g.

(** The state between calls in one segment. *)
Definition at_seg (p : program) (m a v e : Z) (g : gstate) : Prop :=
  J p m g /\ g_argv g = v /\ g_envp g = e /\ (keeps_argc p -> g_argc g = a) /\ L g.

Lemma inits_app x y : inits (x ++ y) = (inits x + inits y)%nat.
Proof. unfold inits, calls. now rewrite map_app, filter_app, app_length. Qed.
Lemma libs_app x y : libs (x ++ y) = (libs x + libs y)%nat.
Proof. unfold libs, calls. now rewrite map_app, filter_app, app_length. Qed.

Lemma inits_cons x y : inits (x :: y) = ((if is_init_process (e_call x) then 1 else 0) + inits y)%nat.
Proof. unfold inits, calls. cbn. now destruct (is_init_process (e_call x)). Qed.
Lemma libs_cons x y : libs (x :: y) = ((if is_init_library (e_call x) then 1 else 0) + libs y)%nat.
Proof. unfold libs, calls. cbn. now destruct (is_init_library (e_call x)). Qed.

Lemma iter_plus {A} (f : A -> A) n m x : Nat.iter n f (Nat.iter m f x) = Nat.iter (n + m) f x.
Proof. induction n as [|n IH]; [reflexivity|]. exact (f_equal f IH). Qed.

Lemma seg_refl p m a v e g : seg p m a v e g g.
Proof. exists []. repeat split; auto. Qed.
Lemma seg_trans p m a v e g1 g2 g3 :
  seg p m a v e g1 g2 -> seg p m a v e g2 g3 -> seg p m a v e g1 g3.
Proof.
  intros (n1 & E1 & F1 & M1 & C1 & W1) (n2 & E2 & F2 & M2 & C2 & W2). exists (n2 ++ n1).
  rewrite E2, E1, app_assoc, M2, M1, inits_app, iter_plus, C2, W2.
  repeat split; auto. apply Forall_app; auto.
Qed.

(** Logging one more call keeps [L] if the once-flags follow. *)
Lemma L_emit g c : L g -> is_init_library c = false ->
  (is_init_process c = true -> g_lib g = true) -> L (emit c g).
Proof.
  intros (A & C) N I. split.
  - cbn [emit g_log g_lib]. rewrite libs_cons. cbn [e_call]. rewrite N. exact A.
  - cbn. intros l1 ev l2 E P. destruct l1 as [|x l1]; cbn in E; injection E as E1 E2.
    + subst. cbn in P. rewrite A, (I P). lia.
    + eapply C; eauto.
Qed.

Ltac same := cbn; repeat split; auto.

Lemma normal_seg p m a v e g :
  at_seg p m a v e g ->
  at_seg p m a v e (normal_init p g) /\ g_normal (normal_init p g) = true /\
  g_log (normal_init p g) = g_log g /\ g_mem (normal_init p g) = g_mem g /\
  g_cookie (normal_init p g) = g_cookie g /\ g_win (normal_init p g) = g_win g /\
  g_real_main (normal_init p g) = m /\ g_initp (normal_init p g) = g_initp g /\
  g_lib (normal_init p g) = g_lib g /\ g_argc (normal_init p g) = g_argc g /\
  g_data (normal_init p g) = g_data g.
Proof.
  intros (HJ & V & E & K & HL). unfold normal_init, at_seg, J in *.
  destruct (g_normal g) eqn:N.
  - destruct (is_static (p_build p)); [destruct HJ as (M1 & M2)|]; repeat split; auto; apply HL.
  - destruct (is_static (p_build p)); [destruct HJ as (M1 & M2)|]; same; apply HL.
Qed.

(** Entering the library, in either of the two ways. *)
Lemma library_seg p m a v e g :
  at_seg p m a v e g ->
  at_seg p m a v e (begin_library p g) /\ seg p m a v e g (begin_library p g) /\
  g_lib (begin_library p g) = true /\ g_initp (begin_library p g) = g_initp g /\
  inits (g_log (begin_library p g)) = inits (g_log g) /\
  g_argc (begin_library p g) = g_argc g /\
  (g_normal g = true -> g_normal (begin_library p g) = true /\ g_real_main (begin_library p g) = m) /\
  g_mem (begin_library p g) = g_mem g.
Proof.
  intros H. pose proof H as (HJ & V & E & K & HL). unfold begin_library.
  destruct (g_lib g) eqn:B.
  - repeat split; auto; try apply seg_refl; try apply HL.
    unfold J in HJ. destruct (is_static (p_build p)); [apply HJ|]; auto.
  - assert (NL : libs (g_log g) = 0%nat) by (destruct HL as (X & _); rewrite B in X; exact X).
    (* [set_lib] breaks [L] until the call is logged, so go through the pieces *)
    set (g1 := normal_init p (set_lib g)).
    assert (Q : g_log g1 = g_log g /\ g_mem g1 = g_mem g /\ g_cookie g1 = g_cookie g /\
                g_win g1 = g_win g /\ g_real_main g1 = m /\ g_initp g1 = g_initp g /\ g_lib g1 = true /\
                g_argc g1 = g_argc g /\ g_argv g1 = v /\ g_envp g1 = e /\ g_normal g1 = true /\
                J p m g1).
    { unfold g1, normal_init, J in *. cbn.
      destruct (g_normal g) eqn:N; destruct (is_static (p_build p)); cbn; try destruct HJ as (M1 & M2);
        repeat split; auto. }
    destruct Q as (Q1 & Q2 & Q3 & Q4 & Q5 & Q6 & Q7 & Q8 & Q9 & Q10 & Q11 & Q12).
    clearbody g1. destruct HL as (HA & HC).
    assert (NI : inits (g_log g) = 0%nat).
    { destruct (inits (g_log g)) eqn:I; auto. exfalso.
      assert (X : exists l1 ev l2, g_log g = l1 ++ ev :: l2 /\ is_init_process (e_call ev) = true).
      { clear - I. induction (g_log g) as [|x l IH]; [discriminate I|].
        destruct (is_init_process (e_call x)) eqn:P.
        - exists [], x, l. auto.
        - rewrite inits_cons, P in I. destruct (IH I) as (l1 & ev & l2 & E & Q).
          exists (x :: l1), ev, l2. cbn. rewrite E. auto. }
      destruct X as (l1 & ev & l2 & E1 & P). specialize (HC _ _ _ E1 P).
      rewrite E1 in NL. change (l1 ++ ev :: l2) with (l1 ++ [ev] ++ l2) in NL. rewrite !libs_app in NL. clear - HC NL. lia. }
    assert (Ev : inits (g_log (emit InitLibrary g1)) = inits (g_log g))
      by (cbn [emit g_log]; rewrite Q1; apply inits_cons).
    assert (HS : seg p m a v e g (emit InitLibrary g1)).
    { exists [mkevent InitLibrary (g_real_main g1) (g_argc g1, g_argv g1, g_envp g1) (g_mem g1)].
      cbn. rewrite Q1, Q2, Q3, Q4. repeat split; auto. constructor; [|constructor].
      split; cbn; auto. exists (g_argc g1). rewrite Q9, Q10. repeat split; auto. rewrite Q8. auto. }
    split; [|split; [exact HS|]].
    + unfold at_seg, J in *. split; [cbn; auto|split; [cbn; auto|split; [cbn; auto|split]]].
      * cbn. intros X. rewrite Q8. auto.
      * split.
        -- cbn [emit g_log g_lib]. rewrite Q7, Q1, libs_cons, NL. reflexivity.
        -- cbn. rewrite Q1. intros l1 ev l2 E1 P. destruct l1 as [|x l1]; cbn in E1; injection E1 as E1 E2.
           ++ subst ev. discriminate P.
           ++ exfalso. rewrite E2, inits_app, inits_cons, P in NI. clear - NI. lia.
    + repeat apply conj; auto.
Qed.

Lemma init_process_seg p m a v e d g :
  at_seg p m a v e g -> g_lib g = true -> g_real_main g = m ->
  at_seg p m a v e (call_init_process p d g) /\ seg p m a v e g (call_init_process p d g).
Proof.
  intros (HJ & V & E & K & HL) B M. split.
  - unfold at_seg, J in *. cbn. split; [exact HJ|split; [exact V|split; [exact E|split]]].
    + intros X. rewrite X. auto.
    + apply L_emit with (c := InitProcess (g_argc g) (g_argv g) d) in HL; auto.
  - exists [mkevent (InitProcess (g_argc g) (g_argv g) d) (g_real_main g) (g_argc g, g_argv g, g_envp g) (g_mem g)].
    cbn. repeat split; auto. constructor; [|constructor]. split; auto.
    exists (g_argc g). cbn. rewrite V, E. repeat split; auto. right. exists d. reflexivity.
Qed.

(** Fields that [at_seg] does not look at. *)
Lemma at_seg_flags p m a v e g x y d b : at_seg p m a v e g ->
  at_seg p m a v e
    (mkg (g_argc g) (g_argv g) (g_envp g) (g_real_main g) (g_normal g) (g_lib g) b x (g_cookie g) y d
       (g_mem g) (g_log g)).
Proof. intros H. exact H. Qed.

(** The state in which begin_process enters the library. *)
Definition entering (p : program) (d : Z) (f : bool) (g : gstate) : gstate :=
  let g := set_initp (normal_init p g) in
  set_libdone false (if f then set_data d g else g).

Lemma begin_eq p d f g : begin_process p d f g =
  if negb f && g_initp (normal_init p g) then set_initp (normal_init p g)
  else call_init_process p d (begin_library p (entering p d f g)).
Proof. unfold begin_process, entering. destruct f; cbn [negb andb]; reflexivity. Qed.

Lemma begin_seg p m a v e d f g :
  at_seg p m a v e g ->
  at_seg p m a v e (begin_process p d f g) /\ seg p m a v e g (begin_process p d f g) /\
  g_initp (begin_process p d f g) = true /\ g_real_main (begin_process p d f g) = m /\
  (f || negb (g_initp g) = true ->
     exists new ev, g_log (begin_process p d f g) = ev :: new ++ g_log g /\
       e_call ev = InitProcess (g_argc g) v d /\ inits new = 0%nat /\
       g_data (begin_process p d f g) = c_data (p_client p) d) /\
  (f || negb (g_initp g) = false -> g_log (begin_process p d f g) = g_log g /\
       g_data (begin_process p d f g) = g_data g).
Proof.
  intros H. destruct (normal_seg _ _ _ _ _ _ H) as (H1 & N1 & N2 & N3 & N4 & N5 & N6 & N7 & N8 & N9 & N10).
  rewrite begin_eq, N7.
  assert (D : negb f && g_initp g = negb (f || negb (g_initp g)))
    by (destruct f, (g_initp g); reflexivity).
  rewrite D. destruct (f || negb (g_initp g)); cbn [negb].
  2: { split; [exact H1|split; [|split; [reflexivity|split; [exact N6|split; [discriminate|]]]]].
       - exists []. cbn. repeat split; auto.
       - intros _. split; auto. }
  assert (A : at_seg p m a v e (entering p d f g) /\ g_normal (entering p d f g) = true /\
    g_log (entering p d f g) = g_log g /\ g_mem (entering p d f g) = g_mem g /\
    g_cookie (entering p d f g) = g_cookie g /\ g_win (entering p d f g) = g_win g /\
    g_argc (entering p d f g) = g_argc g /\ g_initp (entering p d f g) = true).
  { unfold entering. destruct f; cbn; (split; [exact H1|]); auto 10. }
  set (w := entering p d f g) in *. clearbody w.
  destruct A as (A1 & A2 & A3 & A4 & A5 & A6 & A7 & A8).
  destruct (library_seg _ _ _ _ _ _ A1) as (S1 & S2 & S3 & S4 & S5 & S6 & S7 & S8).
  destruct (S7 A2) as (S9 & S10).
  destruct (init_process_seg p m a v e d _ S1 S3 S10) as (T1 & T2).
  set (w2 := begin_library p w) in *. clearbody w2.
  split; [exact T1|split; [|split; [|split; [|split; [|discriminate]]]]].
  - assert (X : seg p m a v e w (call_init_process p d w2)) by (eapply seg_trans; eauto).
    destruct X as (new & X1 & X2 & X3 & X4 & X5). exists new.
    rewrite X1, X3, X4, X5, A3, A4, A5, A6. auto.
  - cbn. congruence.
  - exact S10.
  - intros _. destruct S2 as (new & X1 & X2 & X3 & X4 & X5).
    exists new. eexists. cbn. rewrite X1, A3. split; [reflexivity|].
    cbn. rewrite S6, A7. destruct S1 as (_ & V & _). rewrite V.
    split; [reflexivity|split; [|reflexivity]].
    rewrite X1, inits_app, A3 in S5. clear - S5. lia.
Qed.

Lemma act_seg p m a v e g x : at_seg p m a v e g ->
  at_seg p m a v e (do_act p g x) /\ seg p m a v e g (do_act p g x).
Proof.
  intros H. destruct x; cbn.
  - destruct (is_static (p_build p)); [split; auto; apply seg_refl|].
    destruct (library_seg _ _ _ _ _ _ H) as (A & B & _). auto.
  - destruct (begin_seg _ _ _ _ _ 0 false _ H) as (A & B & _). auto.
  - destruct (begin_seg _ _ _ _ _ d true _ H) as (A & B & _). auto.
Qed.

Lemma acts_seg p m a v e l : forall g, at_seg p m a v e g ->
  at_seg p m a v e (do_acts p l g) /\ seg p m a v e g (do_acts p l g).
Proof.
  induction l as [|x l IH]; intros g H; cbn.
  - split; auto. apply seg_refl.
  - destruct (act_seg _ _ _ _ _ _ x H) as (A & B). destruct (IH _ A) as (C & D).
    split; auto. eapply seg_trans; eauto.
Qed.

Lemma constructors_no_init p l : (forall x, In x l -> x = DoConstructor) ->
  forall m a v e g, at_seg p m a v e g ->
  g_initp (do_acts p l g) = g_initp g /\ inits (g_log (do_acts p l g)) = inits (g_log g).
Proof.
  induction l as [|x l IH]; intros N m a v e g H; cbn; auto.
  rewrite (N x (or_introl eq_refl)). cbn.
  destruct (is_static (p_build p)).
  - eapply IH; eauto. intros; apply N; now right.
  - destruct (library_seg _ _ _ _ _ _ H) as (A & B & C & D & E & _).
    destruct (IH (fun y Hy => N y (or_intror Hy)) _ _ _ _ _ A) as (X & Y). unfold do_acts in X, Y. now rewrite X, Y, D, E.
Qed.

(** Once the process was begun, init_process has been called. *)
Definition begun (g : gstate) : Prop := g_initp g = true -> (0 < inits (g_log g))%nat.

Lemma begun_begin p m a v e d f g : at_seg p m a v e g -> begun g -> begun (begin_process p d f g).
Proof.
  intros H B _. destruct (begin_seg _ _ _ _ _ d f _ H) as (_ & _ & _ & _ & X & Y).
  destruct (f || negb (g_initp g)) eqn:C.
  - destruct (X eq_refl) as (new & ev & E & F & _). rewrite E, inits_cons, F. cbn. lia.
  - destruct (Y eq_refl) as (E & _). rewrite E. apply B. destruct f, (g_initp g); try discriminate; auto.
Qed.
Lemma begun_acts p m a v e l : forall g, at_seg p m a v e g -> begun g -> begun (do_acts p l g).
Proof.
  induction l as [|x l IH]; intros g H B; cbn; auto.
  apply IH; [now apply act_seg|]. destruct x; cbn [do_act].
  - destruct (is_static (p_build p)); auto.
    destruct (library_seg _ _ _ _ _ _ H) as (_ & _ & _ & C & D & _).
    unfold begun. rewrite C, D. exact B.
  - eapply begun_begin; eauto.
  - eapply begun_begin; eauto.
Qed.

(** The shape of the start: newest first,
    [S2 ++ real ++ StartMainInit :: S1] with two segments. *)
Definition zeros (p : program) (g : gstate) : Prop := g_argv g = 0 /\ g_envp g = 0.

Definition first_main (p : program) : Z := if is_static (p_build p) then p_main p else 0.

Lemma start_at p : at_seg p (first_main p) 0 0 0 (start_g p).
Proof.
  unfold at_seg, J, first_main, start_g. destruct (is_static (p_build p)); cbn;
    (split; [auto; split; auto; discriminate|split; [auto|split; [auto|split; [auto|]]]]);
    (split; [reflexivity|]); intros [|x l1] ev l2 E; discriminate E.
Qed.

Lemma at_seg_emit p m a v e g c : at_seg p m a v e g -> is_init_library c = false ->
  is_init_process c = false -> at_seg p m a v e (emit c g).
Proof.
  intros (HJ & V & E & K & HL) A B. unfold at_seg, J in *. cbn.
  split; [auto|split; [auto|split; [auto|split; [auto|]]]].
  apply L_emit; auto. rewrite B. discriminate.
Qed.

(** The system's start function: from the state after [pre] to monitor_main's entry. *)
Definition started_real (p : program) (pre mid : list act) : gstate :=
  let g := do_acts p pre (start_g p) in
  match p_build p with
  | Static =>
      emit StartMainInit (set_main (p_main p) (normal_init p (do_acts p mid g)))
  | _ =>
      let m := if is_ppc (p_build p) then nth 1 (p_stinfo p) 0 else p_main p in
      let st := if is_ppc (p_build p) then replace_second MONITOR_MAIN (p_stinfo p) else [] in
      do_acts p mid (emit (RealStartMain MONITOR_MAIN (p_argc p) (p_argv p) st)
                       (emit StartMainInit (set_main m g)))
  end.

Lemma run_eq p pre mid body fin :
  run_program p pre mid body fin (start_g p) =
  monitor_main p (p_argc p) (p_argv p) (p_envp p) body fin (started_real p pre mid).
Proof. unfold run_program, started_real. destruct (p_build p); reflexivity. Qed.

(** What [started_real] has logged. *)
Definition real_start_call (p : program) (c : call) : Prop :=
  c = RealStartMain MONITOR_MAIN (p_argc p) (p_argv p)
        (if is_ppc (p_build p) then replace_second MONITOR_MAIN (p_stinfo p) else []).

Lemma started_shape p pre mid : started p ->
  exists S1 smi R S2,
    g_log (started_real p pre mid) = S2 ++ R ++ smi :: S1 /\
    Forall (good p (first_main p) 0 0 0) S1 /\
    e_call smi = StartMainInit /\ e_main smi = p_main p /\
    (if is_static (p_build p) then R = [] /\ S2 = []
     else exists ev, R = [ev] /\ real_start_call p (e_call ev) /\ e_main ev = p_main p) /\
    Forall (good p (p_main p) 0 0 0) S2 /\
    g_mem (started_real p pre mid) =
      Nat.iter (inits (g_log (started_real p pre mid))) (c_mem (p_client p)) (p_mem p) /\
    at_seg p (p_main p) 0 0 0 (started_real p pre mid) /\ begun (started_real p pre mid) /\
    g_cookie (started_real p pre mid) = false.
Proof.
  intros St. unfold started_real.
  assert (B0 : begun (start_g p)) by (intros X; discriminate X).
  destruct (acts_seg _ _ _ _ _ pre _ (start_at p)) as (A1 & (n1 & E1 & F1 & M1 & C1 & W1)).
  pose proof (begun_acts _ _ _ _ _ pre _ (start_at p) B0) as B1.
  set (g1 := do_acts p pre (start_g p)) in *. clearbody g1. cbn in E1, M1, C1. rewrite app_nil_r in E1.
  destruct (p_build p) eqn:Bd; cbn [is_ppc].
  - assert (FM : first_main p = p_main p) by (unfold first_main; rewrite Bd; reflexivity).
    rewrite FM in *.
    destruct (acts_seg _ _ _ _ _ mid _ A1) as (A2 & (n2 & E2 & F2 & M2 & C2 & W2)).
    pose proof (begun_acts _ _ _ _ _ mid _ A1 B1) as B2.
    destruct (normal_seg _ _ _ _ _ _ A2) as (H1 & N1 & N2 & N3 & N4 & N5 & N6 & N7 & N8 & N9 & N10).
    set (g2 := do_acts p mid g1) in *. clearbody g2. set (g3 := normal_init p g2) in *. clearbody g3.
    assert (A3 : at_seg p (p_main p) 0 0 0 (emit StartMainInit (set_main (p_main p) g3))).
    { apply at_seg_emit; auto. destruct H1 as (HJ & V & E & K & HL). unfold at_seg, J in *. rewrite Bd. cbn.
      split; auto. }
    eexists (n2 ++ n1), _, [], []. split; [cbn; rewrite N2, E2, E1; reflexivity|].
    split; [apply Forall_app; auto|]. split; [reflexivity|split; [reflexivity|]].
    cbn [is_static]. split; [auto|split; [constructor|]].
    split; [|split; [exact A3|split]].
    + cbn [emit set_main g_mem g_log]. rewrite inits_cons. cbn [e_call is_init_process plus]. rewrite N3, N2, M2, M1, E2, E1, inits_app, iter_plus.
      reflexivity.
    + intros X. cbn [emit set_main g_log]. rewrite inits_cons. cbn [e_call is_init_process plus]. rewrite N2. apply B2. rewrite <- N7. exact X.
    + cbn. rewrite N4, C2. exact C1.
  - assert (A2 : at_seg p (p_main p) 0 0 0 (emit (RealStartMain MONITOR_MAIN (p_argc p) (p_argv p) [])
                       (emit StartMainInit (set_main (p_main p) g1)))).
    { apply at_seg_emit; auto. apply at_seg_emit; auto.
      destruct A1 as (HJ & V & E & K & HL). unfold at_seg, J in *. rewrite Bd. cbn. auto. }
    set (gm := emit (RealStartMain MONITOR_MAIN (p_argc p) (p_argv p) []) (emit StartMainInit (set_main (p_main p) g1))) in *.
    assert (B2 : begun gm) by (intros X; unfold gm; cbn [emit g_log]; rewrite !inits_cons; cbn; apply B1; exact X).
    destruct (acts_seg _ _ _ _ _ mid _ A2) as (A3 & (n2 & E2 & F2 & M2 & C2 & W2)).
    pose proof (begun_acts _ _ _ _ _ mid _ A2 B2) as B3.
    eexists n1, _, [_], n2. split; [rewrite E2; unfold gm; cbn; rewrite E1; reflexivity|].
    split; [exact F1|split; [reflexivity|split; [reflexivity|]]].
    cbn [is_static]. split; [eexists; split; [reflexivity|split; [unfold real_start_call; rewrite Bd; reflexivity|reflexivity]]|].
    split; [exact F2|split; [|split; [exact A3|split; [exact B3|]]]].
    + rewrite M2, E2, inits_app. unfold gm. cbn [emit set_main g_mem g_log]. rewrite !inits_cons. cbn [e_call is_init_process].
      rewrite M1, E1, iter_plus. reflexivity.
    + rewrite C2. exact C1.
  - assert (SM : nth 1 (p_stinfo p) 0 = p_main p).
    { specialize (St Bd). now apply nth_error_nth with (d := 0) in St. }
    rewrite SM.
    set (st := replace_second MONITOR_MAIN (p_stinfo p)).
    assert (A2 : at_seg p (p_main p) 0 0 0 (emit (RealStartMain MONITOR_MAIN (p_argc p) (p_argv p) st)
                       (emit StartMainInit (set_main (p_main p) g1)))).
    { apply at_seg_emit; auto. apply at_seg_emit; auto.
      destruct A1 as (HJ & V & E & K & HL). unfold at_seg, J in *. rewrite Bd. cbn. auto. }
    set (gm := emit (RealStartMain MONITOR_MAIN (p_argc p) (p_argv p) st) (emit StartMainInit (set_main (p_main p) g1))) in *.
    assert (B2 : begun gm) by (intros X; unfold gm; cbn [emit g_log]; rewrite !inits_cons; cbn; apply B1; exact X).
    destruct (acts_seg _ _ _ _ _ mid _ A2) as (A3 & (n2 & E2 & F2 & M2 & C2 & W2)).
    pose proof (begun_acts _ _ _ _ _ mid _ A2 B2) as B3.
    eexists n1, _, [_], n2. split; [rewrite E2; unfold gm; cbn; rewrite E1; reflexivity|].
    split; [exact F1|split; [reflexivity|split; [reflexivity|]]].
    cbn [is_static]. split; [eexists; split; [reflexivity|split; [unfold real_start_call; rewrite Bd; reflexivity|reflexivity]]|].
    split; [exact F2|split; [|split; [exact A3|split; [exact B3|]]]].
    + rewrite M2, E2, inits_app. unfold gm. cbn [emit set_main g_mem g_log]. rewrite !inits_cons. cbn [e_call is_init_process].
      rewrite M1, E1, iter_plus. reflexivity.
    + rewrite C2. exact C1.
Qed.

(** fini_library has not run before the end, and the data kept for fini_process is
    what the last init_process returned. *)
Fixpoint last_data (p : program) (l : list event) : Z :=
  match l with
  | [] => 0
  | ev :: r => match e_call ev with InitProcess _ _ d => c_data (p_client p) d | _ => last_data p r end
  end.
Definition K (p : program) (g : gstate) : Prop :=
  g_libdone g = false /\ g_data g = last_data p (g_log g).

Lemma K_emit p g c : K p g -> is_init_process c = false -> K p (emit c g).
Proof. intros (A & B) N. split; cbn; auto. destruct c; try discriminate N; exact B. Qed.
Lemma K_library p g : K p g -> K p (begin_library p g).
Proof.
  intros (A & B). unfold begin_library. destruct (g_lib g); [split; auto|].
  apply K_emit; auto. unfold normal_init. cbn.
  destruct (g_normal g); [split; auto|]. destruct (is_static (p_build p)); split; auto.
Qed.
Lemma K_normal p g : K p g -> K p (normal_init p g).
Proof.
  intros (A & B). unfold normal_init.
  destruct (g_normal g); [split; auto|]. destruct (is_static (p_build p)); split; auto.
Qed.
Lemma K_begin p d f g : K p g -> K p (begin_process p d f g).
Proof.
  intros H. rewrite begin_eq. destruct (negb f && g_initp (normal_init p g)).
  - apply K_normal in H. exact H.
  - set (w := begin_library p (entering p d f g)).
    assert (E : g_libdone w = false).
    { unfold w, begin_library, entering. 
      destruct f; cbn; destruct (g_lib (normal_init p g)); cbn; auto;
        unfold normal_init; cbn; repeat match goal with |- context[if ?x then _ else _] => destruct x; cbn end; auto. }
    split; cbn; auto.
Qed.
Lemma K_acts p l : forall g, K p g -> K p (do_acts p l g).
Proof.
  induction l as [|x l IH]; intros g H; cbn; auto. apply IH.
  destruct x; cbn [do_act]; [destruct (is_static (p_build p)); auto using K_library| |]; apply K_begin; auto.
Qed.
Lemma K_started p pre mid : K p (started_real p pre mid).
Proof.
  unfold started_real. assert (H : K p (start_g p)) by (split; reflexivity).
  apply (K_acts p pre) in H. set (g := do_acts p pre (start_g p)) in *. clearbody g.
  assert (E : forall m, K p (emit StartMainInit (set_main m g))) by (intros; apply K_emit; auto).
  destruct (p_build p).
  - apply K_emit; auto. apply (K_acts p mid) in H. apply K_normal in H. exact H.
  - apply K_acts. apply K_emit; auto.
  - apply K_acts. apply K_emit; auto.
Qed.

Definition mainev0 : event := mkevent InitLibrary 0 (0, 0, 0) (fun _ => 0).

Lemma has_init l : (0 < inits l)%nat ->
  exists l1 ev l2, l = l1 ++ ev :: l2 /\ is_init_process (e_call ev) = true.
Proof.
  induction l as [|x l IH]; intros I; [inversion I|].
  destruct (is_init_process (e_call x)) eqn:P.
  - exists [], x, l. auto.
  - rewrite inits_cons, P in I. destruct (IH I) as (l1 & ev & l2 & E & Q).
    exists (x :: l1), ev, l2. cbn. rewrite E. auto.
Qed.

(** What the end of the process looks like (oldest first). *)
Definition end_calls (p : program) (fin : ending) (d : Z) : list call :=
  match fin with
  | Returns x | CallsExit x =>
      [BeginExit EXIT_NORMAL; FiniProcess EXIT_NORMAL d; RealExit x] ++
      (if is_static (p_build p) then [] else [FiniLibrary])
  | CallsUExit x =>
      [BeginExit EXIT_NORMAL; FiniProcess EXIT_NORMAL d] ++
      (if is_static (p_build p) then [] else [FiniLibrary]) ++ [RealUExit x]
  | CallsMonitorExit x => [RealUExit x]
  end.

(** Main's address and the arguments as they are once main has started. *)
Definition settled (p : program) (ev : event) : Prop :=
  e_main ev = p_main p /\ exists a, e_args ev = (a, p_argv p, p_envp p) /\ (keeps_argc p -> a = p_argc p).

Lemma settled_emit p g c : at_seg p (p_main p) (p_argc p) (p_argv p) (p_envp p) g ->
  g_real_main g = p_main p -> 
  settled p (mkevent c (g_real_main g) (g_argc g, g_argv g, g_envp g) (g_mem g)).
Proof.
  intros (HJ & V & E & Kp & HL) M. split; cbn; auto. rewrite V, E. eauto.
Qed.

Lemma ending_shape p fin g :
  at_seg p (p_main p) (p_argc p) (p_argv p) (p_envp p) g -> g_real_main g = p_main p ->
  g_cookie g = false -> K p g ->
  exists End,
    g_log (match fin with
           | Returns x => real_exit p x (end_process EXIT_NORMAL g)
           | CallsExit x => do_exit p x g
           | CallsUExit x => do_uexit p x g
           | CallsMonitorExit x => do_monitor_exit p x g
           end) = rev End ++ g_log g /\
    calls End = end_calls p fin (last_data p (g_log g)) /\ Forall (settled p) End.
Proof.
  intros H M C (LD & DT).
  destruct (normal_seg _ _ _ _ _ _ H) as (H1 & N1 & N2 & N3 & N4 & N5 & N6 & N7 & N8 & N9 & N10).
  assert (LN : g_libdone (normal_init p g) = false)
    by (unfold normal_init; destruct (g_normal g); auto; destruct (is_static (p_build p)); auto).
  pose proof (fun c => settled_emit p g c H M) as SE.
  pose proof (fun c => settled_emit p _ c H1 N6) as SE1.
  set (ev c := mkevent c (g_real_main g) (g_argc g, g_argv g, g_envp g) (g_mem g)).
  set (ev1 c := mkevent c (g_real_main (normal_init p g)) (g_argc (normal_init p g), g_argv (normal_init p g), g_envp (normal_init p g)) (g_mem (normal_init p g))).
  destruct fin as [x|x|x|x].
  - exists (map ev (end_calls p (Returns x) (last_data p (g_log g)))).
    unfold real_exit, end_process, end_library, end_calls. rewrite C, <- DT. cbn.
    destruct (is_static (p_build p)); cbn; [|rewrite LD; cbn];
      (split; [reflexivity|split; [reflexivity|]]); repeat constructor; apply SE.
  - exists (map ev1 (end_calls p (CallsExit x) (last_data p (g_log g)))).
    unfold do_exit, real_exit, end_process, end_library, end_calls. rewrite N4, C, <- DT, <- N10. cbn.
    destruct (is_static (p_build p)); cbn; [|rewrite LN; cbn]; rewrite N2;
      (split; [reflexivity|split; [reflexivity|]]); repeat constructor; apply SE1.
  - exists (map ev1 (end_calls p (CallsUExit x) (last_data p (g_log g)))).
    unfold do_uexit, end_process, end_library, end_calls. rewrite N4, C, <- DT, <- N10. cbn.
    destruct (is_static (p_build p)); cbn; [|rewrite LN; cbn]; rewrite N2;
      (split; [reflexivity|split; [reflexivity|]]); repeat constructor; apply SE1.
  - exists [ev1 (RealUExit x)]. unfold do_monitor_exit. cbn. rewrite N2.
    split; [reflexivity|split; [reflexivity|]]. repeat constructor; apply SE1.
Qed.

(** The shape of a whole run: newest first. *)
Lemma run_shape p pre mid body fin : started p ->
  exists S1 smi R S2 S3 atm W mainev S4 End,
    g_log (run_program p pre mid body fin (start_g p)) =
      rev End ++ S4 ++ mainev :: W ++ atm :: S3 ++ S2 ++ R ++ smi :: S1 /\
    g_log (started_real p pre mid) = S2 ++ R ++ smi :: S1 /\
    Forall (good p (first_main p) 0 0 0) S1 /\
    e_call smi = StartMainInit /\ e_main smi = p_main p /\
    (if is_static (p_build p) then R = [] /\ S2 = []
     else exists ev, R = [ev] /\ real_start_call p (e_call ev) /\ e_main ev = p_main p) /\
    Forall (good p (p_main p) 0 0 0) S2 /\
    Forall (good p (p_main p) (p_argc p) (p_argv p) (p_envp p)) S3 /\
    (0 < inits (S3 ++ S2 ++ S1))%nat /\
    (inits S2 + inits S1 = 0 -> exists ev new, S3 = ev :: new /\
        e_call ev = InitProcess (p_argc p) (p_argv p) 0 /\ inits new = 0)%nat /\
    e_call atm = AtMain /\ settled p atm /\
    (if is_static (p_build p)
     then exists ev a, W = [ev] /\ settled p ev /\ e_call ev = WrapMain a (p_argv p) (p_envp p) /\ (keeps_argc p -> a = p_argc p)
     else W = []) /\
    e_call mainev = Main (p_main p) (p_argc p) (p_argv p) (p_envp p) /\ settled p mainev /\
    e_mem mainev = Nat.iter (inits (S3 ++ S2 ++ S1)) (c_mem (p_client p)) (p_mem p) /\
    Forall (good p (p_main p) (p_argc p) (p_argv p) (p_envp p)) S4 /\
    calls End = end_calls p fin (last_data p (S4 ++ S3 ++ S2 ++ S1)) /\ Forall (settled p) End /\
    (let rest := S4 ++ mainev :: W ++ atm :: S3 ++ S2 ++ R ++ smi :: S1 in
     libs rest = 1%nat /\
     forall l1 ev l2, rest = l1 ++ ev :: l2 -> is_init_process (e_call ev) = true -> (0 < libs l2)%nat).
Proof.
  intros St. rewrite !run_eq.
  destruct (started_shape p pre mid St) as (S1 & smi & R & S2 & E0 & F1 & C1 & M1 & HR & F2 & Mem & A0 & B0 & Ck).
  pose proof (K_started p pre mid) as K0.
  set (g0 := started_real p pre mid) in *. clearbody g0.
  unfold monitor_main. cbv zeta.
  destruct (normal_seg _ _ _ _ _ _ A0) as (H1 & N1 & N2 & N3 & N4 & N5 & N6 & N7 & N8 & N9 & N10).
  apply K_normal in K0.
  set (gn := normal_init p g0) in *. clearbody gn.
  set (g1 := set_args (p_argc p) (p_argv p) (p_envp p) gn).
  assert (A1 : at_seg p (p_main p) (p_argc p) (p_argv p) (p_envp p) g1).
  { destruct H1 as (HJ & V & E & Kp & HL). unfold at_seg, J in *. cbn. auto. }
  assert (B1 : begun g1) by (intros X; cbn; rewrite N2; apply B0; rewrite <- N7; exact X).
  assert (K1 : K p g1) by exact K0.
  destruct (begin_seg _ _ _ _ _ 0 false _ A1) as (A2 & (S3 & E3 & F3 & M3 & Ck3 & W3) & I2 & RM2 & X2 & Y2).
  pose proof (begun_begin _ _ _ _ _ 0 false _ A1 B1 I2) as P2.
  pose proof (K_begin p 0 false _ K1) as K2.
  set (g2 := begin_process p 0 false g1) in *.
  assert (L0 : g_log g1 = S2 ++ R ++ smi :: S1) by (cbn; rewrite N2; exact E0).
  assert (IR : inits (R ++ smi :: S1) = inits S1).
  { rewrite inits_app, inits_cons, C1. cbn. destruct (is_static (p_build p)).
    - destruct HR as (-> & _). reflexivity.
    - destruct HR as (ev & -> & HR & _). rewrite inits_cons, HR. reflexivity. }
  assert (IA : inits (g_log g2) = inits (S3 ++ S2 ++ S1)).
  { rewrite E3, L0, inits_app, inits_app, IR, !inits_app. reflexivity. }
  assert (DR : forall l, last_data p (l ++ R ++ smi :: S1) = last_data p (l ++ S1)).
  { induction l as [|x l IH]; cbn.
    - destruct (is_static (p_build p)).
      + destruct HR as (-> & _). cbn. now rewrite C1.
      + destruct HR as (ev & -> & HR & _). cbn. now rewrite HR, C1.
    - now rewrite IH. }
  clearbody g2.
  set (g3 := emit AtMain g2).
  assert (A3 : at_seg p (p_main p) (p_argc p) (p_argv p) (p_envp p) g3) by (apply at_seg_emit; auto).
  assert (K3 : K p g3) by (apply K_emit; auto).
  set (g4 := if is_static (p_build p) then emit (WrapMain (g_argc g3) (g_argv g3) (g_envp g3)) g3 else g3).
  assert (A4 : at_seg p (p_main p) (p_argc p) (p_argv p) (p_envp p) g4 /\ K p g4 /\ g_real_main g4 = p_main p /\
    g_cookie g4 = g_cookie g0 /\ g_mem g4 = g_mem g2 /\
    exists W, g_log g4 = W ++ g_log g3 /\
    (if is_static (p_build p)
     then exists ev a, W = [ev] /\ settled p ev /\ e_call ev = WrapMain a (p_argv p) (p_envp p) /\ (keeps_argc p -> a = p_argc p)
     else W = [])).
  { unfold g4. destruct (is_static (p_build p)).
    - split; [apply at_seg_emit; auto|split; [apply K_emit; auto|split; [|split; [|split]]]].
      + exact RM2.
      + cbn. rewrite Ck3. exact N4.
      + reflexivity.
      + eexists [_]. split; [reflexivity|]. eexists _, _. split; [reflexivity|].
        split; [apply (settled_emit p g3); auto|]. cbn.
        destruct A2 as (_ & V & E & Kp & _). rewrite V, E. split; [reflexivity|exact Kp].
    - split; [exact A3|split; [exact K3|split; [exact RM2|split; [|split; [reflexivity|]]]]].
      + cbn. rewrite Ck3. exact N4.
      + exists []. auto. }
  destruct A4 as (A4 & K4 & RM4 & Ck4 & M4 & W & E4 & HW).
  clearbody g4.
  set (g5 := emit (Main (g_real_main g4) (p_argc p) (p_argv p) (p_envp p)) g4).
  assert (A5 : at_seg p (p_main p) (p_argc p) (p_argv p) (p_envp p) g5) by (apply at_seg_emit; auto).
  assert (K5 : K p g5) by (apply K_emit; auto).
  destruct (acts_seg _ _ _ _ _ body _ A5) as (A6 & (S4 & E6 & F6 & M6 & Ck6 & W6)).
  pose proof (K_acts p body _ K5) as K6.
  assert (RM6 : g_real_main (do_acts p body g5) = p_main p).
  { clear - A5 RM4 K5.
    assert (RM5 : g_real_main g5 = p_main p) by exact RM4. clearbody g5. revert g5 A5 K5 RM5.
    induction body as [|x l IH]; intros g A Kx RM; cbn; auto. apply IH.
    - now apply act_seg.
    - apply (K_acts p [x]). exact Kx.
    - destruct x; cbn [do_act].
      + destruct (is_static (p_build p)); auto. unfold begin_library. destruct (g_lib g); auto.
        unfold normal_init. cbn. destruct (g_normal g); auto. destruct (is_static (p_build p)); auto.
      + now destruct (begin_seg _ _ _ _ _ 0 false _ A) as (_ & _ & _ & X & _).
      + now destruct (begin_seg _ _ _ _ _ d true _ A) as (_ & _ & _ & X & _). }
  set (g6 := do_acts p body g5) in *. clearbody g6.
  assert (Ck7 : g_cookie g6 = false) by (rewrite Ck6; cbn; rewrite Ck4; exact Ck).
  destruct (ending_shape p fin g6 A6 RM6 Ck7 K6) as (End & E7 & C7 & F7).
  exists S1, smi, R, S2, S3. eexists. exists W. eexists. exists S4, End.
  split; [rewrite E7, E6; cbn; rewrite E4; cbn; rewrite E3, L0; reflexivity|].
  split; [exact E0|].
  split; [exact F1|split; [exact C1|split; [exact M1|split; [exact HR|split; [exact F2|split; [exact F3|]]]]]].
  split; [rewrite <- IA; exact P2|].
  split.
  { intros Z0. assert (NI : g_initp g1 = false).
    { destruct (g_initp g1) eqn:I; auto. specialize (B1 I).
      rewrite L0, inits_app, IR in B1. clear - B1 Z0. lia. }
    rewrite NI in X2. destruct (X2 eq_refl) as (new & ev & X3 & X4 & X5 & _).
    exists ev, new. split; [|split; [exact X4|exact X5]].
    apply (app_inv_tail (g_log g1)). rewrite <- E3. exact X3. }
  split; [reflexivity|split; [apply (settled_emit p g2); auto|]].
  split; [exact HW|].
  split; [cbn; rewrite RM4; reflexivity|split; [apply (settled_emit p g4); auto|]].
  split.
  { cbn [e_mem]. rewrite M4, M3. change (g_mem g1) with (g_mem gn). rewrite N3, Mem, iter_plus, E0.
    rewrite (inits_app S2 (R ++ smi :: S1)), IR, !inits_app. reflexivity. }
  split; [exact F6|].
  split.
  { rewrite C7. f_equal. rewrite E6. cbn. rewrite E4. cbn. rewrite E3, L0.
    assert (Y : last_data p (g_log g3) = last_data p (S3 ++ S2 ++ S1)).
    { unfold g3. cbn. rewrite E3, L0, app_assoc, DR, app_assoc. reflexivity. }
    assert (Y5 : last_data p (W ++ g_log g3) = last_data p (g_log g3)).
    { destruct (is_static (p_build p)); [|rewrite HW; reflexivity].
      destruct HW as (ev & a & -> & _ & Ec & _). cbn. now rewrite Ec. }
    clear - Y Y5 E3 L0. induction S4 as [|x l IH]; cbn.
    - unfold g3 in Y5 at 1. cbn in Y5. rewrite E3, L0 in Y5. rewrite Y5. cbn in Y. rewrite E3, L0 in Y. exact Y.
    - rewrite IH. reflexivity. }
  split; [exact F7|].
  cbv zeta. destruct A6 as (_ & _ & _ & _ & LL & LO).
  assert (ER : g_log g6 = S4 ++
      mkevent (Main (g_real_main g4) (p_argc p) (p_argv p) (p_envp p)) (g_real_main g4)
        (g_argc g4, g_argv g4, g_envp g4) (g_mem g4) :: W ++
      mkevent AtMain (g_real_main g2) (g_argc g2, g_argv g2, g_envp g2) (g_mem g2) ::
      S3 ++ S2 ++ R ++ smi :: S1)
    by (rewrite E6; cbn; rewrite E4; cbn; rewrite E3, L0; reflexivity).
  rewrite <- ER. split; [|exact LO].
  assert (PI : (0 < inits (g_log g6))%nat).
  { rewrite E6, inits_app. change (g_log g5) with ([hd mainev0 (g_log g5)] ++ g_log g4).
    rewrite inits_app, E4, inits_app. change (g_log g3) with ([hd mainev0 (g_log g3)] ++ g_log g2).
    rewrite inits_app. clear - P2. lia. }
  destruct (has_init _ PI) as (l1 & ev & l2 & X1 & X3). specialize (LO _ _ _ X1 X3).
  rewrite LL. destruct (g_lib g6); auto. exfalso.
  rewrite X1, libs_app, libs_cons in LL. clear - LL LO. lia.
Qed.

(** ** Reading a history backwards *)

(** [P ev l]: about an event and the ones before it (newest first). *)
Definition at_each (P : event -> list event -> Prop) (log : list event) : Prop :=
  forall l1 ev l2, log = l1 ++ ev :: l2 -> P ev l2.
Lemma each_nil (P : event -> list event -> Prop) : at_each P [].
Proof. intros [|x l1] ev l2 E; discriminate E. Qed.
Lemma each_cons (P : event -> list event -> Prop) x l : P x l -> at_each P l -> at_each P (x :: l).
Proof.
  intros A B [|y l1] ev l2 E; cbn in E; injection E as E1 E2; subst; auto. eapply B; eauto.
Qed.
Lemma each_app (P : event -> list event -> Prop) new l : (forall x l', In x new -> P x (l' ++ l)) -> at_each P l -> at_each P (new ++ l).
Proof.
  induction new as [|x new IH]; cbn; intros A B; auto.
  apply each_cons; auto.
Qed.
Lemma each_history (P : event -> list event -> Prop) p pre mid body fin :
  at_each P (g_log (run_program p pre mid body fin (start_g p))) ->
  forall h1 ev h2, history p pre mid body fin = h1 ++ ev :: h2 -> P ev (rev h1).
Proof.
  intros A h1 ev h2 E. unfold history in E. apply (f_equal (@rev event)) in E.
  rewrite rev_involutive, rev_app_distr in E. cbn in E. rewrite <- app_assoc in E. cbn in E.
  eapply A; eauto.
Qed.

Lemma good_call p m a v e ev : good p m a v e ev ->
  is_main (e_call ev) = false /\ is_exit (e_call ev) = false /\ is_landmark (e_call ev) = false /\
  is_exit_callback (e_call ev) = false /\ e_call ev <> StartMainInit /\ e_call ev <> AtMain.
Proof. intros (_ & a' & _ & _ & [->|(d & ->)]); repeat split; discriminate. Qed.

Lemma filter_none {A} (f : A -> bool) l : Forall (fun x => f x = false) l -> filter f l = [].
Proof. induction 1 as [|x l E H IH]; cbn; [|rewrite E]; auto. Qed.
Lemma filter_good p m a v e (f : call -> bool) l :
  (forall c, f c = true -> is_init_library c = false /\ is_init_process c = false) ->
  Forall (good p m a v e) l -> filter f (calls l) = [].
Proof.
  intros Hf F. apply filter_none. unfold calls. rewrite Forall_map. eapply Forall_impl; [|exact F].
  intros ev (_ & a' & _ & _ & [E|(d & E)]); rewrite E;
    (destruct (f _) eqn:X; auto; apply Hf in X; destruct X as (X & Y); discriminate).
Qed.
Lemma calls_app x y : calls (x ++ y) = calls x ++ calls y.
Proof. apply map_app. Qed.
Lemma calls_rev x : calls (rev x) = rev (calls x).
Proof. apply map_rev. Qed.
Lemma filter_rev {A} (f : A -> bool) l : filter f (rev l) = rev (filter f l).
Proof.
  induction l as [|x l IH]; cbn; auto. rewrite filter_app, IH. cbn.
  destruct (f x); cbn; auto. now rewrite app_nil_r.
Qed.
