(** Proofs of the once-only properties: init_library, init_process,
    begin_process_exit, fini_process. *)
From Verif Require Export LifeBase.

Local Open Scope nat_scope.

(** Field of the globals after a step. *)
Ltac g_brk :=
  unfold reset_list;
  repeat match goal with
  | |- context [if ?x then _ else _] => destruct x
  | |- context [match ?x with _ => _ end] => destruct x
  end; cbn.

(** ** Counting *)

Definition b2n (b : bool) : nat := if b then 1 else 0.

Lemma count_wsum p tr : count p tr = wsum (fun e => b2n (p e)) tr.
Proof. induction tr as [|e r IH]; cbn; [reflexivity|]. rewrite IH. destruct (p e); reflexivity. Qed.

(** Who acts in an event. *)
Definition actor (e : event) : Z :=
  match e with
  | ECall t _ | ERet t _ _ | EExit t _ | EWin t | EPast t | EDead t | ECreateCall t _
  | ECreate t _ _ _ | ECreateFail t _ _ | ECreateRet t _ | EReg t _ | EStart t _ _ | EEnd t
  | EFreeze t | EPass t | EGiveUp t | EShoot t _ | EDeliver t | EFork t | EForkRet t
  | EQuery t _ _ | EInfo t _ | EBlock t _ | EUnblock t | EIgnore t _ | EBcast t _
  | EKill t _ _ | EBcastRet t _ => t
  end.

(** Events of one thread that satisfy [p]. *)
Definition by_thread (p : event -> bool) (t : Z) (e : event) : nat :=
  b2n (p e && Z.eqb (actor e) t).

Lemma token_count p h s :
  (exists w, forall t, wsum (by_thread p t) h <= if Z.eqb t w then 1 else 0) ->
  s = count p h -> s <= 1.
Proof.
  intros (w & A) ->.
  assert (B : forall l, (forall t, t <> w -> wsum (by_thread p t) l = 0) ->
              count p l = wsum (by_thread p w) l).
  { induction l as [|e r IH]; [reflexivity|]. intros Z. cbn [count wsum].
    assert (Zr : forall t, t <> w -> wsum (by_thread p t) r = 0).
    { intros t N. specialize (Z t N). cbn [wsum] in Z. lia. }
    specialize (IH Zr). unfold by_thread at 1.
    destruct (p e) eqn:P; cbn [andb b2n]; [|exact IH].
    destruct (Z.eqb_spec (actor e) w) as [E|N]; cbn [b2n]; [lia|exfalso].
    specialize (Z _ N). cbn [wsum] in Z. unfold by_thread at 1 in Z.
    rewrite P, Z.eqb_refl in Z. cbn in Z. lia. }
  rewrite B.
  - specialize (A w). rewrite Z.eqb_refl in A. exact A.
  - intros t N. specialize (A t). destruct (Z.eqb_spec t w); [contradiction|lia].
Qed.

Lemma token_inv_count dyn0 flag wf p h s :
  token_inv flag wf (by_thread p) h s -> dyn0 = count p (h (s_tr s)) -> dyn0 <= 1.
Proof.
  intros (w & A & _) E. eapply token_count; [|exact E]. exists w. intros t.
  specialize (A t). unfold phi in A. lia.
Qed.

Ltac tok_local H HC :=
  fs_cases H; brk H; inversion H; subst; clear H; cbn in HC; try discriminate HC; clear HC;
  repeat split; intros; cbn in *; try discriminate; try lia;
  repeat match goal with
  | H : Some _ = Some _ |- _ => inversion H; subst; clear H
  | H : ?a <> ?b |- context [Z.eqb ?b ?a] => destruct (Z.eqb_spec b a); [congruence|]
  end; cbn; rewrite ?Z.eqb_refl; cbn; try lia; unfold reset_list;
  repeat match goal with
  | |- context [if ?x then _ else _] => destruct x
  | |- context [match ?x with _ => _ end] => destruct x
  end; cbn; rewrite ?Z.eqb_refl; cbn; try lia; auto.

(** ** begin_process_exit and fini_process *)

Definition w_begin (f : frame) : nat :=
  match f with FEPWin _ _ | FEPBegin _ => 1 | _ => 0 end.
Definition w_fini (f : frame) : nat :=
  match f with
  | FEPWin _ _ | FEPBegin _ | FEPFini _ | FCb _ (KBeginExit _) => 1
  | _ => 0 end.

Lemma child_keep flag wf p dyn s t c s' f r e :
  token_inv flag wf (by_thread p) image s ->
  th_stack (s_th s t) = f :: r ->
  frame_step dyn t (s_next s) (s_g s) (th_tsd (s_th s t)) (th_nc (s_th s t)) f c = Some e ->
  e_child e = true -> s' = apply_eff s t (s_th s t) r e ->
  wsum wf (e_fr e) <= wf f ->
  token_inv flag wf (by_thread p) image s'.
Proof.
  intros (w & A & B) Hst Hfs HC -> HW.
  destruct (child_shape _ _ _ _ _ _ _ _ _ Hfs HC) as (_ & G & _ & _ & EV & HN & HK & _).
  assert (L : forall t', phi wf (by_thread p) image (apply_eff s t (s_th s t) r e) t'
              <= phi wf (by_thread p) image s t').
  { intros t'. unfold phi. rewrite apply_tr, EV, apply_stack_child by auto. cbn [app image wsum].
    destruct (Z.eqb_spec t' t) as [E|E].
    - subst t'. rewrite Hst, wsum_app. cbn [wsum]. lia.
    - cbn. lia. }
  exists w. rewrite apply_g, G. split; intros.
  - specialize (A t0). specialize (L t0). lia.
  - specialize (B H t0). specialize (L t0). lia.
Qed.

Lemma begin_token dyn s : reach dyn any s -> token_inv g_cookie w_begin (by_thread is_begin_exit) image s.
Proof.
  apply token_reach.
  - intros t. unfold phi. cbn. rewrite upd_if. destruct (Z.eqb t MAIN); reflexivity.
  - intros. now apply image_app.
  - intros f I. cbn in I. destruct I as [<-|[<-|[<-|[<-|[<-|[<-|[<-|[]]]]]]]]; reflexivity.
  - reflexivity.
  - split; reflexivity.
  - intros t u g tsd nc f c e H HC. unfold by_thread. tok_local H HC.
  - intros s0 t c s' f r e HI _ Hst Hfs HC Es. eapply child_keep; eauto.
    destruct (child_shape _ _ _ _ _ _ _ _ _ Hfs HC) as (_ & _ & _ & _ & _ & _ & _ & [(d & -> & ->)|(-> & ->)]);
      cbn; lia.
Qed.

Lemma fini_token dyn s : reach dyn any s -> token_inv g_cookie w_fini (by_thread is_fini_process) image s.
Proof.
  apply token_reach.
  - intros t. unfold phi. cbn. rewrite upd_if. destruct (Z.eqb t MAIN); reflexivity.
  - intros. now apply image_app.
  - intros f I. cbn in I. destruct I as [<-|[<-|[<-|[<-|[<-|[<-|[<-|[]]]]]]]]; reflexivity.
  - reflexivity.
  - split; reflexivity.
  - intros t u g tsd nc f c e H HC. unfold by_thread. tok_local H HC.
  - intros s0 t c s' f r e HI _ Hst Hfs HC Es. eapply child_keep; eauto.
    destruct (child_shape _ _ _ _ _ _ _ _ _ Hfs HC) as (_ & _ & _ & _ & _ & _ & _ & [(d & -> & ->)|(-> & ->)]);
      cbn; lia.
Qed.

(** *** Order: begin_process_exit returns before fini_process is issued *)

Definition Qexit (g : glob) (tr : list event) (t : Z) (f : frame) : Prop :=
  match f with
  | FEPFini how => exists v, In (ERet t (CbBeginExit how) v) tr
  | FCb c (KBeginExit how) => c = CbBeginExit how
  | _ => True
  end.

Ltac q_step :=
  match goal with
  | H : frame_step _ _ _ _ _ _ _ _ = Some _ |- _ =>
      fs_cases H; brk H; inversion H; subst; clear H
  end.

Lemma exit_frames dyn s : reach dyn any s -> fr_inv Qexit s.
Proof.
  apply fr_reach.
  - intros t f I. cbn in I. rewrite upd_if in I. destruct (Z.eqb t MAIN); [|destruct I].
    cbn in I. repeat destruct I as [<-|I]; try exact I. all: destruct I.
  - intros g tr t f e t' _ H. destruct f; cbn in *; try exact I; auto.
    destruct H as (v & H). exists v. now right.
  - intros g tr t f I. cbn in I. repeat destruct I as [<-|I]; try exact I. all: destruct I.
  - intros. exact I.
  - intros s0 t c f r e R FI _ Hst LV Hfs.
    assert (QF : Qexit (s_g s0) (s_tr s0) t f) by (apply FI; rewrite Hst; now left).
    split; [|split].
    + clear FI. q_step; intros f' I'; cbn in I';
        repeat (destruct I' as [<-|I']; [cbn in *; try exact I; auto; try tauto|]);
        try (destruct I'; fail).
      all: try (eexists; left; subst; reflexivity).
      all: try (destruct k; cbn in *; tauto).
    + intros t' f' _ Q. destruct f'; cbn in *; auto.
      destruct Q as (v & Q). exists v. apply in_or_app. now right.
    + clear FI. q_step; intros st f' EQN I'; cbn in EQN; try discriminate; inversion EQN; subst; cbn in I';
        repeat (destruct I' as [<-|I']; [exact I|]); destruct I'.
Qed.

Definition Jexit (tr : list event) (e : event) : Prop :=
  match e with
  | ECall t (CbFiniProcess how _) => exists v, In (ERet t (CbBeginExit how) v) tr
  | _ => True
  end.

Lemma exit_order dyn s : reach dyn any s -> hist Jexit (s_tr s).
Proof.
  apply hist_reach; try (intros; exact I).
  intros s0 t c f r e R _ _ Hst LV Hfs.
  assert (QF : Qexit (s_g s0) (s_tr s0) t f) by (apply (exit_frames _ _ R); rewrite Hst; now left).
  q_step; cbn [e_ev justified app]; repeat split; auto; cbn in *; try tauto.
  all: destruct c; cbn in *; try exact I; try tauto.
Qed.

(** ** init_process *)

Definition w_init (f : frame) : nat := b2n (starting f).

Lemma w_init_zero st : existsb starting st = false -> wsum w_init st = 0.
Proof.
  induction st as [|f r IH]; [reflexivity|]. cbn. unfold w_init at 1.
  destruct (starting f); [discriminate|]. intros H. rewrite IH by exact H. reflexivity.
Qed.

Lemma init_token dyn s : reach dyn settled_forks s ->
  token_inv g_initp w_init (by_thread is_init_process) image s.
Proof.
  apply token_reach.
  - intros t. unfold phi. cbn. rewrite upd_if. destruct (Z.eqb t MAIN); reflexivity.
  - intros. now apply image_app.
  - intros f I. cbn in I. destruct I as [<-|[<-|[<-|[<-|[<-|[<-|[<-|[]]]]]]]]; reflexivity.
  - reflexivity.
  - split; reflexivity.
  - intros t u g tsd nc f c e H HC. unfold by_thread, w_init. tok_local H HC.
  - intros s0 t c s' f r e _ HO Hst Hfs HC Es.
    destruct (child_shape _ _ _ _ _ _ _ _ _ Hfs HC) as (-> & G & _ & _ & EV & HN & HK & SH).
    destruct (HO eq_refl) as (GI & ST). rewrite Hst in ST. cbn [existsb] in ST.
    apply Bool.orb_false_iff in ST. destruct ST as [_ ST]. apply w_init_zero in ST.
    subst s'. exists t. rewrite apply_g, G. split; [|congruence].
    intros t'. unfold phi. rewrite apply_tr, EV, apply_stack_child by auto.
    cbn [app image wsum]. destruct (Z.eqb t' t); [|cbn; lia].
    rewrite wsum_app, ST. destruct SH as [(d & _ & ->)|(_ & ->)]; cbn; lia.
Qed.

(** ** init_library: at most once ever *)

Lemma lib_token dyn s : reach dyn any s ->
  token_inv g_libonce (fun _ => 0) (by_thread is_init_library) (fun tr => tr) s.
Proof.
  apply token_reach.
  - intros t. unfold phi. cbn. rewrite upd_if. destruct (Z.eqb t MAIN); reflexivity.
  - reflexivity.
  - reflexivity.
  - reflexivity.
  - split; reflexivity.
  - intros t u g tsd nc f c e H HC. unfold by_thread. tok_local H HC.
  - intros s0 t c s' f r e (w & A & B) _ Hst Hfs HC ->.
    destruct (child_shape _ _ _ _ _ _ _ _ _ Hfs HC) as (_ & G & _ & _ & EV & HN & HK & SH).
    assert (Z0 : forall st : list frame, wsum (fun _ => 0) st = 0) by (induction st; auto).
    assert (P : forall t', phi (fun _ => 0) (by_thread is_init_library) (fun tr => tr)
                  (apply_eff s0 t (s_th s0 t) r e) t' =
                phi (fun _ => 0) (by_thread is_init_library) (fun tr => tr) s0 t').
    { intros t'. unfold phi. rewrite apply_tr, EV, !Z0. reflexivity. }
    exists w. rewrite apply_g, G. split.
    + intros t'. rewrite P. apply A.
    + intros F t'. rewrite P. now apply B.
Qed.

(** *** init_library is issued before init_process *)

Definition lib_begun (tr : list event) : Prop := exists w, In (ECall w CbInitLibrary) tr.

Lemma libonce_begun dyn s : reach dyn any s -> g_libonce (s_g s) = true -> lib_begun (s_tr s).
Proof.
  apply (reach_invariant dyn any (fun s => g_libonce (s_g s) = true -> lib_begun (s_tr s))).
  - discriminate.
  - clear s. intros s t c s' R HI _ HS. apply step_view in HS. destruct HS as (_ & LV & V).
    destruct V as [| | | | | | |f r e Hst Hun Hbar Hfs Es']; subst; try exact HI;
      try (intros G; destruct (HI G) as (w & I); exists w; now right).
    rewrite apply_g, apply_tr. clear Hst Hun Hbar.
    assert (X : g_libonce (e_g e) = true -> g_libonce (s_g s) = true \/ In (ECall t CbInitLibrary) (e_ev e)).
    { clear HI. revert Hfs. generalize (s_g s), (s_next s), (th_tsd (s_th s t)), (th_nc (s_th s t)).
      intros g u tsd nc H. fs_cases H; brk H; inversion H; subst; clear H; cbn; auto;
        try (right; now left); g_brk; auto. }
    intros G. destruct (X G) as [Y|Y].
    + destruct (HI Y) as (w & I). exists w. apply in_or_app. now right.
    + exists t. apply in_or_app. now left.
Qed.

Definition is_beginlib (f : frame) : bool := match f with FBeginLib => true | _ => false end.
Definition is_bpinit (f : frame) : bool := match f with FBPInit _ => true | _ => false end.

Ltac nk_init :=
  let t := fresh "t" in let I := fresh "I" in
  intros t I; cbn in I; rewrite upd_if in I; destruct (Z.eqb t MAIN); cbn in I; discriminate.

Lemma lib_naked dyn s : reach dyn any s ->
  naked_inv is_beginlib is_bpinit (fun _ tr _ => lib_begun tr) s.
Proof.
  apply naked_reach; try (intros; discriminate).
  - nk_init.
  - intros g tr t e t' _ (w & I). exists w. now right.
  - split; reflexivity.
  - intros s0 t c f r e R _ _ Hst LV Hfs HC.
    assert (M : forall tr, lib_begun tr -> lib_begun (e_ev e ++ tr)).
    { intros tr (w & I). exists w. apply in_or_app. now right. }
    split; [intros; now apply M|].
    pose proof (libonce_begun _ _ R) as LB. clear R Hst LV.
    revert Hfs. generalize (s_next s0), (th_tsd (s_th s0 t)), (th_nc (s_th s0 t)).
    intros u tsd nc H. fs_cases H; brk H; inversion H; subst; clear H; cbn in *; try discriminate HC;
    repeat split; intros; try discriminate; auto;
    repeat match goal with
    | H : Some _ = Some _ |- _ => inversion H; subst; clear H
    end; try reflexivity.
    exists t. now left.
  - intros s0 t c f r e R NI _ Hst Hfs HC L.
    destruct (child_shape _ _ _ _ _ _ _ _ _ Hfs HC) as (_ & _ & _ & _ & EV & _ & _ & SH).
    rewrite EV. cbn [app].
    assert (LB : lib_begun (s_tr s0)).
    { apply (NI t). rewrite Hst. destruct SH as [(d & -> & EF)|(-> & EF)]; rewrite EF in L; exact L. }
    destruct LB as (w & I). exists w. now right.
Qed.

Lemma lib_first dyn s : reach dyn any s ->
  hist (fun tr e => is_init_process e = true -> lib_begun tr) (s_tr s).
Proof.
  apply hist_reach; try discriminate.
  intros s0 t c f r e R _ _ Hst LV Hfs.
  pose proof (lib_naked _ _ R t) as N. rewrite Hst in N. cbn in N.
  clear R Hst LV.
  q_step; cbn [e_ev justified app] in *; repeat split; auto; try discriminate.
  all: repeat match goal with
       | |- context [if ?x then _ else _] => destruct x
       end; cbn; repeat split; try discriminate.
Qed.

(** *** A forked child has issued its init_process when fork returns *)

Definition is_forkret (f : frame) : bool := match f with FForkRet => true | _ => false end.
Definition inited (tr : list event) (t : Z) : Prop :=
  exists d, In (ECall t (CbInitProcess d)) (image tr).

Lemma forkret_naked dyn s : reach dyn app_forks s ->
  naked_inv starting is_forkret (fun _ tr t => inited tr t) s.
Proof.
  apply naked_reach; try (intros; discriminate).
  - nk_init.
  - intros g tr t e t' [-> | ->] (d & I); exists d; now right.
  - split; reflexivity.
  - intros s0 t c f r e R NI _ Hst LV Hfs HC.
    pose proof (no_fork_ev _ _ _ _ _ _ _ _ _ Hfs HC) as NF.
    assert (M : forall t', inited (s_tr s0) t' -> inited (e_ev e ++ s_tr s0) t').
    { intros t' (d & I). exists d. rewrite image_app by exact NF. apply in_or_app. now right. }
    split; [exact M|].
    split; [|split].
    + intros L. exfalso. clear R NI NF M Hst LV. q_step; cbn in L, HC; try discriminate;
        try (destruct is_fork0; discriminate).
    + intros L C. unfold inited. rewrite image_app by exact NF.
      clear R NI NF M Hst LV. q_step; cbn in L, C, HC |- *; try discriminate; try (eexists; left; reflexivity).
    + clear R NI NF M Hst LV. intros st EN. q_step; cbn in EN; try discriminate; inversion EN; reflexivity.
  - intros s0 t c f r e R NI HO Hst Hfs HC L.
    destruct (child_shape _ _ _ _ _ _ _ _ _ Hfs HC) as (CC & _ & _ & _ & EV & _ & _ & SH).
    exfalso. destruct (HO CC) as (d & r' & X). rewrite Hst in X. inversion X; subst.
    destruct SH as [(d' & _ & EF)|(Y & _)]; [rewrite EF in L; discriminate L|discriminate].
Qed.

Lemma forkret_inited dyn s : reach dyn app_forks s ->
  hist (fun tr e => match e with EForkRet t => inited tr t | _ => True end) (s_tr s).
Proof.
  apply hist_reach; try (intros; exact I).
  intros s0 t c f r e R _ _ Hst LV Hfs.
  pose proof (forkret_naked _ _ R t) as N. rewrite Hst in N. cbn in N.
  clear R Hst LV.
  q_step; cbn [e_ev justified app] in *; repeat split; auto; try discriminate.
  all: repeat match goal with
       | |- context [if ?x then _ else _] => destruct x
       end; cbn; repeat split; auto.
Qed.

(** ** The statements *)

Lemma once_init_process dyn s :
  reach dyn settled_forks s -> count is_init_process (image (s_tr s)) <= 1.
Proof. intros R. eapply token_inv_count; [eapply init_token; eauto|reflexivity]. Qed.

Lemma once_init_library dyn l s :
  run dyn init l = Some s ->
  count is_init_library (s_tr s) <= 1 /\
  (forall a w d b, s_tr s = a ++ ECall w (CbInitProcess d) :: b ->
     exists w', In (ECall w' CbInitLibrary) b).
Proof.
  intros H. apply reach_run in H. split.
  - eapply token_inv_count; [eapply lib_token; eauto|reflexivity].
  - intros a w d b E. exact (lib_first _ _ H a _ b E eq_refl).
Qed.

Lemma image_split tr a e b' : image tr = a ++ e :: b' ->
  exists b, tr = a ++ e :: b /\ image b = b'.
Proof.
  revert tr. induction a as [|x a IH]; intros tr H; destruct tr as [|y tr]; try discriminate.
  - destruct y; cbn in H; inversion H; subst; eexists; split; reflexivity.
  - destruct y; cbn in H; try discriminate; inversion H as [[E1 E2]]; subst;
      destruct (IH _ E2) as (bb & -> & Eb); exists bb; split; auto.
Qed.

Lemma count_in p e tr : In e tr -> p e = true -> 1 <= count p tr.
Proof.
  induction tr as [|x r IH]; [intros []|]. intros [->|I] P; cbn.
  - rewrite P. lia.
  - destruct (p x); [lia|auto].
Qed.

Lemma once_fork_child dyn s t :
  reach dyn (fun s t c => settled_forks s t c /\ app_forks s t c) s ->
  In (EForkRet t) (image (s_tr s)) ->
  (exists d, In (ECall t (CbInitProcess d)) (image (s_tr s))) /\
  count is_init_process (image (s_tr s)) = 1.
Proof.
  intros R I.
  assert (R1 : reach dyn settled_forks s) by (eapply reach_weaken; [|exact R]; intros ? ? ? [? ?]; assumption).
  assert (R2 : reach dyn app_forks s) by (eapply reach_weaken; [|exact R]; intros ? ? ? [? ?]; assumption).
  apply in_split in I. destruct I as (a & b' & E). pose proof E as E'.
  apply image_split in E'. destruct E' as (b & E1 & E2).
  destruct (forkret_inited _ _ R2 _ _ _ E1) as (d & D). rewrite E2 in D.
  assert (X : In (ECall t (CbInitProcess d)) (image (s_tr s))).
  { rewrite E. apply in_or_app. right. now right. }
  split; [now exists d|].
  pose proof (once_init_process _ _ R1). pose proof (count_in is_init_process _ _ X eq_refl). lia.
Qed.

Lemma once_exit dyn l s :
  run dyn init l = Some s ->
  count is_begin_exit (image (s_tr s)) <= 1 /\
  count is_fini_process (image (s_tr s)) <= 1 /\
  (forall a w how d b, s_tr s = a ++ ECall w (CbFiniProcess how d) :: b ->
     exists v, In (ERet w (CbBeginExit how) v) b).
Proof.
  intros H. apply reach_run in H. split; [|split].
  - eapply token_inv_count; [eapply begin_token; eauto|reflexivity].
  - eapply token_inv_count; [eapply fini_token; eauto|reflexivity].
  - intros a w how d b E. exact (exit_order _ _ H a _ b E).
Qed.

(** A callback that returns was issued before, in the same thread. *)
Lemma cb_called dyn s : reach dyn any s ->
  fr_inv (fun _ tr t f => match f with FCb c _ => In (ECall t c) tr | _ => True end) s.
Proof.
  apply fr_reach.
  - intros t f I. cbn in I. rewrite upd_if in I. destruct (Z.eqb t MAIN); [|destruct I].
    cbn in I. repeat destruct I as [<-|I]; try exact I. all: destruct I.
  - intros g tr t f e t' _ H. destruct f; cbn in *; auto.
  - intros g tr t f I. cbn in I. repeat destruct I as [<-|I]; try exact I. all: destruct I.
  - intros. exact I.
  - intros s0 t c f r e R FI _ Hst LV Hfs.
    assert (QF : match f with FCb c _ => In (ECall t c) (s_tr s0) | _ => True end).
    { apply (FI t f). rewrite Hst. now left. }
    split; [|split].
    + clear FI. q_step; intros f' I'; cbn in I';
        repeat (destruct I' as [<-|I']; [cbn in *; try exact I; auto; try tauto|]);
        try (destruct I'; fail).
    + intros t' f' _ Q. destruct f'; cbn in *; auto. apply in_or_app. now right.
    + clear FI. q_step; intros st f' EQN I'; cbn in EQN; try discriminate; inversion EQN; subst; cbn in I';
        repeat (destruct I' as [<-|I']; [exact I|]); destruct I'.
Qed.

Lemma ret_after_call dyn s : reach dyn any s ->
  hist (fun tr e => match e with ERet t c _ => In (ECall t c) tr | _ => True end) (s_tr s).
Proof.
  apply hist_reach; try (intros; exact I).
  intros s0 t c f r e R _ _ Hst LV Hfs.
  pose proof (cb_called _ _ R t f) as N. rewrite Hst in N. specialize (N (or_introl eq_refl)). cbn in N.
  clear R Hst LV.
  q_step; cbn [e_ev justified app] in *; repeat split; auto.
  all: repeat match goal with
       | |- context [if ?x then _ else _] => destruct x
       end; cbn; repeat split; auto.
Qed.

Lemma begin_ret_after_call dyn l s :
  run dyn init l = Some s ->
  forall a w how v b, s_tr s = a ++ ERet w (CbBeginExit how) v :: b ->
    In (ECall w (CbBeginExit how)) b.
Proof. intros H a w how v b E. apply reach_run in H. exact (ret_after_call _ _ H _ _ _ E). Qed.

(** ** Checking a schedule against a decidable step filter *)

Fixpoint run_ok (okb : state -> Z -> choice -> bool) (dyn : bool) (s : state)
                (l : list (Z * choice)) : option state :=
  match l with
  | [] => Some s
  | (t, c) :: r => if okb s t c
                   then match step dyn s t c with Some s' => run_ok okb dyn s' r | None => None end
                   else None
  end.

Lemma run_ok_reach dyn (ok : state -> Z -> choice -> Prop) okb l :
  (forall s t c, okb s t c = true -> ok s t c) ->
  forall s0 s, reach dyn ok s0 -> run_ok okb dyn s0 l = Some s -> reach dyn ok s.
Proof.
  intros H. induction l as [|[t c] l IH]; intros s0 s R E; cbn in E.
  - inversion E; subst. exact R.
  - destruct (okb s0 t c) eqn:O; [|discriminate].
    destruct (step dyn s0 t c) as [s1|] eqn:S; [|discriminate].
    eapply IH; [|exact E]. eapply reach_step; eauto.
Qed.

Definition settled_b (s : state) (t : Z) (c : choice) : bool :=
  match c with
  | CChild => g_initp (s_g s) && negb (existsb starting (th_stack (s_th s t)))
              && match th_stack (s_th s t) with FForkGo _ :: _ => true | _ => false end
  | _ => true
  end.

Lemma settled_b_ok s t c : settled_b s t c = true -> settled_forks s t c /\ app_forks s t c.
Proof.
  intros H. split; intros ->; cbn in H; apply andb_prop in H; destruct H as [H1 H2].
  - apply andb_prop in H1. destruct H1 as [H1 H3]. split; auto. now apply negb_true_iff.
  - destruct (th_stack (s_th s t)) as [|[] r]; try discriminate. eauto.
Qed.

Lemma settled_example :
  exists s, reach true (fun s t c => settled_forks s t c /\ app_forks s t c) s /\
            In (EForkRet MAIN) (image (s_tr s)).
Proof.
  assert (X : exists s, run_ok settled_b true init
    ([(MAIN, CRet 0); (MAIN, CStep); (MAIN, CRet 0); (MAIN, CRet 0)] ++ ticks MAIN 5 ++
     [(MAIN, CRet 0); (MAIN, CStep); (MAIN, CRet 7)] ++ ticks MAIN 2 ++ [(MAIN, CRet 0)] ++
     [(MAIN, CCall AFork); (MAIN, CStep); (MAIN, CRet 9); (MAIN, CChild)] ++ ticks MAIN 6 ++
     [(MAIN, CRet 7)] ++ ticks MAIN 2) = Some s /\ In (EForkRet MAIN) (image (s_tr s))).
  { eexists. split; [vm_compute; reflexivity|]. cbn. auto. }
  destruct X as (s & E & I). exists s. split; [|exact I].
  eapply run_ok_reach; [exact settled_b_ok|apply reach_init|exact E].
Qed.
