(** Bounds on the steps of a call. *)
From Verif Require Import LifeBoundSpec LifeBase LifeFacts.

Local Open Scope nat_scope.

Section Cost.
  Variable M : nat.
  Definition kcost (k : cont) : nat :=
    match k with
    | KNone => 0 | KInitProcess => 1 | KBeginExit _ => 17 + 3 * M | KFiniProcess => 1 | KFiniLibrary => 1
    | KPreCreate _ _ => 15 | KInitThread _ => 18 | KFiniCleanup _ => 7 | KFiniHandler _ _ => 1 | KFiniOwn _ _ => 2 | KPreFork => 11
    end.
  Definition btcost (p : btpc) : nat :=
    match p with
    | BTPop => 13 | BTCall => 16 | BTStarted => 17 | BTStore _ => 18 | BTInit => 20 | BTUnlock => 21 | BTIns => 22 | BTNum _ => 23
    | BTRead => 24 | BTRefuse => 1 | BTChk => 25 | BTLock => 26 | BTTsd => 27 | BTSelf => 28
    end.
  Definition clcost (p : clpc) : nat :=
    match p with
    | CLUnlock => 1 | CLFree => 2 | CLZero => 3 | CLRemove => 4 | CLMark2 => 2 | CLMark1 => 3 | CLExit => 5 | CLLock => 6 | CLEnd => 7
    | CLCall => 9 | CLSet => 10 | CLDone => 11 | CLChk => 12
    end.
  Definition cost (f : frame) : nat :=
    match f with
    | FApp _ => 1 | FCb _ k => 1 + kcost k | FCall _ => 2 | FRun _ _ => 2
    | FMain => 44 + 3 * M
    | FBeginLib => 2 | FEndLib => 4 | FFiniLib => 3 | FEndLibSet => 1 | FEndLibDyn => 5
    | FBPCas _ _ => 9 | FBPReset _ => 8 | FBPLib _ => 7 | FBPDone _ => 6 | FBPInit _ => 3 | FBPStore _ => 1
    | FEPGet _ => 22 + 3 * M | FEPCas _ _ => 21 + 3 * M | FEPWin _ _ => 20 + 3 * M | FEPBegin _ => 19 + 3 * M | FEPFini _ => 3
    | FEPLose _ => 3 | FEPWait => 2 | FEPDone => 1
    | FRealExit => 8 | FDtor => 5 | FDie => 1 | FUExit => 1 | FExec _ => 1 | FSigEnd => 1
    | FSUsed => 14 + 3 * M | FSLock _ => 13 + 3 * M | FSSet _ => 12 + 3 * M | FSUnlock _ => 11 + 3 * M | FSInstall _ => 10 + 3 * M
    | FSMain _ => 9 + 3 * M | FSPass _ => 8 + 3 * M
    | FSNode _ r => 7 + 3 * length r | FSStarted _ _ r => 9 + 3 * length r | FSDone _ _ r => 8 + 3 * length r
    | FSEnd _ => 6 | FSOwn _ => 5 | FSOwnCall _ _ => 4 | FSOwnDone _ _ => 2 | FSRestore _ => 1
    | FHGet => 7 | FHChk _ => 6 | FHDone _ => 5 | FHSet _ => 4 | FHCall _ _ => 3 | FHEnd _ _ => 1 | FWGet => 5
    | FBT p _ => btcost p | FClean p _ => clcost p
    | FPCInit _ => 33 | FPCInfo _ => 32 | FPCIgn _ _ => 22 | FPCSup _ _ => 21 | FPCSupSet _ _ => 20 | FPCPre _ _ => 17 | FPCGot _ _ _ => 15
    | FPCReal0 _ => 2 | FPCLock _ _ _ => 14 | FPCPick _ _ _ => 13 | FPCTake _ _ _ _ => 11 | FPCArray _ _ _ => 12 | FPCInc _ _ _ _ => 11
    | FPCZero _ _ _ _ => 10 | FPCUnlock _ _ _ _ => 9 | FPCFill _ _ _ _ => 8 | FPCReal _ _ _ => 5 | FPCPost _ _ _ => 4 | FPCEnd _ _ => 2 | FPCRet _ => 1
    | FPExit => 38 + 3 * M | FUnwind => 15
    | FPreFork => 13 | FForkGo _ => 11 | FForkRet => 1 | FRForkGo => 2 | FRFReset => 1
    | FQuery _ => 1 | FInfo => 1 | FBlock => 2 | FBlock2 => 1 | FUnblock => 1 | FIgnore _ => 1
    | FBc _ => 6 + M | FBcTry _ => 5 + M | FBcFirst _ => 4 + M | FBcNode _ r => 3 + length r | FBcMain _ => 2 | FBcUnlock => 1
    end.
  Fixpoint costs (l : list frame) : nat := match l with [] => 0 | f :: r => cost f + costs r end.
  Lemma costs_app l r : costs (l ++ r) = costs l + costs r.
  Proof. induction l as [|f l IH]; cbn [app costs]; [reflexivity|lia]. Qed.

  Lemma step_cost dyn t u g tsd nc f c e : frame_step dyn t u g tsd nc f c = Some e -> answers c = true -> again f = false ->
    length (g_list g) <= M -> costs (e_fr e) < cost f.
  Proof.
    intros H A N L. fs_cases H; try discriminate A; brk H; inversion H; subst; clear H; cbn [e_fr costs cost kcost btcost clcost resume length app];
      try (cbn in N; rewrite ?Bool.negb_false_iff in N; congruence); try lia.
  Qed.
End Cost.

(** Steps of other threads. *)
Lemma other_stack dyn s u c s1 t : step dyn s u c = Some s1 -> u <> t -> (t < s_next s)%Z ->
  (th_stack (s_th s1 t) = th_stack (s_th s t) \/ th_stack (s_th s1 t) = []) /\ (s_next s <= s_next s1)%Z.
Proof.
  intros H N L. apply step_view in H. destruct H as (_ & _ & V).
  destruct V as [E ->|E ->|E _ _ _ ->|f0 r0 E _ _ _ _ ->|f0 r0 E _ _ _ ->|r0 E _ _ ->|E _ ->|f r e ST U B F ->];
    try (split; [left|]; cbn; [now rewrite upd_other by auto|lia]).
  rewrite apply_next. split; [|destruct (e_new e); lia].
  destruct (e_child e) eqn:C.
  - right. unfold apply_eff. rewrite C.
    assert (NN : e_new e = None /\ e_kill e = None).
    { fs_cases F; brk F; inversion F; subst; cbn in C |- *; try discriminate C; auto. }
    destruct NN as [-> ->]. cbn. now rewrite upd_other by auto.
  - left. rewrite apply_stack by exact C. destruct (Z.eqb_spec t u) as [->|_]; [congruence|].
    destruct (e_new e); [|reflexivity]. destruct (Z.eqb_spec t (s_next s)); [lia|reflexivity].
Qed.

Lemma child_shape dyn t u g tsd nc f c e : frame_step dyn t u g tsd nc f c = Some e -> e_child e = true -> e_new e = None /\ e_kill e = None.
Proof. intros F C. fs_cases F; brk F; inversion F; subst; cbn in C |- *; try discriminate C; auto. Qed.

Lemma new_stack dyn s t f r e c : (t < s_next s)%Z -> frame_step dyn t (s_next s) (s_g s) (th_tsd (s_th s t)) (th_nc (s_th s t)) f c = Some e ->
  th_stack (s_th (apply_eff s t (s_th s t) r e) t) = e_fr e ++ r.
Proof.
  intros L F. destruct (e_child e) eqn:C.
  - destruct (child_shape _ _ _ _ _ _ _ _ _ F C) as [X Y]. unfold apply_eff. rewrite C, X, Y. cbn. now rewrite upd_same.
  - rewrite apply_stack by exact C. rewrite Z.eqb_refl. destruct (e_new e); [|reflexivity]. destruct (Z.eqb_spec t (s_next s)); [lia|reflexivity].
Qed.

Lemma app_inv_base {A} (p q b : list A) : p ++ b = q ++ b -> p = q.
Proof. apply app_inv_tail. Qed.

Lemma unwind_short st : exists n, unwind st = [FApp AppTsd] \/ unwind st = [FClean CLChk n; FApp AppTsd].
Proof.
  induction st as [|f r IH]; [exists 0%Z; now left|]. cbn [unwind]. destruct f; try exact IH.
  - destruct k; try exact IH. eexists. now right.
  - destruct (pushed p); [eexists; now right|exact IH].
Qed.

Lemma own_cons t u c l : steps_by t ((u, c) :: l) = (if Z.eqb u t then 1 else 0) + steps_by t l.
Proof. unfold steps_by. cbn. destruct (Z.eqb u t); reflexivity. Qed.

Lemma stays_bound dyn M t base : forall l s n, (t < s_next s)%Z ->
  (forall p, th_stack (s_th s t) = p ++ base -> costs M p <= n) -> stays_in dyn M t base s l -> steps_by t l <= n.
Proof.
  induction l as [|[u c] l IH]; intros s n L CO H; [unfold steps_by; cbn; lia|].
  destruct H as (OW & s' & ST & H). rewrite own_cons. destruct (Z.eqb_spec u t) as [->|N].
  - destruct (OW eq_refl) as (A & LM & f & p & SK & AG). clear OW.
    specialize (CO (f :: p) SK). cbn [costs] in CO.
    apply step_view in ST. destruct ST as (_ & _ & V).
    destruct V as [E ->|E ->|E _ _ _ ->|f0 r0 E _ _ _ _ ->|f0 r0 E _ _ _ ->|r0 E SK0 _ ->|E SK0 ->|f0 r0 e SK0 U B F ->];
      try (subst c; discriminate A).
    + rewrite SK in SK0. injection SK0 as -> <-.
      enough (steps_by t l <= 13) by (cbn [cost] in CO; lia). eapply IH; [|intros q Q|exact H]; [cbn; exact L|].
      cbn in Q. rewrite upd_same in Q. cbn in Q. destruct (unwind_short (p ++ base)) as [m [X|X]]; rewrite X in Q;
        destruct q as [|f1 [|f2 [|f3 q]]]; cbn in Q; try discriminate Q; try (injection Q; intros; subst); cbn; lia.
    + rewrite SK in SK0. discriminate SK0.
    + rewrite SK in SK0. injection SK0 as <- <-.
      pose proof (step_cost M _ _ _ _ _ _ _ _ _ F A AG LM) as X.
      enough (steps_by t l <= costs M (e_fr e ++ p)) by (rewrite costs_app in *; lia).
      eapply IH; [|intros q Q|exact H]; [rewrite apply_next; destruct (e_new e); lia|].
      rewrite (new_stack dyn s t f (p ++ base) e c L F), app_assoc in Q. apply app_inv_tail in Q. subst q. lia.
  - destruct (other_stack dyn s u c s' t ST N L) as [X Y]. cbn [Nat.add]. eapply IH; [|intros q Q|exact H]; [lia|].
    destruct X as [X|X]; rewrite X in Q; [now apply CO|]. symmetry in Q. apply app_eq_nil in Q. destruct Q as [-> ->]. cbn. lia.
Qed.

Lemma live_below dyn s t : reach dyn any s -> th_live (s_th s t) = true -> (t < s_next s)%Z.
Proof.
  intros R LV. destruct (Z.lt_ge_cases t (s_next s)) as [L|L]; [exact L|].
  destruct (born_fresh _ (born_reach _ _ R) t L) as (_ & X & _). congruence.
Qed.

Lemma call_bound dyn M s t a s1 l f r : reach dyn any s -> th_stack (s_th s t) = f :: r -> open f = true ->
  step dyn s t (CCall a) = Some s1 -> stays_in dyn M t (f :: r) s1 l -> steps_by t l <= 40 + 3 * M.
Proof.
  intros R SK O ST H. pose proof ST as ST'. apply step_view in ST'. destruct ST' as (_ & LV & V).
  pose proof (live_below dyn s t R LV) as L.
  destruct V as [E ->|E ->|E _ _ _ ->|f0 r0 E _ _ _ _ ->|f0 r0 E _ _ _ ->|r0 E SK0 _ ->|E SK0 ->|f0 r0 e SK0 U B F ->]; try discriminate E.
  rewrite SK in SK0. injection SK0 as <- <-.
  eapply stays_bound; [|intros p P|exact H]; [rewrite apply_next; destruct (e_new e); lia|].
  rewrite (new_stack dyn s t f r e _ L F) in P.
  assert (X : exists k, e_fr e = api_frames a k ++ [f]).
  { destruct f; try discriminate O; cbn in F; destruct a; brk F; inversion F; subst; exists (g_calls (s_g s)); reflexivity. }
  destruct X as [k X]. rewrite X, <- app_assoc in P. cbn [app] in P. apply app_inv_tail in P. subst p.
  destruct a; try (cbn; lia). destruct expected; cbn; lia.
Qed.

(** A thread that need not wait can move. *)
Lemma can_move dyn s t : g_dead (s_g s) = false -> th_live (s_th s t) = true -> ~ must_wait s t ->
  exists c s', answers c = true /\ c <> CChild /\ c <> COk /\ step dyn s t c = Some s'.
Proof.
  intros D LV NW. destruct (th_stack (s_th s t)) as [|f r] eqn:SK.
  { exists CStep. eexists. split; [reflexivity|]. split; [discriminate|]. split; [discriminate|]. unfold step. rewrite D, LV, SK. reflexivity. }
  destruct (is_unwind f) eqn:U.
  { destruct f; try discriminate U. exists CStep. eexists. split; [reflexivity|]. split; [discriminate|]. split; [discriminate|].
    unfold step. rewrite D, LV, SK. cbn [orb negb is_unwind].
    destruct (existsb locked r) eqn:E; [|reflexivity]. exfalso. apply NW. exists FUnwind, r. auto. }
  assert (K : forall c e, answers c = true -> c <> CChild -> c <> COk ->
    frame_step dyn t (s_next s) (s_g s) (th_tsd (s_th s t)) (th_nc (s_th s t)) f c = Some e ->
    exists c s', answers c = true /\ c <> CChild /\ c <> COk /\ step dyn s t c = Some s').
  { intros c e A N1 N2 F. exists c. eexists. split; [exact A|]. split; [exact N1|]. split; [exact N2|]. unfold step. rewrite D, LV, SK, U. cbn [orb negb].
    destruct c; try discriminate A; cbn [barred]; rewrite F; reflexivity. }
  destruct (auto_step dyn t (s_g s) (th_tsd (s_th s t)) (th_nc (s_th s t)) f) as [e|] eqn:F.
  { apply (K CStep e); auto; discriminate. }
  assert (W : waiting f = true /\ g_lock (s_g s) <> None \/ f = FEPWait /\ g_pdone (s_g s) = false -> False)
    by (intros X; apply NW; exists f, r; split; [exact SK|tauto]).
  destruct f; try discriminate U;
    try (eapply (K (CRet 0%Z)); [reflexivity|discriminate|discriminate|reflexivity]);
    try (eapply (K CFail); [reflexivity|discriminate|discriminate|reflexivity]).
  all: try (exfalso; cbn in F; unfold ret, go, call, cancel, bt_step, cl_step in F; brk F; try discriminate F;
    apply W; cbn; (left; split; [reflexivity|congruence]) || (right; split; [reflexivity|assumption])).
Qed.

Lemma must_wait_dec s t : must_wait s t \/ ~ must_wait s t.
Proof.
  unfold must_wait. destruct (th_stack (s_th s t)) as [|f r]; [right; intros (f & r & X & _); discriminate X|].
  assert (D : forall b1 b2 b3 : bool, ((waiting f = true /\ g_lock (s_g s) <> None) \/ (f = FEPWait /\ g_pdone (s_g s) = false) \/ (f = FUnwind /\ existsb locked r = true)) \/
    ~ ((waiting f = true /\ g_lock (s_g s) <> None) \/ (f = FEPWait /\ g_pdone (s_g s) = false) \/ (f = FUnwind /\ existsb locked r = true))).
  { intros _ _ _.
    assert (A : (waiting f = true /\ g_lock (s_g s) <> None) \/ ~ (waiting f = true /\ g_lock (s_g s) <> None)).
    { destruct (waiting f); [|right; intros [X _]; discriminate X]. destruct (g_lock (s_g s)); [left; split; [reflexivity|discriminate]|right; intros [_ X]; now apply X]. }
    destruct A as [A|A]; [tauto|].
    assert (B : (f = FEPWait /\ g_pdone (s_g s) = false) \/ ~ (f = FEPWait /\ g_pdone (s_g s) = false)).
    { destruct f; try (right; intros [X _]; discriminate X). destruct (g_pdone (s_g s)); [right; intros [_ X]; discriminate X|left; auto]. }
    destruct B as [B|B]; [tauto|].
    assert (C : (f = FUnwind /\ existsb locked r = true) \/ ~ (f = FUnwind /\ existsb locked r = true)).
    { destruct f; try (right; intros [X _]; discriminate X). destruct (existsb locked r); [left; auto|right; intros [_ X]; discriminate X]. }
    tauto. }
  destruct (D true true true) as [X|X]; [left; exists f, r; auto|right]. intros (f' & r' & E & Y). injection E as <- <-. contradiction.
Qed.

Definition ins (f : frame) : nat :=
  match f with
  | FMain | FEPGet _ | FEPCas _ _ | FEPWin _ _ | FEPBegin _ | FCb _ (KBeginExit _) | FPExit
  | FSUsed | FSLock _ | FSSet _ | FSUnlock _ | FSInstall _ | FSMain _ => 1
  | FBT p _ => match p with BTSelf | BTTsd | BTLock | BTChk | BTRead | BTNum _ | BTIns => 1 | _ => 0 end
  | _ => 0
  end.
Fixpoint inss (l : list frame) : nat := match l with [] => 0 | f :: r => ins f + inss r end.
Lemma inss_app l r : inss (l ++ r) = inss l + inss r.
Proof. induction l as [|f l IH]; cbn [app inss]; [reflexivity|lia]. Qed.

Lemma filter_len {A} (p : A -> bool) l : length (filter p l) <= length l.
Proof. induction l as [|x l IH]; cbn; [lia|]. destruct (p x); cbn; lia. Qed.

Lemma reset_len tsd g : length (g_list (reset_list tsd g)) <= length (g_list g).
Proof.
  unfold reset_list. destruct (g_used g); [|lia]. destruct (get_tn g tsd) as [n|]; [destruct (Z.eqb n MAIN_TN)|]; cbn; lia.
Qed.

Lemma step_ins dyn t u g tsd nc f c e : frame_step dyn t u g tsd nc f c = Some e -> answers c = true ->
  length (g_list (e_g e)) + inss (e_fr e) <= length (g_list g) + ins f.
Proof.
  intros H A. fs_cases H; try discriminate A; brk H; inversion H; subst; clear H; cbn [e_g e_fr inss ins resume];
    try (cbn; lia); try (pose proof (reset_len tsd g); cbn; lia);
    try (unfold list_insert, list_delete; destruct (memb _ _); cbn; try lia; unfold without; pose proof (filter_len (fun x => negb (Z.eqb x n)) (g_list g)); lia).
Qed.

(** How the code above [base] can end. *)
Definition ended (s : state) (t : Z) (base : list frame) : Prop :=
  th_stack (s_th s t) = base \/ g_dead (s_g s) = true \/
  exists f p, th_stack (s_th s t) = f :: p ++ base /\ (again f = true \/ f = FUnwind \/ must_wait s t).

Section Kept.
  Variable mild : frame -> bool.
  Hypothesis MILD : forall dyn t u g tsd nc f c e, frame_step dyn t u g tsd nc f c = Some e -> answers c = true -> mild f = true -> forallb mild (e_fr e) = true.
  Variable calm : bool.
  Hypothesis CALM : forall dyn t u g tsd nc f c e, frame_step dyn t u g tsd nc f c = Some e -> answers c = true -> c <> COk -> mild f = true -> calm = true -> g_dead (e_g e) = g_dead g.

  Lemma gets_out dyn M t base : forall n s p, (t < s_next s)%Z -> g_dead (s_g s) = false -> th_live (s_th s t) = true -> th_stack (s_th s t) = p ++ base ->
    length (g_list (s_g s)) + inss p <= M -> costs M p <= n -> forallb mild p = true ->
    exists l s', forallb answers l = true /\ run dyn s (map (pair t) l) = Some s' /\ ended s' t base /\
      (calm = true -> g_dead (s_g s') = false) /\
      (g_dead (s_g s') = true \/ exists q, th_stack (s_th s' t) = q ++ base /\ forallb mild q = true).
  Proof.
    induction n as [|n IH]; intros s p L D LV SK LM CO MI.
    - destruct p as [|f p]; [exists [], s; repeat split; [left; exact SK|intros _; exact D|right; exists []; auto]|]. exfalso. cbn [costs] in CO. destruct f; cbn in CO; try lia.
      + destruct p0; cbn in CO; lia.
      + destruct p0; cbn in CO; lia.
    - assert (STOP : ended s t base -> exists l s', forallb answers l = true /\ run dyn s (map (pair t) l) = Some s' /\ ended s' t base /\ (calm = true -> g_dead (s_g s') = false) /\
        (g_dead (s_g s') = true \/ exists q, th_stack (s_th s' t) = q ++ base /\ forallb mild q = true)).
      { intros E. exists [], s. repeat split; auto. right. exists p. auto. }
      destruct p as [|f p]; [apply STOP; left; exact SK|].
      destruct (again f) eqn:AG; [apply STOP; right; right; exists f, p; auto|].
      destruct (is_unwind f) eqn:U; [destruct f; try discriminate U; apply STOP; right; right; exists FUnwind, p; auto|].
      destruct (must_wait_dec s t) as [W|W]; [apply STOP; right; right; exists f, p; auto|].
      destruct (can_move dyn s t D LV W) as (c & s1 & A & N1 & N2 & ST).
      pose proof ST as V. apply step_view in V. destruct V as (_ & _ & V).
      destruct V as [E ->|E ->|E _ _ _ ->|f0 r0 E _ _ _ _ ->|f0 r0 E _ _ _ ->|r0 E SK0 _ ->|E SK0 ->|f0 r0 e SK0 U0 B F ->];
        try (subst c; discriminate A).
      + rewrite SK in SK0. injection SK0 as -> _. discriminate U.
      + rewrite SK in SK0. discriminate SK0.
      + rewrite SK in SK0. injection SK0 as <- <-.
        assert (LM' : length (g_list (s_g s)) <= M) by (cbn [inss] in LM; lia).
        pose proof (step_cost M _ _ _ _ _ _ _ _ _ F A AG LM') as X.
        pose proof (step_ins _ _ _ _ _ _ _ _ _ F A) as Y.
        pose proof (new_stack dyn s t f (p ++ base) e c L F) as SK1.
        assert (CH : e_child e = false) by (fs_cases F; try (now destruct N1); try discriminate A; brk F; inversion F; subst; reflexivity).
        cbn [forallb] in MI. apply andb_prop in MI. destruct MI as [M1 M2].
        assert (MI1 : forallb mild (e_fr e ++ p) = true) by (rewrite forallb_app, M2, (MILD _ _ _ _ _ _ _ _ _ F A M1); reflexivity).
        destruct (g_dead (s_g (apply_eff s t (s_th s t) (p ++ base) e))) eqn:D1.
        * exists [c], (apply_eff s t (s_th s t) (p ++ base) e). cbn [map run forallb]. rewrite ST, A.
          repeat split; [right; left; exact D1| |left; exact D1].
          intros C. rewrite apply_g in D1 |- *. now rewrite (CALM _ _ _ _ _ _ _ _ _ F A N2 M1 C).
        * destruct (IH (apply_eff s t (s_th s t) (p ++ base) e) (e_fr e ++ p)) as (l & s' & A' & R' & E' & C' & Q').
          -- rewrite apply_next. destruct (e_new e); lia.
          -- exact D1.
          -- rewrite apply_live, Z.eqb_refl by exact CH. destruct (e_new e); [|reflexivity]. destruct (Z.eqb t (s_next s)); reflexivity.
          -- rewrite SK1. apply app_assoc.
          -- rewrite apply_g, inss_app. cbn [inss] in LM. lia.
          -- cbn [costs] in CO. rewrite costs_app. lia.
          -- exact MI1.
          -- exists (c :: l), s'. cbn [map run forallb]. rewrite ST, A, A'. auto.
  Qed.
End Kept.

(** Calls that do not end the process or the thread. *)
Definition mild (f : frame) : bool :=
  match f with
  | FCb _ k => match k with KNone | KInitProcess | KPreCreate _ _ | KPreFork => true | _ => false end
  | FCall _ | FBeginLib | FBPCas _ _ | FBPReset _ | FBPLib _ | FBPDone _ | FBPInit _ | FBPStore _
  | FPCInit _ | FPCInfo _ | FPCIgn _ _ | FPCSup _ _ | FPCSupSet _ _ | FPCPre _ _ | FPCGot _ _ _
  | FPCReal0 _ | FPCLock _ _ _ | FPCPick _ _ _ | FPCTake _ _ _ _ | FPCArray _ _ _ | FPCInc _ _ _ _
  | FPCZero _ _ _ _ | FPCUnlock _ _ _ _ | FPCFill _ _ _ _ | FPCReal _ _ _ | FPCPost _ _ _ | FPCEnd _ _ | FPCRet _
  | FPreFork | FForkGo _ | FForkRet | FRForkGo | FRFReset
  | FQuery _ | FInfo | FBlock | FBlock2 | FUnblock | FIgnore _
  | FBc _ | FBcTry _ | FBcFirst _ | FBcNode _ _ | FBcMain _ | FBcUnlock | FExec false => true
  | _ => false
  end.
Lemma mild_step dyn t u g tsd nc f c e : frame_step dyn t u g tsd nc f c = Some e -> answers c = true -> mild f = true -> forallb mild (e_fr e) = true.
Proof.
  intros H A MI. fs_cases H; try discriminate A; try discriminate MI; brk H; inversion H; subst; clear H; try reflexivity; try discriminate MI.
Qed.

Lemma call_frames dyn s t a s1 f r : reach dyn any s -> th_stack (s_th s t) = f :: r -> open f = true ->
  step dyn s t (CCall a) = Some s1 -> (t < s_next s1)%Z /\ th_live (s_th s1 t) = true /\ g_list (s_g s1) = g_list (s_g s) /\ g_dead (s_g s1) = false /\
    exists k, th_stack (s_th s1 t) = api_frames a k ++ f :: r.
Proof.
  intros R SK O ST. pose proof ST as ST'. apply step_view in ST'. destruct ST' as (D & LV & V).
  pose proof (live_below dyn s t R LV) as L.
  destruct V as [E ->|E ->|E _ _ _ ->|f0 r0 E _ _ _ _ ->|f0 r0 E _ _ _ ->|r0 E SK0 _ ->|E SK0 ->|f0 r0 e SK0 U B F ->]; try discriminate E.
  rewrite SK in SK0. injection SK0 as <- <-.
  assert (X : exists k, e_fr e = api_frames a k ++ [f]).
  { destruct f; try discriminate O; cbn in F; destruct a; brk F; inversion F; subst; exists (g_calls (s_g s)); reflexivity. }
  assert (Y : e_child e = false /\ e_new e = None /\ g_list (e_g e) = g_list (s_g s) /\ g_dead (e_g e) = g_dead (s_g s)).
  { destruct f; try discriminate O; cbn in F; destruct a; brk F; inversion F; subst; cbn; auto. }
  destruct X as [k X]. destruct Y as (Y1 & Y2 & Y3 & Y4).
  rewrite apply_next, Y2, apply_g, apply_live, Z.eqb_refl by exact Y1. rewrite Y2, Y3, Y4.
  repeat split; auto. exists k. rewrite (new_stack dyn s t f r e _ L F), X, <- app_assoc. reflexivity.
Qed.

Lemma mild_again f : mild f = true -> again f = false.
Proof. destruct f; intros H; try discriminate H; reflexivity. Qed.

Lemma other_live dyn s u c s1 t : step dyn s u c = Some s1 -> u <> t -> (t < s_next s)%Z ->
  th_live (s_th s t) = false -> th_live (s_th s1 t) = false.
Proof.
  intros H N L LV. apply step_view in H. destruct H as (_ & _ & V).
  destruct V as [E ->|E ->|E _ _ _ ->|f0 r0 E _ _ _ _ ->|f0 r0 E _ _ _ ->|r0 E _ _ ->|E _ ->|f r e ST U B F ->];
    try (cbn; now rewrite upd_other by auto).
  destruct (e_child e) eqn:C.
  - destruct (child_shape _ _ _ _ _ _ _ _ _ F C) as [X Y]. unfold apply_eff. rewrite C, X, Y. cbn. rewrite upd_other by auto. reflexivity.
  - rewrite apply_live by exact C. destruct (Z.eqb_spec t u) as [->|_]; [congruence|].
    destruct (e_new e); [|exact LV]. destruct (Z.eqb_spec t (s_next s)); [lia|exact LV].
Qed.

Lemma inside_mild dyn t base : forall l s s' p, (t < s_next s)%Z -> th_stack (s_th s t) = p ++ base -> forallb mild p = true -> base <> [] ->
  inside dyn t base s l s' -> (exists q, th_stack (s_th s' t) = q ++ base /\ forallb mild q = true) \/ th_stack (s_th s' t) = [].
Proof.
  induction l as [|[u c] l IH]; intros s s' p L SK MI NB H; [cbn in H; subst; left; eauto|].
  destruct H as (OW & s1 & ST & H). destruct (Z.eq_dec u t) as [->|N].
  - destruct (OW eq_refl) as (A & f & q & SK'). rewrite SK in SK'. assert (E : p = f :: q) by (apply (app_inv_tail base); exact SK'). subst p. clear SK' OW.
    cbn [forallb] in MI. apply andb_prop in MI. destruct MI as [M1 M2].
    apply step_view in ST. destruct ST as (_ & _ & V).
    destruct V as [E ->|E ->|E _ _ _ ->|f0 r0 E _ _ _ _ ->|f0 r0 E _ _ _ ->|r0 E SK0 _ ->|E SK0 ->|f0 r0 e SK0 U B F ->];
      try (subst c; discriminate A).
    + rewrite SK in SK0. injection SK0 as -> _. discriminate M1.
    + rewrite SK in SK0. discriminate SK0.
    + rewrite SK in SK0. injection SK0 as <- <-.
      eapply (IH _ _ (e_fr e ++ q)); [| | |exact NB|exact H].
      * rewrite apply_next; destruct (e_new e); lia.
      * rewrite (new_stack dyn s t f (q ++ base) e c L F). apply app_assoc.
      * rewrite forallb_app, M2, (mild_step _ _ _ _ _ _ _ _ _ F A M1). reflexivity.
  - destruct (other_stack dyn s u c s1 t ST N L) as [[X|X] Y].
    + apply (IH s1 s' p); [lia|rewrite X; exact SK|exact MI|exact NB|exact H].
    + right. clear IH SK MI ST OW. assert (L1 : (t < s_next s1)%Z) by lia. clear L Y N u c s p. revert s1 X L1 H.
      induction l as [|[u c] l IH]; intros s1 X L1 H; [cbn in H; subst; exact X|].
      destruct H as (OW & s2 & ST & H). destruct (Z.eq_dec u t) as [->|N].
      * destruct (OW eq_refl) as (_ & f & q & SK). rewrite X in SK. discriminate SK.
      * destruct (other_stack dyn s1 u c s2 t ST N L1) as [[Z|Z] Y]; (apply (IH s2); [congruence|lia|exact H]).
Qed.

Lemma mild_waits s t q base : th_stack (s_th s t) = q ++ base -> forallb mild q = true -> q <> [] -> must_wait s t -> 
  exists f p, th_stack (s_th s t) = f :: p /\ waiting f = true /\ g_lock (s_g s) <> None.
Proof.
  intros SK MI N (f & r & E & H). destruct q as [|f0 q]; [congruence|]. rewrite SK in E. injection E as -> E. exists f, (q ++ base).
  split; [exact SK|]. cbn in MI. apply andb_prop in MI. destruct MI as [MI _].
  destruct H as [H|[[-> _]|[-> _]]]; [exact H|discriminate MI|discriminate MI].
Qed.

Lemma api_mild a k : ordinary a = true -> forallb mild (api_frames a k) = true.
Proof. destruct a; intros H; try discriminate H; try reflexivity. destruct expected; [discriminate H|reflexivity]. Qed.

Lemma mild_calm dyn t u g tsd nc f c e : frame_step dyn t u g tsd nc f c = Some e -> answers c = true -> c <> COk -> mild f = true -> true = true -> g_dead (e_g e) = g_dead g.
Proof.
  intros H A N MI _. fs_cases H; try discriminate A; try discriminate MI; try (now destruct N); brk H; inversion H; subst; clear H; cbn; try reflexivity.
  all: unfold reset_list; destruct (g_used g); [|reflexivity]; destruct (get_tn g tsd) as [n|]; [destruct (Z.eqb n MAIN_TN)|]; reflexivity.
Qed.
