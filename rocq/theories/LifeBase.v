(** Proof infrastructure for the life-cycle machine: the shape of a step. *)
From Verif Require Export LifeSpec.

(** ** Runs and reachability *)

Lemma run_app dyn l1 l2 s :
  run dyn s (l1 ++ l2) = match run dyn s l1 with Some s' => run dyn s' l2 | None => None end.
Proof.
  revert s. induction l1 as [|[t c] l1 IH]; intros s; [reflexivity|].
  cbn. destruct (step dyn s t c); auto.
Qed.

Lemma reach_run dyn l s : run dyn init l = Some s -> reach dyn any s.
Proof.
  revert s. induction l as [|[t c] l IH] using rev_ind; intros s H.
  - inversion H; subst. constructor.
  - rewrite run_app in H. destruct (run dyn init l) as [s1|] eqn:E; [|discriminate].
    cbn in H. destruct (step dyn s1 t c) as [s2|] eqn:E2; [|discriminate].
    inversion H; subst. eapply reach_step; eauto. exact I.
Qed.

Lemma run_reach dyn s : reach dyn any s -> exists l, run dyn init l = Some s.
Proof.
  induction 1 as [|s t c s' _ [l IH] _ Hs].
  - exists []. reflexivity.
  - exists (l ++ [(t, c)]). rewrite run_app, IH. cbn. now rewrite Hs.
Qed.

Lemma reach_weaken dyn (ok ok' : state -> Z -> choice -> Prop) s :
  (forall s t c, ok s t c -> ok' s t c) -> reach dyn ok s -> reach dyn ok' s.
Proof. intros W H. induction H; [constructor|]. eapply reach_step; eauto. Qed.

(** Induction over executions. *)
Lemma reach_invariant dyn ok (P : state -> Prop) :
  P init ->
  (forall s t c s', reach dyn ok s -> P s -> ok s t c -> step dyn s t c = Some s' -> P s') ->
  forall s, reach dyn ok s -> P s.
Proof. intros H0 HS s H. induction H; eauto. Qed.

(** ** The shape of a step *)

Inductive view (dyn : bool) (s : state) (t : Z) (c : choice) (s' : state) : Prop :=
| VSignal : c = CSignal ->
    s' = set_th s t (with_stack (s_th s t) (FApp AppHandler :: th_stack (s_th s t))) ->
    view dyn s t c s'
| VFatal : c = CFatal ->
    s' = set_th s t (with_stack (s_th s t)
           (FEPGet EXIT_SIGNAL :: FEndLibDyn :: FSigEnd :: th_stack (s_th s t))) ->
    view dyn s t c s'
| VShoot : c = CShoot -> th_pend (s_th s t) = true -> g_shoot (s_g s) = true ->
    existsb in_shoot (th_stack (s_th s t)) = false ->
    s' = add_ev [EDeliver t]
           (set_th s t (mkth (FHGet :: th_stack (s_th s t)) (th_tsd (s_th s t)) true
                             (th_nc (s_th s t)) false)) ->
    view dyn s t c s'
| VSync f r : c = CSync -> th_pend (s_th s t) = true -> th_stack (s_th s t) = f :: r ->
    open f = true -> existsb in_shoot (th_stack (s_th s t)) = false ->
    s' = add_ev [EDeliver t]
           (set_th s t (mkth (FWGet :: th_stack (s_th s t)) (th_tsd (s_th s t)) true
                             (th_nc (s_th s t)) false)) ->
    view dyn s t c s'
| VCancel f r : c = CCancel -> th_stack (s_th s t) = f :: r -> th_nc (s_th s t) = false ->
    existsb locked (th_stack (s_th s t)) = false ->
    s' = set_th s t (with_stack (s_th s t) (unwind (th_stack (s_th s t)))) ->
    view dyn s t c s'
| VUnwind r : c = CStep -> th_stack (s_th s t) = FUnwind :: r -> existsb locked r = false ->
    s' = set_th s t (with_stack (s_th s t) (unwind r)) ->
    view dyn s t c s'
| VEnd : c = CStep -> th_stack (s_th s t) = [] ->
    s' = add_ev [EEnd t] (set_th s t (mkth [] (th_tsd (s_th s t)) false (th_nc (s_th s t))
                                           (th_pend (s_th s t)))) ->
    view dyn s t c s'
| VFrame f r e : th_stack (s_th s t) = f :: r -> is_unwind f = false ->
    barred c (f :: r) = false ->
    frame_step dyn t (s_next s) (s_g s) (th_tsd (s_th s t)) (th_nc (s_th s t)) f c = Some e ->
    s' = apply_eff s t (s_th s t) r e ->
    view dyn s t c s'.

Lemma step_view dyn s t c s' :
  step dyn s t c = Some s' ->
  g_dead (s_g s) = false /\ th_live (s_th s t) = true /\ view dyn s t c s'.
Proof.
  unfold step. intros H.
  destruct (g_dead (s_g s)) eqn:D; [discriminate|]. cbn [orb] in H.
  destruct (th_live (s_th s t)) eqn:L; [|discriminate]. cbn [negb] in H.
  split; [reflexivity|]. split; [reflexivity|].
  assert (F : match th_stack (s_th s t) with
     | [] => match c with
             | CStep => Some (add_ev [EEnd t]
                  (set_th s t (mkth [] (th_tsd (s_th s t)) false (th_nc (s_th s t))
                                    (th_pend (s_th s t)))))
             | _ => None
             end
     | f :: rest =>
          if is_unwind f
          then match c with
               | CStep => if existsb locked rest then None
                          else Some (set_th s t (with_stack (s_th s t) (unwind rest)))
               | _ => None
               end
          else if barred c (f :: rest) then None
          else option_map (apply_eff s t (s_th s t) rest)
                 (frame_step dyn t (s_next s) (s_g s) (th_tsd (s_th s t)) (th_nc (s_th s t)) f c)
     end = Some s' -> view dyn s t c s').
  { clear H. intros H. destruct (th_stack (s_th s t)) as [|f r] eqn:Es.
    - destruct c; try discriminate. inversion H; subst. now apply VEnd.
    - destruct (is_unwind f) eqn:U.
      + destruct f; try discriminate. destruct c; try discriminate.
        destruct (existsb locked r) eqn:Lk; [discriminate|].
        inversion H; subst. eapply VUnwind; eauto.
      + destruct (barred c (f :: r)) eqn:B; [discriminate|].
        destruct (frame_step dyn t (s_next s) (s_g s) (th_tsd (s_th s t)) (th_nc (s_th s t)) f c)
          as [e|] eqn:E; [|discriminate].
        inversion H. eapply VFrame; eauto. }
  destruct c; try (apply F; exact H); clear F.
  - inversion H; subst. now apply VSignal.
  - inversion H; subst. now apply VFatal.
  - destruct (th_pend (s_th s t)) eqn:P; [|discriminate].
    destruct (g_shoot (s_g s)) eqn:G; [|discriminate].
    destruct (existsb in_shoot (th_stack (s_th s t))) eqn:X; [discriminate|].
    inversion H; subst. now apply VShoot.
  - destruct (th_stack (s_th s t)) as [|f r] eqn:Es; [discriminate|].
    destruct (th_pend (s_th s t)) eqn:P; [|discriminate].
    destruct (open f) eqn:G; [|discriminate].
    destruct (existsb in_shoot (f :: r)) eqn:X; [discriminate|].
    inversion H; subst. eapply VSync; rewrite ?Es; eauto.
  - destruct (th_stack (s_th s t)) as [|f r] eqn:Es; [discriminate|].
    destruct (th_nc (s_th s t)) eqn:P; [discriminate|].
    destruct (negb false && (open f || match f with FEPWait => true | _ => false end)) eqn:G;
      [|discriminate].
    destruct (existsb locked (f :: r)) eqn:X; [discriminate|].
    inversion H; subst. eapply VCancel; rewrite ?Es; eauto.
Qed.

(** Case analysis on the step of a frame: one goal per outcome. *)
Ltac brk H :=
  repeat match type of H with
  | None = Some _ => discriminate H
  | context [match ?x with _ => _ end] => let E := fresh "E" in destruct x eqn:E
  end.
Ltac fs_cases H :=
  match type of H with
  | frame_step _ _ _ _ _ _ ?f ?c = Some _ =>
      destruct c; cbn [frame_step] in H; try discriminate H;
      destruct f; cbn [auto_step] in H; try discriminate H;
      try match type of H with bt_step _ _ _ _ ?p _ = Some _ => destruct p; cbn [bt_step] in H end;
      try match type of H with cl_step _ _ _ _ ?p _ = Some _ => destruct p; cbn [cl_step] in H end
  end;
  unfold ret, go, call, cancel, list_insert, list_delete in H; cbv zeta in H;
  try match type of H with context [plain_cb ?p] => destruct p; cbn [plain_cb] in H end;
  try match type of H with context [resume ?k _] => destruct k; cbn [resume] in H end;
  try match type of H with context [api_frames ?a _] => destruct a end;
  try match type of H with context [api_frames (AExec ?b) _] => destruct b end;
  cbn [api_frames app] in H.

(** ** Sums over stacks and histories *)
Fixpoint wsum {A} (w : A -> nat) (l : list A) : nat :=
  match l with [] => 0%nat | x :: r => (w x + wsum w r)%nat end.

Lemma wsum_app A (w : A -> nat) l1 l2 : wsum w (l1 ++ l2) = (wsum w l1 + wsum w l2)%nat.
Proof. induction l1; cbn; lia. Qed.

(** Histories restricted to an image, or whole. *)
Definition is_fork (e : event) : bool := match e with EFork _ => true | _ => false end.

Lemma image_app ev tr :
  existsb is_fork ev = false -> image (ev ++ tr) = ev ++ image tr.
Proof.
  induction ev as [|e ev IH]; [reflexivity|]. cbn. intros H.
  destruct e; cbn in H; try discriminate; now rewrite IH.
Qed.

Lemma upd_if A (f : Z -> A) k v x : upd f k v x = if x =? k then v else f x.
Proof. reflexivity. Qed.

(** The frame of a thread whose cleanup handler is pushed. *)
Definition pushed_frame (n : Z) (f : frame) : Prop :=
  (exists p, f = FBT p n /\ pushed p = true) \/ (exists c, f = FCb c (KInitThread n)).

Lemma unwind_shape st :
  unwind st = [FApp AppTsd] \/ exists n f, unwind st = [FClean CLChk n; FApp AppTsd]
    /\ In f st /\ pushed_frame n f.
Proof.
  induction st as [|f r IH]; [now left|].
  assert (D : unwind r = [FApp AppTsd] \/ exists n f0, unwind r = [FClean CLChk n; FApp AppTsd]
    /\ In f0 (f :: r) /\ pushed_frame n f0).
  { destruct IH as [IH|(n & p & IH & I & P)]; [now left|right].
    exists n, p. split; [exact IH|]. split; [now right|exact P]. }
  destruct f; try exact D.
  - destruct k; try exact D. right. exists n, (FCb c (KInitThread n)).
    split; [reflexivity|]. split; [now left|]. right. now exists c.
  - cbn [unwind]. destruct (pushed p) eqn:P; [|exact D].
    right. exists n, (FBT p n). split; [reflexivity|]. split; [now left|]. left. now exists p.
Qed.

(** Only one frame replaces itself by the forked child. *)
Lemma child_shape dyn t u g tsd nc f c e :
  frame_step dyn t u g tsd nc f c = Some e -> e_child e = true ->
  c = CChild /\ e_g e = g /\ e_tsd e = tsd /\ e_nc e = nc /\ e_ev e = [EFork t] /\
  e_new e = None /\ e_kill e = None /\
  ((exists d, f = FForkGo d /\ e_fr e = [FBPCas d true; FForkRet]) \/
   (f = FRForkGo /\ e_fr e = [FRFReset])).
Proof.
  intros H HC. fs_cases H; brk H; inversion H; subst; cbn in HC; try discriminate HC;
    repeat split; eauto.
Qed.

Lemma no_fork_ev dyn t u g tsd nc f c e :
  frame_step dyn t u g tsd nc f c = Some e -> e_child e = false ->
  existsb is_fork (e_ev e) = false.
Proof.
  intros H HC. fs_cases H; brk H; inversion H; subst; cbn in HC |- *; try discriminate HC;
    reflexivity.
Qed.

  Lemma apply_stack s t x r e t' :
    e_child e = false ->
    th_stack (s_th (apply_eff s t x r e) t') =
    match e_new e with
    | Some st => if t' =? s_next s then st else
                 if t' =? t then e_fr e ++ r else th_stack (s_th s t')
    | None => if t' =? t then e_fr e ++ r else th_stack (s_th s t')
    end.
  Proof.
    intros HC. unfold apply_eff. rewrite HC.
    assert (K : forall th k, th_stack (upd th k (mkth (th_stack (th k)) (th_tsd (th k))
                 (th_live (th k)) (th_nc (th k)) true) t') = th_stack (th t')).
    { intros th k. rewrite upd_if. destruct (Z.eqb_spec t' k); subst; reflexivity. }
    destruct (e_new e); destruct (e_kill e) as [k|]; cbn [s_th];
      rewrite ?K;
      try (destruct (Z.eqb_spec t' (s_next s)) as [->|N]; [now rewrite upd_same|rewrite (upd_other _ _ _ _ _ N)]);
      rewrite ?K; rewrite ?upd_if; destruct (t' =? t); reflexivity.
  Qed.

  Lemma apply_live s t x r e t' :
    e_child e = false ->
    th_live (s_th (apply_eff s t x r e) t') =
    match e_new e with
    | Some _ => if t' =? s_next s then true else
                 if t' =? t then true else th_live (s_th s t')
    | None => if t' =? t then true else th_live (s_th s t')
    end.
  Proof.
    intros HC. unfold apply_eff. rewrite HC.
    assert (K : forall th k, th_live (upd th k (mkth (th_stack (th k)) (th_tsd (th k))
                 (th_live (th k)) (th_nc (th k)) true) t') = th_live (th t')).
    { intros th k. rewrite upd_if. destruct (Z.eqb_spec t' k); subst; reflexivity. }
    destruct (e_new e); destruct (e_kill e) as [k|]; cbn [s_th];
      rewrite ?K;
      try (destruct (Z.eqb_spec t' (s_next s)) as [->|N]; [now rewrite upd_same|rewrite (upd_other _ _ _ _ _ N)]);
      rewrite ?K; rewrite ?upd_if; destruct (t' =? t); reflexivity.
  Qed.

  Lemma apply_tsd s t x r e t' :
    e_child e = false ->
    th_tsd (s_th (apply_eff s t x r e) t') =
    match e_new e with
    | Some _ => if t' =? s_next s then None else
                 if t' =? t then e_tsd e else th_tsd (s_th s t')
    | None => if t' =? t then e_tsd e else th_tsd (s_th s t')
    end.
  Proof.
    intros HC. unfold apply_eff. rewrite HC.
    assert (K : forall th k, th_tsd (upd th k (mkth (th_stack (th k)) (th_tsd (th k))
                 (th_live (th k)) (th_nc (th k)) true) t') = th_tsd (th t')).
    { intros th k. rewrite upd_if. destruct (Z.eqb_spec t' k); subst; reflexivity. }
    destruct (e_new e); destruct (e_kill e) as [k|]; cbn [s_th];
      rewrite ?K;
      try (destruct (Z.eqb_spec t' (s_next s)) as [->|N]; [now rewrite upd_same|rewrite (upd_other _ _ _ _ _ N)]);
      rewrite ?K; rewrite ?upd_if; destruct (t' =? t); reflexivity.
  Qed.

  Lemma apply_nc s t x r e t' :
    e_child e = false ->
    th_nc (s_th (apply_eff s t x r e) t') =
    match e_new e with
    | Some _ => if t' =? s_next s then false else
                 if t' =? t then e_nc e else th_nc (s_th s t')
    | None => if t' =? t then e_nc e else th_nc (s_th s t')
    end.
  Proof.
    intros HC. unfold apply_eff. rewrite HC.
    assert (K : forall th k, th_nc (upd th k (mkth (th_stack (th k)) (th_tsd (th k))
                 (th_live (th k)) (th_nc (th k)) true) t') = th_nc (th t')).
    { intros th k. rewrite upd_if. destruct (Z.eqb_spec t' k); subst; reflexivity. }
    destruct (e_new e); destruct (e_kill e) as [k|]; cbn [s_th];
      rewrite ?K;
      try (destruct (Z.eqb_spec t' (s_next s)) as [->|N]; [now rewrite upd_same|rewrite (upd_other _ _ _ _ _ N)]);
      rewrite ?K; rewrite ?upd_if; destruct (t' =? t); reflexivity.
  Qed.

  (** A pending shootdown signal was pending before or has just been sent. *)
  Lemma apply_pend s t x r e t' :
    e_child e = false -> th_pend x = th_pend (s_th s t) ->
    th_pend (s_th (apply_eff s t x r e) t') = true ->
    th_pend (s_th s t') = true \/ e_kill e = Some t'.
  Proof.
    intros HC HX. unfold apply_eff. rewrite HC.
    destruct (e_new e); destruct (e_kill e) as [k|]; cbn [s_th]; rewrite !upd_if;
      repeat match goal with |- context [Z.eqb ?a ?b] => destruct (Z.eqb_spec a b); subst end;
      cbn; rewrite ?upd_if, ?Z.eqb_refl; cbn; intros; try discriminate; auto; try congruence;
      left; congruence.
  Qed.

  Lemma apply_next s t x r e : s_next (apply_eff s t x r e) =
    match e_new e with Some _ => s_next s + 1 | None => s_next s end.
  Proof. unfold apply_eff. destruct (e_new e); reflexivity. Qed.

  Lemma apply_g s t x r e : s_g (apply_eff s t x r e) = e_g e.
  Proof. unfold apply_eff. destruct e as [? ? ? ? ? [?|] [?|] ?]; reflexivity. Qed.
  Lemma apply_tr s t x r e : s_tr (apply_eff s t x r e) = e_ev e ++ s_tr s.
  Proof. unfold apply_eff. destruct e as [? ? ? ? ? [?|] [?|] ?]; reflexivity. Qed.


(** ** Tokens

    A flag that is set once hands out one token; frames and events of weight one
    carry it. *)
Section Token.
  Context (dyn : bool) (ok : state -> Z -> choice -> Prop).
  Context (flag : glob -> bool) (wf : frame -> nat) (we : Z -> event -> nat).
  Context (h : list event -> list event).
  Definition phi (s : state) (t : Z) : nat :=
    (wsum wf (th_stack (s_th s t)) + wsum (we t) (h (s_tr s)))%nat.
  Definition token_inv (s : state) : Prop :=
    exists w, (forall t, (phi s t <= if Z.eqb t w then 1 else 0)%nat) /\
              (flag (s_g s) = false -> forall t, phi s t = 0%nat).

  Hypothesis H0 : forall t, phi init t = 0%nat.
  Hypothesis Hh : forall ev tr, existsb is_fork ev = false -> h (ev ++ tr) = ev ++ h tr.
  Hypothesis Hzero : forall f, In f [FApp AppHandler; FEPGet EXIT_SIGNAL; FEndLibDyn; FSigEnd;
                                     FHGet; FWGet; FApp AppTsd] -> wf f = 0%nat.
  Hypothesis Hclean : forall n, wf (FClean CLChk n) = 0%nat.
  Hypothesis Hev : forall t t', we t (EDeliver t') = 0%nat /\ we t (EEnd t') = 0%nat.
  Hypothesis Hloc : forall t u g tsd nc f c e,
    frame_step dyn t u g tsd nc f c = Some e -> e_child e = false ->
    (flag g = true -> flag (e_g e) = true) /\
    (wsum wf (e_fr e) + wsum (we t) (e_ev e)
       <= wf f + (if flag g then 0 else if flag (e_g e) then 1 else 0))%nat /\
    (forall t', t' <> t -> wsum (we t') (e_ev e) = 0%nat) /\
    (forall st, e_new e = Some st -> wsum wf st = 0%nat).
  Hypothesis Hchild : forall s t c s' f r e,
    token_inv s -> ok s t c -> th_stack (s_th s t) = f :: r ->
    frame_step dyn t (s_next s) (s_g s) (th_tsd (s_th s t)) (th_nc (s_th s t)) f c = Some e ->
    e_child e = true -> s' = apply_eff s t (s_th s t) r e -> token_inv s'.

  Lemma token_keep s s' :
    token_inv s -> s_g s' = s_g s -> (forall t, (phi s' t <= phi s t)%nat) -> token_inv s'.
  Proof.
    intros (w & A & B) G L. exists w. rewrite G. split; intros.
    - specialize (A t). specialize (L t). lia.
    - specialize (B H t). specialize (L t). lia.
  Qed.

  Lemma token_reach s : reach dyn ok s -> token_inv s.
  Proof.
    apply reach_invariant.
    - exists MAIN. split; intros; rewrite H0; [|reflexivity]. destruct (_ =? _); lia.
    - clear s. intros s t c s' R HI HO HS.
      apply step_view in HS. destruct HS as (_ & _ & V).
      assert (PH : forall st t', wsum wf (th_stack (upd (s_th s) t (with_stack (s_th s t) st) t'))
                  = if t' =? t then wsum wf st else wsum wf (th_stack (s_th s t'))).
      { intros. rewrite upd_if. destruct (_ =? _); reflexivity. }
      destruct V as [| | | | | | |f r e Hst Hun Hbar Hfs Es'].
      + subst. apply (token_keep s); auto. intros t'. unfold phi. cbn [set_th s_th s_tr].
        rewrite PH. destruct (Z.eqb_spec t' t); [subst; cbn|lia].
        rewrite Hzero by (cbn; auto). lia.
      + subst. apply (token_keep s); auto. intros t'. unfold phi. cbn [set_th s_th s_tr].
        rewrite PH. destruct (Z.eqb_spec t' t); [subst; cbn|lia].
        rewrite !Hzero by (cbn; tauto). lia.
      + subst. apply (token_keep s); auto. intros t'. unfold phi, add_ev. cbn [set_th s_th s_tr].
        rewrite (Hh [EDeliver t]) by reflexivity. cbn [wsum app]. rewrite (proj1 (Hev t' t)).
        rewrite upd_if. destruct (Z.eqb_spec t' t); [subst; cbn|lia].
        rewrite Hzero by (cbn; tauto). lia.
      + subst. apply (token_keep s); auto. intros t'. unfold phi, add_ev. cbn [set_th s_th s_tr].
        rewrite (Hh [EDeliver t]) by reflexivity. cbn [wsum app]. rewrite (proj1 (Hev t' t)).
        rewrite upd_if. destruct (Z.eqb_spec t' t); [subst; cbn|lia].
        rewrite Hzero by (cbn; tauto). lia.
      + subst. apply (token_keep s); auto. intros t'. unfold phi. cbn [set_th s_th s_tr].
        rewrite PH. destruct (Z.eqb_spec t' t); [subst|lia].
        destruct (unwind_shape (th_stack (s_th s t))) as [U|(n & p & U & _)]; rewrite U; cbn;
          rewrite ?Hclean, ?Hzero by (cbn; tauto); lia.
      + subst. apply (token_keep s); auto. intros t'. unfold phi. cbn [set_th s_th s_tr].
        rewrite PH. destruct (Z.eqb_spec t' t); [subst|lia].
        destruct (unwind_shape r) as [U|(n & p & U & _)]; rewrite U; cbn;
          rewrite ?Hclean, ?Hzero by (cbn; tauto); lia.
      + subst. apply (token_keep s); auto. intros t'. unfold phi, add_ev. cbn [set_th s_th s_tr].
        rewrite (Hh [EEnd t]) by reflexivity. cbn [wsum app]. rewrite (proj2 (Hev t' t)).
        rewrite upd_if. destruct (Z.eqb_spec t' t); [subst; cbn|]; lia.
      + destruct (e_child e) eqn:HC; [eapply Hchild; eauto|].
        pose proof (no_fork_ev _ _ _ _ _ _ _ _ _ Hfs HC) as NF.
        destruct (Hloc _ _ _ _ _ _ _ _ Hfs HC) as (F1 & F2 & F3 & F4).
        destruct HI as (w & A & B). unfold token_inv.
        assert (P : forall t', (phi s' t' <= if Z.eqb t' t then
                   phi s t + (if flag (s_g s) then 0 else if flag (e_g e) then 1 else 0)
                   else phi s t')%nat).
        { intros t'. unfold phi at 1. subst s'. rewrite apply_tr, (Hh _ _ NF), wsum_app, apply_stack by auto.
          assert (X : (wsum wf (if Z.eqb t' t then e_fr e ++ r else th_stack (s_th s t')) +
                      (wsum (we t') (e_ev e) + wsum (we t') (h (s_tr s)))
                      <= if Z.eqb t' t then
                   phi s t + (if flag (s_g s) then 0 else if flag (e_g e) then 1 else 0)
                   else phi s t')%nat).
          { destruct (Z.eqb_spec t' t).
            - subst t'. unfold phi. rewrite Hst, wsum_app. cbn [wsum]. lia.
            - rewrite F3 by auto. unfold phi. lia. }
          destruct (e_new e) as [st|] eqn:EN; [|exact X].
          destruct (Z.eqb_spec t' (s_next s)); [|exact X].
          rewrite (F4 st eq_refl).
          destruct (Z.eqb_spec t' t) as [E1|].
          - rewrite E1. unfold phi. rewrite Hst. cbn [wsum]. lia.
          - rewrite F3 by auto. unfold phi. lia. }
        replace (s_g s') with (e_g e) by (subst s'; now rewrite apply_g).
        destruct (flag (s_g s)) eqn:FL.
        * exists w. rewrite F1 by auto. split; [|discriminate].
          intros t'. specialize (P t'). pose proof (A t'). pose proof (A t).
          destruct (Z.eqb_spec t' t); [subst|]; lia.
        * specialize (B eq_refl). exists t.
          split.
          -- intros t'. specialize (P t'). rewrite !B in P.
             destruct (Z.eqb_spec t' t); destruct (flag (e_g e)); lia.
          -- intros FE t'. specialize (P t'). rewrite !B, FE in P.
             destruct (Z.eqb_spec t' t); lia.
  Qed.
End Token.

(** ** Invariants that hold of every frame on every stack *)

Lemma apply_stack_child s t x r e t' :
  e_child e = true -> e_new e = None -> e_kill e = None ->
  th_stack (s_th (apply_eff s t x r e) t') = if t' =? t then e_fr e ++ r else [].
Proof.
  intros HC HN HK. unfold apply_eff. rewrite HC, HN, HK. cbn [s_th].
  rewrite upd_if. destruct (t' =? t); reflexivity.
Qed.

Section FrameInv.
  Context (dyn : bool) (ok : state -> Z -> choice -> Prop).
  Context (Q : glob -> list event -> Z -> frame -> Prop).
  Definition fr_inv (s : state) : Prop :=
    forall t f, In f (th_stack (s_th s t)) -> Q (s_g s) (s_tr s) t f.

  Hypothesis Qinit : fr_inv init.
  Hypothesis Qev : forall g tr t f e t', e = EDeliver t' \/ e = EEnd t' ->
    Q g tr t f -> Q g (e :: tr) t f.
  Hypothesis Qpush : forall g tr t f,
    In f [FApp AppHandler; FEPGet EXIT_SIGNAL; FEndLibDyn; FSigEnd; FHGet; FWGet; FApp AppTsd] ->
    Q g tr t f.
  Hypothesis Qunw : forall g tr t n f, pushed_frame n f ->
    Q g tr t f -> Q g tr t (FClean CLChk n).
  Hypothesis Qstep : forall s t c f r e,
    reach dyn ok s -> fr_inv s -> ok s t c -> th_stack (s_th s t) = f :: r ->
    th_live (s_th s t) = true ->
    frame_step dyn t (s_next s) (s_g s) (th_tsd (s_th s t)) (th_nc (s_th s t)) f c = Some e ->
    (forall f', In f' (e_fr e) -> Q (e_g e) (e_ev e ++ s_tr s) t f') /\
    (forall t' f', (t' = t /\ In f' r) \/
                   (t' <> t /\ e_child e = false /\ In f' (th_stack (s_th s t'))) ->
                   Q (s_g s) (s_tr s) t' f' -> Q (e_g e) (e_ev e ++ s_tr s) t' f') /\
    (forall st f', e_new e = Some st -> In f' st -> Q (e_g e) (e_ev e ++ s_tr s) (s_next s) f').

  Lemma fr_reach s : reach dyn ok s -> fr_inv s.
  Proof.
    apply reach_invariant; [exact Qinit|]. clear s.
    intros s t c s' R HI HO HS. apply step_view in HS. destruct HS as (_ & LV & V).
    assert (UW : forall st t' f', (forall f, In f st -> In f (th_stack (s_th s t))) ->
       In f' (th_stack (upd (s_th s) t (with_stack (s_th s t) (unwind st)) t')) ->
       Q (s_g s) (s_tr s) t' f').
    { intros st t' f' I0 I. rewrite upd_if in I. destruct (Z.eqb_spec t' t); [subst t'; cbn in I|auto].
      destruct (unwind_shape st) as [U|(n & p & U & IB & P)]; rewrite U in I; cbn in I.
      - destruct I as [<-|[]]. apply Qpush. cbn; tauto.
      - destruct I as [<-|[<-|[]]].
        + eapply Qunw; eauto.
        + apply Qpush. cbn; tauto. }
    destruct V as [| | | | | | |f r e Hst Hun Hbar Hfs Es']; subst; intros t' f' I.
    - cbn in I |- *. rewrite upd_if in I. destruct (Z.eqb_spec t' t); [subst; cbn in I|auto].
      destruct I as [<-|I]; auto. apply Qpush. cbn; tauto.
    - cbn in I |- *. rewrite upd_if in I. destruct (Z.eqb_spec t' t); [subst; cbn in I|auto].
      destruct I as [<-|[<-|[<-|I]]]; auto; apply Qpush; cbn; tauto.
    - cbn in I |- *. apply (Qev _ _ _ _ _ t); [now left|].
      rewrite upd_if in I. destruct (Z.eqb_spec t' t); [subst; cbn in I|auto].
      destruct I as [<-|I]; auto; apply Qpush; cbn; tauto.
    - cbn in I |- *. apply (Qev _ _ _ _ _ t); [now left|].
      rewrite upd_if in I. destruct (Z.eqb_spec t' t); [subst; cbn in I|auto].
      destruct I as [<-|I]; auto; apply Qpush; cbn; tauto.
    - eapply (UW (th_stack (s_th s t))); eauto.
    - eapply (UW r); eauto. intros x Hx. rewrite H0. now right.
    - cbn in I |- *. apply (Qev _ _ _ _ _ t); [now right|].
      rewrite upd_if in I. destruct (Z.eqb_spec t' t); [subst; cbn in I; tauto|auto].
    - rewrite apply_g, apply_tr.
      destruct (Qstep _ _ _ _ _ _ R HI HO Hst LV Hfs) as (A & B & C).
      destruct (e_child e) eqn:HC.
      + destruct (child_shape _ _ _ _ _ _ _ _ _ Hfs HC) as (_ & _ & _ & _ & _ & HN & HK & _).
        rewrite apply_stack_child in I by auto.
        destruct (Z.eqb_spec t' t); [|destruct I]. subst t'.
        apply in_app_or in I. destruct I as [I|I]; auto.
        apply B; auto. apply HI. rewrite Hst. now right.
      + rewrite apply_stack in I by auto.
        assert (D : In f' (if t' =? t then e_fr e ++ r else th_stack (s_th s t')) ->
                    Q (e_g e) (e_ev e ++ s_tr s) t' f').
        { destruct (Z.eqb_spec t' t); intros J.
          - subst t'. apply in_app_or in J. destruct J as [J|J]; auto.
            apply B; auto. apply HI. rewrite Hst. now right.
          - apply B; auto. }
        destruct (e_new e) as [st|] eqn:EN; auto.
        destruct (Z.eqb_spec t' (s_next s)); auto. subst t'. eapply C; eauto.
  Qed.
End FrameInv.

(** ** Properties of histories: every event is justified by what precedes it *)

Definition hist (J : list event -> event -> Prop) (tr : list event) : Prop :=
  forall a e b, tr = a ++ e :: b -> J b e.

Lemma hist_cons J e tr : hist J tr -> J tr e -> hist J (e :: tr).
Proof.
  intros H HJ a x b E. destruct a as [|y a]; cbn in E; inversion E; subst; auto.
  eapply H; reflexivity.
Qed.

Fixpoint justified (J : list event -> event -> Prop) (ev tr : list event) : Prop :=
  match ev with
  | [] => True
  | e :: r => J (r ++ tr) e /\ justified J r tr
  end.

Lemma hist_app J ev tr : hist J tr -> justified J ev tr -> hist J (ev ++ tr).
Proof.
  induction ev as [|e r IH]; cbn; [auto|]. intros H [A B]. apply hist_cons; auto.
Qed.

Section Hist.
  Context (dyn : bool) (ok : state -> Z -> choice -> Prop).
  Context (J : list event -> event -> Prop).
  Hypothesis Jend : forall tr t, J tr (EEnd t).
  Hypothesis Jdel : forall tr t, J tr (EDeliver t).
  Hypothesis Jstep : forall s t c f r e,
    reach dyn ok s -> hist J (s_tr s) -> ok s t c -> th_stack (s_th s t) = f :: r ->
    th_live (s_th s t) = true ->
    frame_step dyn t (s_next s) (s_g s) (th_tsd (s_th s t)) (th_nc (s_th s t)) f c = Some e ->
    justified J (e_ev e) (s_tr s).

  Lemma hist_reach s : reach dyn ok s -> hist J (s_tr s).
  Proof.
    apply (reach_invariant dyn ok (fun s => hist J (s_tr s))).
    - intros a e b E. destruct a; discriminate.
    - clear s. intros s t c s' R HI HO HS. apply step_view in HS. destruct HS as (_ & LV & V).
      destruct V as [| | | | | | |f r e Hst Hun Hbar Hfs Es']; subst; try exact HI.
      + cbn. apply hist_cons; auto.
      + cbn. apply hist_cons; auto.
      + cbn. apply hist_cons; auto.
      + rewrite apply_tr. apply hist_app; eauto.
  Qed.
End Hist.

(** ** Invariants on the order of frames in a stack

    Going down a stack, a [mark] frame is met before any [cover] frame only when
    [Cond] holds. *)
Section Naked.
  Context (dyn : bool) (ok : state -> Z -> choice -> Prop).
  Context (cover mark : frame -> bool) (Cond : glob -> list event -> Z -> Prop).

  Fixpoint look (st : list frame) : option bool :=
    match st with
    | [] => None
    | f :: r => if cover f then Some false else if mark f then Some true else look r
    end.

  Lemma look_app a b : look (a ++ b) = match look a with Some x => Some x | None => look b end.
  Proof.
    induction a as [|f r IH]; [reflexivity|]. cbn.
    destruct (cover f); [reflexivity|]. destruct (mark f); [reflexivity|exact IH].
  Qed.

  Definition naked_inv (s : state) : Prop :=
    forall t, look (th_stack (s_th s t)) = Some true -> Cond (s_g s) (s_tr s) t.

  Hypothesis N0 : naked_inv init.
  Hypothesis Nev : forall g tr t e t', e = EDeliver t' \/ e = EEnd t' ->
    Cond g tr t -> Cond g (e :: tr) t.
  Hypothesis Npush1 : forall g tr t,
    look [FApp AppHandler] = Some true -> Cond g tr t.
  Hypothesis Npush2 : forall g tr t,
    look [FEPGet EXIT_SIGNAL; FEndLibDyn; FSigEnd] = Some true -> Cond g tr t.
  Hypothesis Npush3 : forall g tr t,
    look [FHGet] = Some true -> Cond g tr t.
  Hypothesis Npush4 : forall g tr t,
    look [FWGet] = Some true -> Cond g tr t.
  Hypothesis Nunw : forall n, look [FApp AppTsd] = None /\ look [FClean CLChk n; FApp AppTsd] = None.
  Hypothesis Nstep : forall s t c f r e,
    reach dyn ok s -> naked_inv s -> ok s t c -> th_stack (s_th s t) = f :: r ->
    th_live (s_th s t) = true ->
    frame_step dyn t (s_next s) (s_g s) (th_tsd (s_th s t)) (th_nc (s_th s t)) f c = Some e ->
    e_child e = false ->
    (forall t', Cond (s_g s) (s_tr s) t' -> Cond (e_g e) (e_ev e ++ s_tr s) t') /\
    (look (e_fr e) = Some true -> Cond (e_g e) (e_ev e ++ s_tr s) t) /\
    (look (e_fr e) = None -> cover f = true -> Cond (e_g e) (e_ev e ++ s_tr s) t) /\
    (forall st, e_new e = Some st -> look st = None).
  Hypothesis Nchild : forall s t c f r e,
    reach dyn ok s -> naked_inv s -> ok s t c -> th_stack (s_th s t) = f :: r ->
    frame_step dyn t (s_next s) (s_g s) (th_tsd (s_th s t)) (th_nc (s_th s t)) f c = Some e ->
    e_child e = true ->
    look (e_fr e ++ r) = Some true -> Cond (e_g e) (e_ev e ++ s_tr s) t.

  Lemma naked_reach s : reach dyn ok s -> naked_inv s.
  Proof.
    apply reach_invariant; [exact N0|]. clear s.
    intros s t c s' R HI HO HS. apply step_view in HS. destruct HS as (_ & LV & V).
    destruct V as [| | | | | | |f r e Hst Hun Hbar Hfs Es']; subst; intros t' L.
    - cbn [set_th s_th s_g s_tr] in *. rewrite upd_if in L.
      destruct (Z.eqb_spec t' t); [subst|apply HI; exact L].
      cbn [with_stack th_stack] in L. change (look ([FApp AppHandler] ++ th_stack (s_th s t)) = Some true) in L.
      rewrite look_app in L. destruct (look [FApp AppHandler]) as [[|]|] eqn:E; try discriminate.
      + apply Npush1; auto.
      + auto.
    - cbn [set_th s_th s_g s_tr] in *. rewrite upd_if in L.
      destruct (Z.eqb_spec t' t); [subst|apply HI; exact L].
      cbn [with_stack th_stack] in L.
      change (look ([FEPGet EXIT_SIGNAL; FEndLibDyn; FSigEnd] ++ th_stack (s_th s t)) = Some true) in L.
      rewrite look_app in L.
      destruct (look [FEPGet EXIT_SIGNAL; FEndLibDyn; FSigEnd]) as [[|]|] eqn:E; try discriminate.
      + apply Npush2; auto.
      + auto.
    - unfold add_ev in *. cbn [set_th s_th s_g s_tr app] in *. apply (Nev _ _ _ _ t); [now left|].
      rewrite upd_if in L. destruct (Z.eqb_spec t' t); [subst|apply HI; exact L].
      cbn [th_stack] in L. change (look ([FHGet] ++ th_stack (s_th s t)) = Some true) in L.
      rewrite look_app in L. destruct (look [FHGet]) as [[|]|] eqn:E; try discriminate.
      + apply Npush3; auto.
      + auto.
    - unfold add_ev in *. cbn [set_th s_th s_g s_tr app] in *. apply (Nev _ _ _ _ t); [now left|].
      rewrite upd_if in L. destruct (Z.eqb_spec t' t); [subst|apply HI; exact L].
      cbn [th_stack] in L. change (look ([FWGet] ++ th_stack (s_th s t)) = Some true) in L.
      rewrite look_app in L. destruct (look [FWGet]) as [[|]|] eqn:E; try discriminate.
      + apply Npush4; auto.
      + auto.
    - cbn [set_th s_th s_g s_tr] in *. rewrite upd_if in L.
      destruct (Z.eqb_spec t' t); [subst|apply HI; exact L]. cbn [with_stack th_stack] in L.
      destruct (unwind_shape (th_stack (s_th s t))) as [U|(n & p & U & _)]; rewrite U in L;
        [rewrite (proj1 (Nunw 0)) in L|rewrite (proj2 (Nunw n)) in L]; discriminate.
    - cbn [set_th s_th s_g s_tr] in *. rewrite upd_if in L.
      destruct (Z.eqb_spec t' t); [subst|apply HI; exact L]. cbn [with_stack th_stack] in L.
      destruct (unwind_shape r) as [U|(n & p & U & _)]; rewrite U in L;
        [rewrite (proj1 (Nunw 0)) in L|rewrite (proj2 (Nunw n)) in L]; discriminate.
    - unfold add_ev in *. cbn [set_th s_th s_g s_tr app] in *. apply (Nev _ _ _ _ t); [now right|].
      rewrite upd_if in L. destruct (Z.eqb_spec t' t); [subst; cbn in L; discriminate|apply HI; exact L].
    - rewrite apply_g, apply_tr.
      destruct (e_child e) eqn:HC.
      + destruct (child_shape _ _ _ _ _ _ _ _ _ Hfs HC) as (_ & _ & _ & _ & _ & HN & HK & _).
        rewrite apply_stack_child in L by auto.
        destruct (Z.eqb_spec t' t); [subst|discriminate]. eapply Nchild; eauto.
      + destruct (Nstep _ _ _ _ _ _ R HI HO Hst LV Hfs HC) as (A & B & C & F).
        rewrite apply_stack in L by auto.
        assert (X : look (if t' =? t then e_fr e ++ r else th_stack (s_th s t')) = Some true ->
                    Cond (e_g e) (e_ev e ++ s_tr s) t').
        { destruct (Z.eqb_spec t' t); [subst|intros; apply A, HI; auto].
          rewrite look_app. destruct (look (e_fr e)) as [[|]|] eqn:EL; intros X; try discriminate; auto.
          destruct (cover f) eqn:Ec; [auto|].
          apply A, HI. rewrite Hst. cbn. rewrite Ec. destruct (mark f); auto. }
        destruct (e_new e) as [st|] eqn:EN; auto.
        destruct (Z.eqb_spec t' (s_next s)); auto. rewrite (F st eq_refl) in L. discriminate.
  Qed.
End Naked.
