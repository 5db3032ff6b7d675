(** Proofs: the open calls in the history are the callback frames on the stack. *)
From Verif Require Export LifeNestSpec LifeBase LifeFacts.

Local Open Scope Z_scope.

Lemma within_app p q : within (p ++ q) = within p ++ within q.
Proof. induction p as [|f p IH]; cbn; [reflexivity|]. destruct f; cbn; now rewrite ?IH. Qed.

Lemma fs_opens dyn t u g tsd nc f c e tr J : frame_step dyn t u g tsd nc f c = Some e ->
  opens t tr = within [f] ++ J -> opens t (e_ev e ++ tr) = within (e_fr e) ++ J.
Proof.
  intros H O. fs_cases H; brk H; inversion H; subst; clear H; cbn in O |- *; rewrite ?Z.eqb_refl, ?O; try reflexivity.
Qed.

Lemma fs_other dyn t u g tsd nc f c e tr t' : frame_step dyn t u g tsd nc f c = Some e -> t' <> t ->
  opens t' (e_ev e ++ tr) = opens t' tr.
Proof.
  intros H N. assert (E : (t =? t') = false) by (apply Z.eqb_neq; congruence).
  fs_cases H; brk H; inversion H; subst; clear H; cbn; rewrite ?E; reflexivity.
Qed.

Lemma fs_ret dyn t u g tsd nc f c e x : frame_step dyn t u g tsd nc f c = Some e -> In x (e_ev e) ->
  match x with ERet t' c' v => t' = t /\ e_ev e = [x] /\ within [f] = [c'] | _ => True end.
Proof.
  intros H I. fs_cases H; brk H; inversion H; subst; clear H; cbn in I; repeat (destruct I as [<-|I]; [cbn; auto|]); destruct I.
Qed.

Lemma fs_child dyn t u g tsd nc f c e : frame_step dyn t u g tsd nc f c = Some e -> e_child e = true -> c = CChild /\ e_new e = None /\ e_kill e = None.
Proof. intros H C. fs_cases H; brk H; inversion H; subst; cbn in C |- *; try discriminate C; auto. Qed.

Lemma fs_new dyn t u g tsd nc f c e st : frame_step dyn t u g tsd nc f c = Some e -> e_new e = Some st -> within st = [].
Proof. intros H C. fs_cases H; brk H; inversion H; subst; cbn in C |- *; try discriminate C; injection C as <-; reflexivity. Qed.

Lemma unwind_within st : within (unwind st) = [].
Proof.
  induction st as [|f r IH]; [reflexivity|]. cbn [unwind]. destruct f; try exact IH.
  - destruct k; try exact IH. reflexivity.
  - destruct (pushed p); [reflexivity|exact IH].
Qed.

Lemma nest_step dyn s u c s' t J : reach dyn any s -> step dyn s u c = Some s' ->
  opens t (s_tr s) = within (th_stack (s_th s t)) ++ J ->
  exists K, opens t (s_tr s') = within (th_stack (s_th s' t)) ++ K ++ J /\ (stays_put t s u c -> K = []).
Proof.
  intros R H O. pose proof (born_reach _ _ R) as B. apply step_view in H. destruct H as (_ & LV & V).
  assert (SAME : forall st, within st = within (th_stack (s_th s u)) -> forall x, th_stack x = st ->
    opens t (s_tr s) = within (th_stack (upd (s_th s) u x t)) ++ [] ++ J).
  { intros st E x X. cbn. rewrite O. f_equal. rewrite upd_if. destruct (Z.eqb_spec t u) as [->|N]; [|reflexivity]. now rewrite X, E. }
  assert (CUT : forall x, within (th_stack x) = [] -> exists K, opens t (s_tr s) = within (th_stack (upd (s_th s) u x t)) ++ K ++ J /\ (t <> u -> K = [])).
  { intros x X. rewrite upd_if. destruct (Z.eqb_spec t u) as [->|N]; [|now exists []].
    rewrite X. exists (within (th_stack (s_th s u))). split; [exact O|congruence]. }
  destruct V as [E ->|E ->|E _ _ _ ->|f0 r0 E _ _ _ _ ->|f0 r0 E SK _ _ ->|r0 E SK _ ->|E SK ->|f r e SK U BA F ->].
  - exists []. split; [|auto]. eapply SAME; [|reflexivity]; reflexivity.
  - exists []. split; [|auto]. eapply SAME; [|reflexivity]; reflexivity.
  - exists []. split; [|auto]. eapply SAME; [|reflexivity]; reflexivity.
  - exists []. split; [|auto]. eapply SAME; [|reflexivity]; reflexivity.
  - destruct (CUT (with_stack (s_th s u) (unwind (th_stack (s_th s u)))) (unwind_within _)) as (K & X & Z). exists K. split; [exact X|]. intros (Y & _). apply Z. intros ->. destruct (Y eq_refl) as [Y' _]. congruence.
  - destruct (CUT (with_stack (s_th s u) (unwind r0)) (unwind_within _)) as (K & X & Z). exists K. split; [exact X|]. intros (Y & _). apply Z. intros ->. destruct (Y eq_refl) as [_ Y']. destruct (Y' _ SK).
  - exists []. split; [|auto]. eapply SAME; [|reflexivity]. now rewrite SK.
  - rewrite apply_tr. destruct (e_child e) eqn:C.
    + destruct (fs_child _ _ _ _ _ _ _ _ _ F C) as (E1 & E2 & E3). rewrite (apply_stack_child _ _ _ _ _ _ C E2 E3).
      destruct (Z.eqb_spec t u) as [->|N].
      * exists []. split; [|auto]. cbn [app]. rewrite SK in O. change (f :: r) with ([f] ++ r) in O. rewrite within_app, <- app_assoc in O.
        rewrite within_app, <- app_assoc. eapply fs_opens; eassumption.
      * exists (within (th_stack (s_th s t))). rewrite (fs_other _ _ _ _ _ _ _ _ _ _ _ F N). split; [exact O|]. intros (_ & Y). destruct N. symmetry. apply Y. exact E1.
    + rewrite apply_stack by exact C. exists []. split; [|auto]. cbn [app].
      destruct (Z.eqb_spec t u) as [->|N].
      * assert (L : (u =? s_next s) = false).
        { apply Z.eqb_neq. intros ->. destruct (born_fresh _ B (s_next s) (Z.le_refl _)) as (_ & X & _). congruence. }
        assert (G : opens u (e_ev e ++ s_tr s) = within (e_fr e ++ r) ++ J).
        { rewrite SK in O. change (f :: r) with ([f] ++ r) in O. rewrite within_app, <- app_assoc in O.
          rewrite within_app, <- app_assoc. eapply fs_opens; eassumption. }
        destruct (e_new e); [rewrite L|]; exact G.
      * rewrite (fs_other _ _ _ _ _ _ _ _ _ _ _ F N). destruct (e_new e) as [st|] eqn:NE; [|exact O].
        destruct (Z.eqb_spec t (s_next s)) as [->|_]; [|exact O]. rewrite (fs_new _ _ _ _ _ _ _ _ _ _ F NE).
        destruct (born_fresh _ B (s_next s) (Z.le_refl _)) as (X & _). rewrite X in O. exact O.
Qed.

Lemma nest_reach dyn s t : reach dyn any s -> exists J, opens t (s_tr s) = within (th_stack (s_th s t)) ++ J.
Proof.
  intros R. induction R as [|s u c s' R IH _ H].
  - exists []. cbn. unfold upd. destruct (t =? MAIN); reflexivity.
  - destruct IH as [J IH]. destruct (nest_step _ _ _ _ _ _ _ R H IH) as (K & X & _). eauto.
Qed.

Lemma nest_exact dyn s t : reach dyn (stays_put t) s -> opens t (s_tr s) = within (th_stack (s_th s t)).
Proof.
  intros R. induction R as [|s u c s' R IH OK H].
  - cbn. unfold upd. destruct (t =? MAIN); reflexivity.
  - rewrite <- app_nil_r in IH. assert (R' : reach dyn any s) by (eapply reach_weaken; [|exact R]; intros; exact I).
    destruct (nest_step _ _ _ _ _ _ _ R' H IH) as (K & X & Y). rewrite (Y OK) in X. now rewrite app_nil_r in X.
Qed.

Lemma nest_run dyn t : forall l s s' J, reach dyn any s -> run dyn s l = Some s' ->
  opens t (s_tr s) = within (th_stack (s_th s t)) ++ J ->
  exists K, opens t (s_tr s') = within (th_stack (s_th s' t)) ++ K ++ J.
Proof.
  induction l as [|[u c] l IH]; intros s s' J R H O; cbn in H; [injection H as <-; now exists []|].
  destruct (step dyn s u c) as [s1|] eqn:ST; [|discriminate H].
  destruct (nest_step _ _ _ _ _ _ _ R ST O) as (K & X & _).
  destruct (IH s1 s' (K ++ J)) as [K' Y]; [eapply reach_step; [exact R|exact I|exact ST]|exact H|exact X|].
  exists (K' ++ K). rewrite Y, <- !app_assoc. reflexivity.
Qed.

Lemma nest_ret dyn s : reach dyn any s -> forall a t c v b, s_tr s = a ++ ERet t c v :: b -> exists r, opens t b = c :: r.
Proof.
  intros R. induction R as [|s u c s' R IH _ H]; intros a t cb v b E; [destruct a; discriminate E|].
  assert (OLD : s_tr s' = s_tr s \/ (exists x, s_tr s' = x :: s_tr s /\ actor x = u /\ match x with ERet _ _ _ => False | _ => True end) -> exists r, opens t b = cb :: r).
  { intros [X|(x & X & _ & N)]; rewrite X in E; [eauto|]. destruct a as [|y a]; [injection E as -> _; destruct N|injection E as _ E; eauto]. }
  pose proof H as H'. apply step_view in H'. destruct H' as (_ & LV & V).
  destruct V as [EC ->|EC ->|EC _ _ _ ->|f0 r0 EC _ _ _ _ ->|f0 r0 EC SK _ _ ->|r0 EC SK _ ->|EC SK ->|f r e SK U BA F ->];
    try (apply OLD; cbn; solve [now left | right; eexists; split; [reflexivity|]; split; [reflexivity|exact I]]).
  rewrite apply_tr in E. clear OLD.
  assert (IN : In (ERet t cb v) (e_ev e) \/ exists a', s_tr s = a' ++ ERet t cb v :: b).
  { clear - E. revert a E. induction (e_ev e) as [|x l IHl]; intros a E; [right; exists a; exact E|].
    destruct a as [|y a]; [injection E as -> _; left; now left|]. injection E as _ E. destruct (IHl a E) as [X|X]; [left; now right|right; exact X]. }
  destruct IN as [IN|[a' X]]; [|eauto].
  pose proof (fs_ret _ _ _ _ _ _ _ _ _ _ F IN) as (-> & EV & W).
  rewrite EV in E. destruct (nest_reach dyn s u R) as [J O]. rewrite SK in O. change (f :: r) with ([f] ++ r) in O. rewrite within_app, W in O.
  destruct a as [|y a]; cbn in E; inversion E; subst; clear E; [eexists; exact O|]. eapply IH; eassumption.
Qed.
