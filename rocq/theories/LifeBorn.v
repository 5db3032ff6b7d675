(** Proofs for C87. *)
From Verif Require Export LifeBornSpec LifeBase LifeFacts.

Local Open Scope Z_scope.

Section Go.
  Variable dyn : bool.
  Variable u v : Z.

  Record at_ (s : state) (st : list frame) : Prop := mkat {
    at_dead : g_dead (s_g s) = false; at_live : th_live (s_th s u) = true;
    at_next : (u < s_next s)%Z; at_stack : th_stack (s_th s u) = st }.

  Lemma own s f r c e : at_ s (f :: r) -> is_unwind f = false -> (c = CStep \/ c = CRet v) ->
    frame_step dyn u (s_next s) (s_g s) (th_tsd (s_th s u)) (th_nc (s_th s u)) f c = Some e ->
    e_child e = false -> e_new e = None -> g_dead (e_g e) = false ->
    exists s1, step dyn s u c = Some s1 /\ at_ s1 (e_fr e ++ r) /\ s_g s1 = e_g e /\ s_tr s1 = e_ev e ++ s_tr s.
  Proof.
    intros [D LV L SK] U C F EC EN ED. exists (apply_eff s u (s_th s u) r e).
    split.
    { unfold step. rewrite D, LV, SK, U. cbn [orb negb]. destruct C as [-> | ->]; cbn [barred]; rewrite F; reflexivity. }
    split; [|split; [apply apply_g|apply apply_tr]].
    constructor.
    - now rewrite apply_g.
    - rewrite apply_live, EN, Z.eqb_refl by exact EC. reflexivity.
    - rewrite apply_next, EN. lia.
    - rewrite apply_stack, EN, Z.eqb_refl by exact EC. reflexivity.
  Qed.

  (** Gets to its start routine in at most k steps. *)
  Definition gets (k : nat) (s : state) : Prop :=
    exists l s', Forall (by_itself v) l /\ (length l <= k)%nat /\ run dyn s (map (pair u) l) = Some s' /\ (reach dyn clean_forks s -> reach dyn clean_forks s') /\
    exists x y, s_tr s' = EStart u x y :: skipn 1 (s_tr s') /\ (exists r, th_stack (s_th s' u) = FApp AppStart :: r).

  Lemma more k s c s1 : by_itself v c -> clean_forks s u c -> step dyn s u c = Some s1 -> gets k s1 -> gets (S k) s.
  Proof.
    intros C CF ST (l & s' & A & LE & R & RC & X). exists (c :: l), s'. split; [constructor; assumption|]. split; [cbn; lia|].
    split; [cbn [map run]; now rewrite ST|]. split; [|exact X]. intros RS. apply RC. eapply reach_step; eassumption.
  Qed.
  Lemma tick_clean s : clean_forks s u CStep.
  Proof. split; [discriminate|reflexivity]. Qed.
  Lemma ret_clean s f : at_ s [f; FApp AppTsd] -> resetting f = false -> clean_forks s u (CRet v).
  Proof. intros A E. split; [discriminate|]. rewrite (at_stack _ _ A). cbn. rewrite E. discriminate. Qed.

  Ltac stepit H C := let s1 := fresh "s1" in let ST := fresh "ST" in let A := fresh "A" in let G := fresh "G" in let T := fresh "T" in
    let CH := fresh in assert (CH : C = CStep \/ C = CRet v) by auto;
    edestruct (own _ _ _ C _ H eq_refl CH eq_refl eq_refl eq_refl) as (s1 & ST & A & G & T);
    [cbn; try (apply at_dead in H; exact H)|
     apply (more _ _ C s1); [unfold by_itself; auto|solve [apply tick_clean|eapply ret_clean; [exact H|reflexivity]]|exact ST|]; cbn [e_fr e_g e_ev app] in A, G, T].

  Lemma from_run s x y r : at_ s (FRun x y :: r) -> gets 1 s.
  Proof.
    intros H. edestruct (own _ _ _ CStep _ H eq_refl (or_introl eq_refl) eq_refl eq_refl eq_refl) as (s1 & ST & A & G & T); [cbn; now apply at_dead in H|].
    exists [CStep], s1. split; [constructor; [now left|constructor]|]. split; [cbn; lia|]. split; [cbn [map run]; now rewrite ST|].
    split; [intros RS; eapply reach_step; [exact RS|apply tick_clean|exact ST]|].
    exists x, y. cbn [e_ev app e_fr] in A, T. split; [now rewrite T|]. exists r. now apply at_stack in A.
  Qed.
  Lemma from_call s n r : at_ s (FBT BTCall n :: r) -> gets 2 s.
  Proof. intros H. stepit H CStep. eapply from_run. exact A. Qed.
  Lemma from_started s n r : at_ s (FBT BTStarted n :: r) -> gets 3 s.
  Proof. intros H. stepit H CStep. eapply from_call. exact A. Qed.
  Lemma from_store s n r x : at_ s (FBT (BTStore x) n :: r) -> gets 4 s.
  Proof. intros H. stepit H CStep. eapply from_started. exact A. Qed.
  Lemma from_cb s n c : at_ s (FCb c (KInitThread n) :: [FApp AppTsd]) -> gets 5 s.
  Proof. intros H. stepit H (CRet v). eapply from_store. exact A. Qed.
  Lemma from_init s n : at_ s (FBT BTInit n :: [FApp AppTsd]) -> gets 6 s.
  Proof. intros H. stepit H CStep. eapply from_cb. exact A. Qed.
  Lemma from_unlock s n : at_ s (FBT BTUnlock n :: [FApp AppTsd]) -> gets 7 s.
  Proof. intros H. stepit H CStep. eapply from_init. exact A. Qed.
  Lemma from_ins s n : at_ s (FBT BTIns n :: [FApp AppTsd]) -> gets 8 s.
  Proof.
    intros H. stepit H CStep; [|eapply from_unlock; exact A].
    unfold list_insert. destruct (memb n (g_list (s_g s))); apply at_dead in H; exact H.
  Qed.
  Lemma from_num s n x : at_ s (FBT (BTNum x) n :: [FApp AppTsd]) -> gets 9 s.
  Proof. intros H. stepit H CStep. eapply from_ins. exact A. Qed.
  Lemma from_read s n : at_ s (FBT BTRead n :: [FApp AppTsd]) -> gets 10 s.
  Proof. intros H. stepit H CStep. eapply from_num. exact A. Qed.
  Lemma from_chk s n : at_ s (FBT BTChk n :: [FApp AppTsd]) -> g_inexit (s_g s) = false -> gets 11 s.
  Proof. intros H X. stepit H CStep. rewrite X in A. eapply from_read. exact A. Qed.
  Lemma from_lock s n : at_ s (FBT BTLock n :: [FApp AppTsd]) -> g_inexit (s_g s) = false -> g_lock (s_g s) = None -> gets 12 s.
  Proof.
    intros H X Y.
    destruct (own s (FBT BTLock n) [FApp AppTsd] CStep (mkeff (set_g_lock (Some u) (s_g s)) [FBT BTChk n] (th_tsd (s_th s u)) (th_nc (s_th s u)) [] None None false) H) as (s1 & ST & A & G & T);
      [reflexivity|auto|cbn; now rewrite Y|reflexivity|reflexivity|cbn; now apply at_dead in H|].
    apply (more _ _ CStep s1); [now left|apply tick_clean|exact ST|]. eapply from_chk; [exact A|]. rewrite G. exact X.
  Qed.
  Lemma from_tsd s n : at_ s (FBT BTTsd n :: [FApp AppTsd]) -> g_inexit (s_g s) = false -> g_lock (s_g s) = None -> gets 13 s.
  Proof. intros H X Y. stepit H CStep. eapply from_lock; [exact A|rewrite G; exact X|rewrite G; exact Y]. Qed.
  Lemma from_self s n : at_ s (FBT BTSelf n :: [FApp AppTsd]) -> g_inexit (s_g s) = false -> g_lock (s_g s) = None -> gets 14 s.
  Proof. intros H X Y. stepit H CStep. eapply from_tsd; [exact A|rewrite G; exact X|rewrite G; exact Y]. Qed.

  Lemma gets_le j k s : gets j s -> (j <= k)%nat -> gets k s.
  Proof. intros (l & s' & A & B & C) L. exists l, s'. split; [exact A|]. split; [lia|exact C]. Qed.

  Lemma starts s : (u < s_next s)%Z -> in_start s u -> (unlisted s u -> may_start s u) -> gets 14 s.
  Proof.
    intros L (D & LV & H) M. destruct H as [(p & n & SK & N1 & N2)|[(c & n & SK)|(x & y & r & SK)]].
    - pose proof (mkat s _ D LV L SK) as A.
      assert (W : p = BTSelf \/ p = BTTsd \/ p = BTLock \/ p = BTChk -> may_start s u) by (intros X; apply M; unfold unlisted; eauto 6).
      assert (K : p = BTSelf \/ p = BTTsd \/ p = BTLock -> g_inexit (s_g s) = false /\ g_lock (s_g s) = None).
      { intros X. destruct W as [I [Y|(n' & r' & Y)]]; [tauto|auto|]. rewrite SK in Y. injection Y as -> _ _. destruct X as [X|[X|X]]; discriminate X. }
      destruct p; try congruence.
      + destruct K; [auto|]. eapply gets_le; [eapply from_self; eassumption|lia].
      + destruct K; [auto|]. eapply gets_le; [eapply from_tsd; eassumption|lia].
      + destruct K; [auto|]. eapply gets_le; [eapply from_lock; eassumption|lia].
      + destruct W as [I _]; [auto|]. eapply gets_le; [eapply from_chk; eassumption|lia].
      + eapply gets_le; [eapply from_read; eassumption|lia].
      + eapply gets_le; [eapply from_num; eassumption|lia].
      + eapply gets_le; [eapply from_ins; eassumption|lia].
      + eapply gets_le; [eapply from_unlock; eassumption|lia].
      + eapply gets_le; [eapply from_init; eassumption|lia].
      + eapply gets_le; [eapply from_store; eassumption|lia].
      + eapply gets_le; [eapply from_started; eassumption|lia].
      + eapply gets_le; [eapply from_call; eassumption|lia].
    - eapply gets_le; [eapply from_cb; constructor; eassumption|lia].
    - eapply gets_le; [eapply from_run; constructor; eassumption|lia].
  Qed.
End Go.

Section Leave.
  Variable dyn : bool.
  Variable u v : Z.

  (** Ends in at most k steps. *)
  Definition quits (k : nat) (s : state) : Prop :=
    exists l s', Forall (by_itself v) l /\ (length l <= k)%nat /\ run dyn s (map (pair u) l) = Some s' /\
    th_live (s_th s' u) = false /\ s_tr s' = EEnd u :: skipn 1 (s_tr s').

  Lemma qmore k s c s1 : by_itself v c -> step dyn s u c = Some s1 -> quits k s1 -> quits (S k) s.
  Proof.
    intros C ST (l & s' & A & LE & R & X). exists (c :: l), s'. split; [constructor; assumption|]. split; [cbn; lia|].
    split; [cbn [map run]; now rewrite ST|exact X].
  Qed.
  Lemma quits_le j k s : quits j s -> (j <= k)%nat -> quits k s.
  Proof. intros (l & s' & A & B & C) L. exists l, s'. split; [exact A|]. split; [lia|exact C]. Qed.

  Ltac qstep H C := let s1 := fresh "s1" in let ST := fresh "ST" in let A := fresh "A" in let G := fresh "G" in let T := fresh "T" in
    let CH := fresh in assert (CH : C = CStep \/ C = CRet v) by auto;
    edestruct (own dyn u v _ _ _ C _ H eq_refl CH eq_refl eq_refl eq_refl) as (s1 & ST & A & G & T);
    [cbn; try (apply at_dead in H; exact H)|
     apply (qmore _ _ C s1); [unfold by_itself; auto|exact ST|]; cbn [e_fr e_g e_ev app] in A, G, T].

  Lemma q_nil s : at_ u s [] -> quits 1 s.
  Proof.
    intros [D LV L SK]. exists [CStep]. eexists. split; [constructor; [now left|constructor]|]. split; [cbn; lia|].
    split; [cbn [map run]; unfold step; rewrite D, LV, SK; reflexivity|]. cbn. now rewrite upd_same.
  Qed.
  Lemma q_tsd s : at_ u s [FApp AppTsd] -> quits 2 s.
  Proof. intros H. qstep H (CRet v). apply q_nil. exact A. Qed.
  Lemma q_unlock s n : at_ u s [FClean CLUnlock n; FApp AppTsd] -> quits 3 s.
  Proof. intros H. qstep H CStep. apply q_tsd. exact A. Qed.
  Lemma q_free s n : at_ u s [FClean CLFree n; FApp AppTsd] -> quits 4 s.
  Proof. intros H. qstep H CStep; [|eapply q_unlock; exact A]. unfold list_insert. destruct (memb n (g_free (s_g s))); apply at_dead in H; exact H. Qed.
  Lemma q_zero s n : at_ u s [FClean CLZero n; FApp AppTsd] -> quits 5 s.
  Proof. intros H. qstep H CStep. eapply q_free. exact A. Qed.
  Lemma q_remove s n : at_ u s [FClean CLRemove n; FApp AppTsd] -> quits 6 s.
  Proof. intros H. qstep H CStep; [|eapply q_zero; exact A]. unfold list_delete. destruct (memb n (g_list (s_g s))); apply at_dead in H; exact H. Qed.
  Lemma q_mark2 s n : at_ u s [FClean CLMark2 n; FApp AppTsd] -> quits 4 s.
  Proof. intros H. qstep H CStep. eapply q_unlock. exact A. Qed.
  Lemma q_mark1 s n : at_ u s [FClean CLMark1 n; FApp AppTsd] -> quits 5 s.
  Proof. intros H. qstep H CStep. eapply q_mark2. exact A. Qed.
  Lemma q_exit s n : at_ u s [FClean CLExit n; FApp AppTsd] -> quits 7 s.
  Proof.
    intros H. qstep H CStep. destruct (g_inexit (s_g s)); [eapply quits_le; [eapply q_mark1; exact A|lia]|eapply q_remove; exact A].
  Qed.
  Lemma q_lock s n : at_ u s [FClean CLLock n; FApp AppTsd] -> g_lock (s_g s) = None -> quits 8 s.
  Proof.
    intros H Y.
    destruct (own dyn u v s (FClean CLLock n) [FApp AppTsd] CStep (mkeff (set_g_lock (Some u) (s_g s)) [FClean CLExit n] (th_tsd (s_th s u)) (th_nc (s_th s u)) [] None None false) H) as (s1 & ST & A & G & T);
      [reflexivity|auto|cbn; now rewrite Y|reflexivity|reflexivity|cbn; now apply at_dead in H|].
    apply (qmore _ _ CStep s1); [now left|exact ST|]. eapply q_exit. exact A.
  Qed.
  Lemma q_end s n : at_ u s [FClean CLEnd n; FApp AppTsd] -> g_lock (s_g s) = None -> quits 9 s.
  Proof. intros H Y. qstep H CStep. eapply q_lock; [exact A|rewrite G; exact Y]. Qed.
  Lemma q_cb s c n : at_ u s [FCb c (KFiniCleanup n); FApp AppTsd] -> g_lock (s_g s) = None -> quits 10 s.
  Proof. intros H Y. qstep H (CRet v). eapply q_end; [exact A|rewrite G; exact Y]. Qed.
  Lemma q_call s n : at_ u s [FClean CLCall n; FApp AppTsd] -> g_lock (s_g s) = None -> quits 11 s.
  Proof. intros H Y. qstep H CStep. eapply q_cb; [exact A|rewrite G; exact Y]. Qed.
  Lemma q_set s n : at_ u s [FClean CLSet n; FApp AppTsd] -> g_lock (s_g s) = None -> quits 12 s.
  Proof. intros H Y. qstep H CStep. eapply q_call; [exact A|rewrite G; exact Y]. Qed.
  Lemma q_done s n : at_ u s [FClean CLDone n; FApp AppTsd] -> g_lock (s_g s) = None -> quits 13 s.
  Proof.
    intros H Y. qstep H CStep. destruct (g_ftdone (s_g s)); cbn [app] in A; [eapply quits_le; [apply q_tsd; exact A|lia]|].
    eapply q_set; [exact A|rewrite G; exact Y].
  Qed.
  Lemma q_chk s n : at_ u s [FClean CLChk n; FApp AppTsd] -> g_lock (s_g s) = None -> quits 14 s.
  Proof.
    intros H Y. pose proof (at_dead _ _ _ H) as D.
    destruct (negb (n_magic (nd (s_g s) n)) || negb (n_appl (nd (s_g s) n)) || n_fstart (nd (s_g s) n) || n_block (nd (s_g s) n)) eqn:E.
    - destruct (own dyn u v s (FClean CLChk n) [FApp AppTsd] CStep (mkeff (s_g s) [] (th_tsd (s_th s u)) (th_nc (s_th s u)) [] None None false) H) as (s1 & ST & A & G & T);
        [reflexivity|auto|cbn; now rewrite E|reflexivity|reflexivity|exact D|].
      apply (qmore _ _ CStep s1); [now left|exact ST|]. eapply quits_le; [apply q_tsd; exact A|lia].
    - destruct (own dyn u v s (FClean CLChk n) [FApp AppTsd] CStep (mkeff (s_g s) [FClean CLDone n] (th_tsd (s_th s u)) (th_nc (s_th s u)) [] None None false) H) as (s1 & ST & A & G & T);
        [reflexivity|auto|cbn; now rewrite E|reflexivity|reflexivity|exact D|].
      apply (qmore _ _ CStep s1); [now left|exact ST|]. eapply q_done; [exact A|rewrite G; exact Y].
  Qed.
  Lemma q_pop s n : at_ u s [FBT BTPop n; FApp AppTsd] -> g_lock (s_g s) = None -> quits 15 s.
  Proof. intros H Y. qstep H CStep. eapply q_chk; [exact A|rewrite G; exact Y]. Qed.

  Lemma quits_all s : (u < s_next s)%Z -> ending s u -> lock_ok s u -> quits 15 s.
  Proof.
    intros L (D & LV & H) M.
    assert (W : forall f r, th_stack (s_th s u) = f :: r -> locked f = false -> g_lock (s_g s) = None).
    { intros f r SK NL. destruct M as [M|(f' & r' & SK' & X)]; [exact M|]. rewrite SK in SK'. injection SK' as <- _. congruence. }
    destruct H as [(n & SK)|[(p & n & SK)|[(c & n & SK)|[SK|SK]]]]; pose proof (mkat u s _ D LV L SK) as A.
    - eapply q_pop; [exact A|]. eapply W; [exact SK|reflexivity].
    - destruct p.
      + eapply quits_le; [eapply q_chk; [exact A|eapply W; [exact SK|reflexivity]]|lia].
      + eapply quits_le; [eapply q_done; [exact A|eapply W; [exact SK|reflexivity]]|lia].
      + eapply quits_le; [eapply q_set; [exact A|eapply W; [exact SK|reflexivity]]|lia].
      + eapply quits_le; [eapply q_call; [exact A|eapply W; [exact SK|reflexivity]]|lia].
      + eapply quits_le; [eapply q_end; [exact A|eapply W; [exact SK|reflexivity]]|lia].
      + eapply quits_le; [eapply q_lock; [exact A|eapply W; [exact SK|reflexivity]]|lia].
      + eapply quits_le; [eapply q_exit; exact A|lia].
      + eapply quits_le; [eapply q_mark1; exact A|lia].
      + eapply quits_le; [eapply q_mark2; exact A|lia].
      + eapply quits_le; [eapply q_remove; exact A|lia].
      + eapply quits_le; [eapply q_zero; exact A|lia].
      + eapply quits_le; [eapply q_free; exact A|lia].
      + eapply quits_le; [eapply q_unlock; exact A|lia].
    - eapply quits_le; [eapply q_cb; [exact A|eapply W; [exact SK|reflexivity]]|lia].
    - eapply quits_le; [apply q_tsd; exact A|lia].
    - eapply quits_le; [apply q_nil; exact A|lia].
  Qed.
End Leave.

(** Live threads exist. *)
Lemma live_lt dyn s t : reach dyn any s -> th_live (s_th s t) = true -> (t < s_next s)%Z.
Proof.
  intros R LV. destruct (Z.lt_ge_cases t (s_next s)) as [L|L]; [exact L|].
  destruct (born_fresh _ (born_reach _ _ R) t L) as (_ & X & _). congruence.
Qed.
