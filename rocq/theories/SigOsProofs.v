(** Proofs for SigOsProps.v. *)
From Verif Require Import SignalModel SignalSpec SignalProofs SignalProofs2 SigOsModel SigOsSpec.

Lemma item_ind2 (P : item -> Prop) :
  (forall x, P (Call x)) ->
  (forall s sync body, Forall P body -> P (Arrive s sync body)) ->
  forall i, P i.
Proof.
  intros HC HA. fix IH 1. intros [x|s sync body]; [apply HC|].
  apply HA. induction body as [|i r IHr]; constructor; [apply IH|exact IHr].
Qed.

Lemma native_body o s sync body k :
  native_item o k (Arrive s sync body) = native_arrive k s sync (fun k1 => native_run o k1 body).
Proof.
  cbn [native_item]. unfold native_arrive. destruct (kernel_deliver k s sync) as [k1 r].
  destruct r; try reflexivity.
  assert (E : forall l k, (fix go (k : kern) (l : list item) : kern * list seen * bool :=
              match l with
              | [] => (k, [], true)
              | i :: r => let '(k1, t1, l1) := native_item o k i in
                          if l1 then let '(k2, t2, l2) := go k1 r in (k2, t1 ++ t2, l2)
                          else (k1, t1, false)
              end) k l = native_run o k l).
  { induction l as [|i r IH]; intros k'; [reflexivity|]. cbn [native_run].
    destruct (native_item o k' i) as [[k2 t2] [|]]; [|reflexivity]. now rewrite IH. }
  now rewrite E.
Qed.

Lemma mon_body c dyn cret s sync body st :
  mon_item c dyn cret st (Arrive s sync body) =
  mon_arrive c dyn cret st s sync (fun st1 => mon_run c dyn cret st1 body).
Proof.
  cbn [mon_item].
  assert (E : forall l st, (fix go (st : state) (l : list item) : state * list seen * bool :=
              match l with
              | [] => (st, [], true)
              | i :: r => let '(st1, t1, l1) := mon_item c dyn cret st i in
                          if l1 then let '(st2, t2, l2) := go st1 r in (st2, t1 ++ t2, l2)
                          else (st1, t1, false)
              end) st l = mon_run c dyn cret st l).
  { induction l as [|i r IH]; intros k'; [reflexivity|]. cbn [mon_run].
    destruct (mon_item c dyn cret k' i) as [[k2 t2] [|]]; [|reflexivity]. now rewrite IH. }
  unfold mon_arrive. destruct (kernel_deliver (kn st) s sync) as [k1 r].
  destruct r as [| | |h b]; try reflexivity.
  destruct h; rewrite ?E; try reflexivity.
  destruct (signal_handler c dyn (set_kn st k1) s [] cret []) as [st1 evs]. now rewrite E.
Qed.

Lemma calls_body s sync body : calls_of (Arrive s sync body) = calls_in body.
Proof. reflexivity. Qed.

Lemma arrivals_body s sync body :
  arrivals_of (Arrive s sync body) = (s, sync) :: arrivals_in body.
Proof. reflexivity. Qed.

Lemma set_kn_same st : set_kn st (kn st) = st.
Proof. apply state_eta. Qed.

(** ** Handler state when the process goes on *)
Lemma apply_appl_goes_on c dyn st s eops :
  ~ In EvEndProcess (snd (apply_appl c dyn st s eops)) ->
  fst (apply_appl c dyn st s eops) = st.
Proof.
  unfold apply_appl. cbv zeta. destruct (sa_handler (appl_act (tab st s))); try reflexivity.
  destruct (noterm (tab st s)); [reflexivity|]. destruct (stop (tab st s)); [reflexivity|].
  destruct (real_sigaction _ _ _ _) as [k3 x]. destruct (real_sigprocmask _ _ _ _) as [k4 y].
  cbn. intros H. exfalso. apply H. now left.
Qed.

Lemma handler_goes_on c dyn st s cret :
  ~ In EvEndProcess (snd (signal_handler c dyn st s [] cret [])) ->
  fst (signal_handler c dyn st s [] cret []) = st.
Proof.
  unfold signal_handler. destruct (_ || _ || _); [reflexivity|].
  destruct (client_handler (tab st s)) as [f|]; [|apply apply_appl_goes_on].
  cbn [run fst]. destruct (cret =? 0); [reflexivity|].
  pose proof (apply_appl_goes_on c dyn st s []) as H.
  destruct (apply_appl c dyn st s []) as [st2 tr]. cbn in *. intros N. apply H. tauto.
Qed.

(** ** The relation *)
Record rel (c : config) (k0 : kern) (h : list op) (nk : kern) : Prop := {
  r_hand : forall s, managedb c s = true ->
    SignalModel.sa_handler (k_act nk s) = SignalModel.sa_handler (last_app h s (k_act k0 s));
  r_info : forall s, managedb c s = true ->
    N.testbit (sa_flags (k_act nk s)) 2 = N.testbit (sa_flags (last_app h s (k_act k0 s))) 2;
  r_shot : forall s, managedb c s = true -> N.testbit (sa_flags (k_act nk s)) 31 = false;
  r_unman : forall s, managedb c s = false -> k_act nk s = k_act k0 s }.

Lemma fresh_flags k s : fresh k -> sa_flags (k_act k s) = 0%N.
Proof. intros F. destruct (F s) as [->| ->]; reflexivity. Qed.

Lemma rel_start c k0 : fresh k0 -> rel c k0 [] k0.
Proof.
  intros F. split; intros s _; try reflexivity. now rewrite fresh_flags.
Qed.

Lemma rel_set c k0 h nk o sig a b :
  rel c k0 h nk -> managedb c sig = true ->
  SignalModel.sa_handler b = SignalModel.sa_handler a ->
  N.testbit (sa_flags b) 2 = N.testbit (sa_flags a) 2 ->
  N.testbit (sa_flags b) 31 = false ->
  (forall s, app_request o s = if s =? sig then Some a else None) ->
  rel c k0 (h ++ [o]) (mkkern (upd (k_act nk) sig (strip (c_os c) b)) (k_mask nk)).
Proof.
  intros R M E1 E2 E3 A. split; intros s Ms; rewrite ?last_app_snoc, ?A; cbn [k_act]; unfold upd;
  destruct (Z.eqb_spec s sig) as [->|N]; cbn [strip SignalModel.sa_handler sa_flags]; auto.
  - now apply (r_hand _ _ _ _ R).
  - now apply (r_info _ _ _ _ R).
  - now apply (r_shot _ _ _ _ R).
  - congruence.
  - now apply (r_unman _ _ _ _ R).
Qed.

Lemma rel_noop c k0 h nk nk' o :
  rel c k0 h nk -> k_act nk' = k_act nk ->
  (forall s, managedb c s = true -> app_request o s = None) ->
  rel c k0 (h ++ [o]) nk'.
Proof.
  intros R E A. split; intros s M; rewrite ?E, ?last_app_snoc, ?A by exact M.
  - now apply (r_hand _ _ _ _ R).
  - now apply (r_info _ _ _ _ R).
  - now apply (r_shot _ _ _ _ R).
  - now apply (r_unman _ _ _ _ R).
Qed.

Lemma real_sigaction_unmanaged c k sig a :
  managedb c sig = false -> fst (real_sigaction (c_os c) k sig (Some a)) = k.
Proof.
  intros M. unfold real_sigaction. rewrite managedb_unfold in M.
  destruct (in_range sig); [|reflexivity]. destruct (k_reject (c_os c) sig); [reflexivity|].
  rewrite avoid_eq. destruct (is_avoid sig); [reflexivity|discriminate].
Qed.

Lemma rel_op c k0 h nk x :
  rel c k0 h nk -> ordinary x -> rel c k0 (h ++ [x]) (native_op (c_os c) nk x).
Proof.
  intros R O. destruct x as [sig a want|sig hd|sig f a|how set]; cbn [native_op].
  - destruct a as [a|].
    + destruct (managedb c sig) eqn:M.
      * rewrite (real_sigaction_managed _ _ _ _ M). cbn [fst].
        apply (rel_set c k0 h nk _ sig a a); auto. intros s. cbn. now rewrite Z.eqb_sym.
      * rewrite (real_sigaction_unmanaged _ _ _ _ M). apply (rel_noop _ _ _ nk); auto.
        intros s Ms. cbn. destruct (Z.eqb_spec sig s); [congruence|reflexivity].
    + apply (rel_noop _ _ _ nk); auto. unfold real_sigaction.
      destruct (negb (in_range sig) || k_reject (c_os c) sig); reflexivity.
  - assert (K : rel c k0 (h ++ [OpSignal sig hd])
      (fst (real_sigaction (c_os c) nk sig (Some (mkact hd SA_RESTART (sadd sig 0)))))).
    { destruct (managedb c sig) eqn:M.
      * rewrite (real_sigaction_managed _ _ _ _ M). cbn [fst].
        apply (rel_set c k0 h nk _ sig (mkact hd 0 0) (mkact hd SA_RESTART (sadd sig 0))); auto.
        intros s. cbn. now rewrite Z.eqb_sym.
      * rewrite (real_sigaction_unmanaged _ _ _ _ M). apply (rel_noop _ _ _ nk); auto.
        intros s Ms. cbn. destruct (Z.eqb_spec sig s); [congruence|reflexivity]. }
    destruct hd; auto. cbn in O. congruence.
  - apply (rel_noop _ _ _ nk); auto.
  - apply (rel_noop _ _ _ nk); auto. apply real_sigprocmask_act.
Qed.

Lemma rel_after c k0 h :
  fresh k0 -> Forall ordinary h -> rel c k0 h (native_after (c_os c) k0 h).
Proof.
  intros F. induction h as [|x h IH] using rev_ind; intros O.
  - now apply rel_start.
  - apply Forall_app in O. destruct O as [O1 O2]. unfold native_after. rewrite fold_left_app.
    cbn [fold_left]. apply rel_op; [now apply IH|]. now inversion O2.
Qed.

Lemma last_app_from h s d :
  last_app h s d = d \/ exists x, In x h /\ app_request x s = Some (last_app h s d).
Proof.
  induction h as [|x h IH] using rev_ind; [now left|].
  rewrite last_app_snoc. destruct (app_request x s) as [a|] eqn:E.
  - right. exists x. split; [apply in_or_app; right; now left|exact E].
  - destruct IH as [->|(y & I & Y)]; [now left|right]. exists y. split; [|exact Y].
    apply in_or_app. now left.
Qed.

Lemma never_last k0 calls h s :
  never_ignored k0 calls s -> incl h calls ->
  SignalModel.sa_handler (last_app h s (k_act k0 s)) <> HIgn.
Proof.
  intros [N1 N2] I. destruct (last_app_from h s (k_act k0 s)) as [->|(x & X & A)]; [exact N1|].
  apply (N2 x); auto.
Qed.

(** ** One delivery *)
Definition shows (d : disposition) (s : Z) (run : list seen * bool) : list seen * bool :=
  match d with
  | DIgnore | DNothing => ([], true)
  | DHandler h b => (Ran h b s :: fst run, snd run)
  | DStop => ([Stopped], true)
  | DTerminate => ([Died s], false)
  end.

Lemma native_shows k s sync rb a :
  s <> SIGKILL -> s <> SIGSTOP ->
  SignalModel.sa_handler (k_act k s) = SignalModel.sa_handler a ->
  N.testbit (sa_flags (k_act k s)) 2 = N.testbit (sa_flags a) 2 ->
  N.testbit (sa_flags (k_act k s)) 31 = false ->
  (sync = true -> SignalModel.sa_handler a <> HIgn) ->
  let '(k2, t, l) := native_arrive k s sync rb in
  (t, l) = shows (disposition_of a s) s (let '(_, t, l) := rb k in (t, l)) /\
  k2 = (match disposition_of a s with DHandler _ _ => fst (fst (rb k)) | _ => k end).
Proof.
  intros N9 N19 H1 H2 H3 H4. unfold native_arrive, kernel_deliver.
  apply Z.eqb_neq in N9. apply Z.eqb_neq in N19. rewrite N9, N19. unfold disposition_of.
  rewrite H3, H1, H2. 
  destruct (SignalModel.sa_handler a) eqn:E; try (destruct (rb k) as [[k2 t] l]; cbn; now split).
  - destruct (existsb (Z.eqb s) [SIGCHLD; SIGCONT; SIGURG; SIGWINCH]); [now split|].
    destruct (existsb (Z.eqb s) [SIGTSTP; SIGTTIN; SIGTTOU]); now split.
  - destruct sync; [exfalso; now apply H4|]. now split.
Qed.

Lemma mon_shows c k0 h dyn cret s sync rb :
  0 <= c_rtmin c -> cret <> 0 -> managedb c s = true ->
  (In s [SIGSEGV; SIGBUS; SIGILL] -> sync = true) ->
  let st := after c k0 h in
  let a := last_app h s (k_act k0 s) in
  let '(st2, t, l) := mon_arrive c dyn cret st s sync rb in
  (t, l) = shows (disposition_of a s) s (let '(_, t, l) := rb st in (t, l)) /\
  (l = true -> st2 = match disposition_of a s with DHandler _ _ => fst (fst (rb st)) | _ => st end).
Proof.
  intros Hrt Hc M Hf st a.
  pose proof (proj1 (managedb_spec c s) M) as Mp.
  destruct (kernel_action c k0 h s Hrt Mp) as (KH & KF & _). fold st in KH, KF.
  unfold mon_arrive, kernel_deliver. destruct Mp as (_ & N9 & N19 & _).
  apply Z.eqb_neq in N9. apply Z.eqb_neq in N19. rewrite N9, N19.
  rewrite KH, (KF 31%N). cbn [N.eqb Pos.eqb orb]. rewrite set_kn_same.
  pose proof (dispatch c k0 h dyn s [] cret [] Hrt (proj1 (managedb_spec c s) M)) as D.
  pose proof (handler_goes_on c dyn st s cret) as G.
  pose proof (terminate_state c k0 h dyn s [] cret [] Hrt (proj1 (managedb_spec c s) M)) as T.
  cbv zeta in T. fold st in D, T.
  rewrite app_nil_r in D.
  assert (Hc0 : (cret =? 0) = false) by now apply Z.eqb_neq. rewrite Hc0 in D. fold a in D.
  destruct (signal_handler c dyn st s [] cret []) as [st1 evs]. cbn [fst snd] in *.
  set (ev0 := match last_client h s None with Some f => [EvClient f s] | None => [] end).
  assert (De : evs = ev0 ++ app_events dyn s (disposition_of a s)).
  { subst ev0. rewrite D. destruct (last_client h s None); reflexivity. }
  assert (Hr : forall g, raised g evs = raised g (app_events dyn s (disposition_of a s))).
  { intros g. rewrite De. subst ev0. destruct (last_client h s None); reflexivity. }
  assert (Ha : app_call evs = app_call (app_events dyn s (disposition_of a s))).
  { rewrite De. subst ev0. destruct (last_client h s None); reflexivity. }
  assert (He : In EvEndProcess evs <-> disposition_of a s = DTerminate).
  { rewrite De, in_app_iff. subst ev0. split.
    - intros [I|I].
      + destruct (last_client h s None); cbn in I; [|tauto]. destruct I as [I|[]]; discriminate.
      + destruct (disposition_of a s) as [|hh [|]| | |]; cbn in I; auto; try tauto;
        destruct I as [I|[]]; discriminate.
    - intros ->. right. cbn. now left. }
  assert (Hg : gone (kn st1) s sync evs = match disposition_of a s with DTerminate => true | _ => false end).
  { destruct (disposition_of a s) as [|hh b| | |] eqn:Dd;
    try (assert (st1 = st) as -> by (apply G; rewrite He; congruence);
         unfold gone; rewrite KH; reflexivity).
    destruct T as (T1 & T2 & _); [now apply He|].
    unfold gone. rewrite T1, T2, mem_0, Hr. cbn [negb andb].
    destruct (in_dec Z.eq_dec s [SIGSEGV; SIGBUS; SIGILL]) as [I|NI].
    - rewrite (Hf I). apply orb_true_r.
    - apply orb_true_iff. left. unfold raised. cbn [app_events]. rewrite !existsb_app.
      replace (existsb (Z.eqb s) [SIGSEGV; SIGBUS; SIGILL]) with false.
      + cbn [existsb]. rewrite Z.eqb_refl. cbn [orb]. now rewrite !orb_true_r.
      + symmetry. apply not_true_is_false. intros X. apply NI. now apply existsb_eqb_in. }
  rewrite Hg.
  destruct (disposition_of a s) as [|hh b| | |] eqn:Dd.
  - assert (st1 = st) as -> by (apply G; rewrite He; congruence).
    rewrite Hr, Ha. cbn. now split.
  - assert (st1 = st) as -> by (apply G; rewrite He; congruence).
    rewrite Hr, Ha. destruct b; cbn; destruct (rb st) as [[st2 t] l]; now split.
  - assert (st1 = st) as -> by (apply G; rewrite He; congruence).
    rewrite Hr, Ha. cbn. now split.
  - assert (st1 = st) as -> by (apply G; rewrite He; congruence).
    rewrite Hr. cbn. now split.
  - cbn. split; [reflexivity|discriminate].
Qed.

Lemma kernel_deliver_unmanaged k s sync (a : act) :
  k_act k s = a -> (a = mkact HDfl 0 0 \/ a = mkact HIgn 0 0) ->
  kernel_deliver k s sync = (k, snd (kernel_deliver k s sync)) /\
  (forall h b, snd (kernel_deliver k s sync) <> KRun h b).
Proof.
  intros E Ha. unfold kernel_deliver. rewrite E.
  destruct (s =? SIGKILL); [now split|]. destruct (s =? SIGSTOP); [now split|].
  destruct Ha as [->| ->]; cbn [SignalModel.sa_handler].
  - split; [reflexivity|]. intros h b. cbn [snd]. repeat destruct (existsb _ _); discriminate.
  - split; [reflexivity|]. intros h b. cbn [snd]. destruct sync; discriminate.
Qed.

Section Sim.
Variables (c : config) (dyn : bool) (cret : Z) (k0 : kern) (calls : list op).
Hypothesis Hrt : 0 <= c_rtmin c.
Hypothesis Hc : cret <> 0.
Hypothesis F : fresh k0.
Hypothesis O : Forall ordinary calls.

Definition sim {A} (mon : state -> A -> state * list seen * bool)
  (nat : kern -> A -> kern * list seen * bool) (x : A) : Prop :=
  forall h nk, rel c k0 h nk -> incl h calls ->
  let '(st2, t, l) := mon (after c k0 h) x in
  let '(nk2, t', l') := nat nk x in
  t = t' /\ l = l' /\
  (l = true -> exists h', st2 = after c k0 h' /\ rel c k0 h' nk2 /\ incl h' calls).

Lemma sim_list prog :
  Forall (sim (mon_item c dyn cret) (native_item (c_os c))) prog ->
  sim (mon_run c dyn cret) (native_run (c_os c)) prog.
Proof.
  induction prog as [|i r IH]; intros H h nk R I.
  - cbn. split; [reflexivity|]. split; [reflexivity|]. intros _. exists h. auto.
  - inversion H as [|? ? Hi Hr]; subst. cbn [mon_run native_run].
    specialize (Hi h nk R I).
    destruct (mon_item c dyn cret (after c k0 h) i) as [[st1 t1] l1].
    destruct (native_item (c_os c) nk i) as [[nk1 t1'] l1'].
    destruct Hi as (-> & -> & X). destruct l1'.
    + destruct (X eq_refl) as (h1 & -> & R1 & I1). specialize (IH Hr h1 nk1 R1 I1).
      destruct (mon_run c dyn cret (after c k0 h1) r) as [[st2 t2] l2].
      destruct (native_run (c_os c) nk1 r) as [[nk2 t2'] l2'].
      destruct IH as (-> & -> & Y). auto.
    + split; [reflexivity|]. split; [reflexivity|]. discriminate.
Qed.

Lemma sim_item i :
  incl (calls_of i) calls -> Forall (usual_arrival k0 calls) (arrivals_of i) ->
  sim (mon_item c dyn cret) (native_item (c_os c)) i.
Proof.
  induction i as [x|s sync body IH] using item_ind2; intros HI HA h nk R I.
  - cbn. split; [reflexivity|]. split; [reflexivity|]. intros _. exists (h ++ [x]).
    assert (X : In x calls) by (apply HI; now left).
    split; [symmetry; apply after_snoc|]. split.
    + apply rel_op; [exact R|]. rewrite Forall_forall in O. now apply O.
    + intros y Y. apply in_app_or in Y. destruct Y as [Y|[<-|[]]]; auto.
  - rewrite calls_body in HI. rewrite arrivals_body in HA.
    inversion HA as [|? ? [U1 U2] HB]; subst. cbn [fst snd] in U1, U2.
    assert (SB : sim (mon_run c dyn cret) (native_run (c_os c)) body).
    { apply sim_list. clear - IH HI HB. induction body as [|i r IHr]; [constructor|].
      inversion IH; subst. cbn in HI, HB. apply Forall_app in HB. destruct HB as [B1 B2].
      constructor.
      - apply H1; [|exact B1]. intros y Y. apply HI. apply in_or_app. now left.
      - apply IHr; auto. intros y Y. apply HI. apply in_or_app. now right. }
    rewrite mon_body, native_body.
    destruct (managedb c s) eqn:M.
    + pose proof (proj1 (managedb_spec c s) M) as Mp. destruct Mp as (_ & N9 & N19 & _).
      pose proof (mon_shows c k0 h dyn cret s sync (fun st1 => mon_run c dyn cret st1 body)
                    Hrt Hc M U1) as PM. cbv zeta in PM.
      pose proof (native_shows nk s sync (fun k1 => native_run (c_os c) k1 body)
                    (last_app h s (k_act k0 s)) N9 N19 (r_hand _ _ _ _ R s M)
                    (r_info _ _ _ _ R s M) (r_shot _ _ _ _ R s M)
                    (fun E => never_last k0 calls h s (U2 E) I)) as PN. cbv zeta in PN.
      destruct (mon_arrive _ _ _ _ _ _ _) as [[st2 t] l].
      destruct (native_arrive _ _ _ _) as [[nk2 t'] l'].
      specialize (SB h nk R I). cbv beta in PM, PN.
      destruct (mon_run c dyn cret (after c k0 h) body) as [[stb tb] lb].
      destruct (native_run (c_os c) nk body) as [[nkb tb'] lb'].
      destruct SB as (-> & -> & Y). destruct PM as (P1 & P2). destruct PN as (P3 & P4).
      rewrite <- P3 in P1. injection P1 as -> ->.
      split; [reflexivity|]. split; [reflexivity|]. intros L. rewrite (P2 L). rewrite P4.
      destruct (disposition_of _ _) eqn:Dd;
      try (exists h; split; [reflexivity|]; split; [exact R|exact I]).
      cbn [fst]. apply Y. cbn in P3. injection P3 as _ E. congruence.
    + pose proof (I_unman _ _ _ _ (after_inv c k0 h Hrt) s M) as KM.
      pose proof (r_unman _ _ _ _ R s M) as KN.
      destruct (kernel_deliver_unmanaged (kn (after c k0 h)) s sync _ KM (F s)) as [E1 E2].
      destruct (kernel_deliver_unmanaged nk s sync _ KN (F s)) as [E3 E4].
      assert (E5 : snd (kernel_deliver (kn (after c k0 h)) s sync) =
                   snd (kernel_deliver nk s sync)).
      { unfold kernel_deliver. rewrite KM, KN.
        destruct (s =? SIGKILL); [reflexivity|]. destruct (s =? SIGSTOP); [reflexivity|].
        destruct (F s) as [->| ->]; reflexivity. }
      unfold mon_arrive, native_arrive. rewrite E1, E3, E5. rewrite E5 in E2.
      rewrite set_kn_same.
      destruct (snd (kernel_deliver nk s sync)) as [| | |hh b].
      * split; [reflexivity|]. split; [reflexivity|]. intros _. exists h. auto.
      * split; [reflexivity|]. split; [reflexivity|]. intros _. exists h. auto.
      * split; [reflexivity|]. split; [reflexivity|]. discriminate.
      * exfalso. now apply (E4 hh b).
Qed.
End Sim.

Lemma same_seen c dyn cret k0 prog :
  0 <= c_rtmin c -> cret <> 0 -> usual k0 prog ->
  seen_with c dyn cret k0 prog = seen_without (c_os c) k0 prog.
Proof.
  intros Hrt Hc (F & O & A). unfold seen_with, seen_without.
  assert (S : sim c k0 (calls_in prog) (mon_run c dyn cret) (native_run (c_os c)) prog).
  { apply sim_list. apply Forall_forall. intros i Hi. apply sim_item; auto.
    - intros x X. apply in_flat_map. exists i. auto.
    - apply Forall_forall. intros x X. rewrite Forall_forall in A. apply A.
      apply in_flat_map. exists i. auto. }
  specialize (S [] k0 (rel_start c k0 F) ltac:(intros x [])).
  change (signal_init c (start k0)) with (after c k0 []).
  destruct (mon_run c dyn cret (after c k0 []) prog) as [[st t] l].
  destruct (native_run (c_os c) k0 prog) as [[nk t'] l']. destruct S as (-> & -> & _). reflexivity.
Qed.

(** ** Blocked system calls *)
Definition call_after (d : disposition) (w : syscall) : outcome :=
  match d with
  | DTerminate => Dead
  | DStop => StoppedIn
  | _ => match w with Restartable => GoesOn | NotRestarted => Interrupted end
  end.

Lemma kernel_outcome_mon c k0 h s w :
  0 <= c_rtmin c -> managedb c s = true ->
  kernel_outcome (kn (after c k0 h)) s w =
  match w with Restartable => GoesOn | NotRestarted => Interrupted end.
Proof.
  intros Hrt M. pose proof (proj1 (managedb_spec c s) M) as Mp.
  destruct (kernel_action c k0 h s Hrt Mp) as (KH & KF & _).
  destruct Mp as (_ & N9 & N19 & _). apply Z.eqb_neq in N9. apply Z.eqb_neq in N19.
  unfold kernel_outcome, kernel_deliver. rewrite N9, N19, KH. cbn [snd].
  rewrite (KF 28%N). reflexivity.
Qed.

Lemma mon_outcome_is c k0 h dyn cret s w :
  0 <= c_rtmin c -> cret <> 0 -> managed c s -> ~ In s [SIGSEGV; SIGBUS; SIGILL] ->
  mon_outcome c dyn cret (after c k0 h) s w =
  call_after (disposition_of (last_app h s (k_act k0 s)) s) w.
Proof.
  intros Hrt Hc M NI. apply managedb_spec in M. unfold mon_outcome. rewrite mon_body.
  pose proof (mon_shows c k0 h dyn cret s false (fun st => mon_run c dyn cret st []) Hrt Hc M
                (fun I => False_ind _ (NI I))) as P. cbv zeta in P.
  pose proof (kernel_outcome_mon c k0 h s w Hrt M) as K.
  destruct (mon_arrive _ _ _ _ _ _ _) as [[st t] l]. destruct P as [P _]. cbn in P.
  destruct (disposition_of _ _); cbn in P; injection P as -> ->; try exact K; reflexivity.
Qed.

Lemma client_outcome c k0 h dyn s w f :
  0 <= c_rtmin c -> managed c s -> last_client h s None = Some f ->
  mon_outcome c dyn 0 (after c k0 h) s w =
  match w with Restartable => GoesOn | NotRestarted => Interrupted end.
Proof.
  intros Hrt M L. pose proof M as Mp. apply managedb_spec in M.
  pose proof (kernel_outcome_mon c k0 h s w Hrt M) as K.
  destruct (kernel_action c k0 h s Hrt Mp) as (KH & KF & _).
  unfold mon_outcome. rewrite mon_body. unfold mon_arrive, kernel_deliver.
  destruct Mp as (_ & N9 & N19 & _). apply Z.eqb_neq in N9. apply Z.eqb_neq in N19.
  rewrite N9, N19, KH, (KF 31%N). cbn [N.eqb Pos.eqb orb]. rewrite set_kn_same.
  unfold signal_handler. pose proof (after_inv c k0 h Hrt) as I.
  rewrite (guard_false c k0 h _ s I M), (I_client _ _ _ _ I s M), L. cbn [run fst Z.eqb].
  unfold gone. rewrite KH. cbn. exact K.
Qed.

Lemma outcome_iff c k0 h dyn cret s w :
  0 <= c_rtmin c -> cret <> 0 -> managed c s -> ~ In s [SIGSEGV; SIGBUS; SIGILL] ->
  fresh k0 -> Forall ordinary h ->
  mon_outcome c dyn cret (after c k0 h) s w = kernel_outcome (native_after (c_os c) k0 h) s w <->
  restart_agrees (native_action c k0 h s) s w.
Proof.
  intros Hrt Hc M NI F O. rewrite (mon_outcome_is c k0 h dyn cret s w Hrt Hc M NI).
  pose proof (rel_after c k0 h F O) as R. apply managedb_spec in M.
  pose proof (r_hand _ _ _ _ R s M) as RH.
  pose proof (proj1 (managedb_spec c s) M) as (_ & N9 & N19 & _).
  apply Z.eqb_neq in N9. apply Z.eqb_neq in N19.
  unfold restart_agrees, native_action, kernel_outcome, kernel_deliver. rewrite N9, N19.
  set (nk := native_after (c_os c) k0 h) in *. set (a := last_app h s (k_act k0 s)) in *.
  unfold disposition_of. rewrite RH.
  destruct (SignalModel.sa_handler a) eqn:E; cbn [snd call_after].
  - destruct (existsb (Z.eqb s) [SIGCHLD; SIGCONT; SIGURG; SIGWINCH]).
    + destruct w; cbn; split; congruence || tauto.
    + destruct (existsb (Z.eqb s) [SIGTSTP; SIGTTIN; SIGTTOU]); cbn; tauto.
  - destruct w; cbn; split; congruence || tauto.
  - destruct w; cbn; [destruct (N.testbit (sa_flags (k_act nk s)) 28); split; congruence|tauto].
  - destruct w; cbn; [destruct (N.testbit (sa_flags (k_act nk s)) 28); split; congruence|tauto].
  - destruct w; cbn; [destruct (N.testbit (sa_flags (k_act nk s)) 28); split; congruence|tauto].
Qed.

(** ** exec *)
Lemma mon_exec_managed c k h s :
  0 <= c_rtmin c -> managedb c s = true -> k_act (mon_exec c k h) s = mkact HDfl 0 0.
Proof.
  intros Hrt M. unfold mon_exec, kernel_exec. cbn [k_act].
  change (fst (run c (signal_init c (start k)) h)) with (after c k h).
  now rewrite (proj1 (kernel_action c k h s Hrt (proj1 (managedb_spec c s) M))).
Qed.

Lemma mon_exec_unmanaged c k h s :
  0 <= c_rtmin c -> managedb c s = false ->
  k_act (mon_exec c k h) s =
  mkact (match SignalModel.sa_handler (k_act k s) with HIgn => HIgn | _ => HDfl end) 0 0.
Proof.
  intros Hrt M. unfold mon_exec, kernel_exec. cbn [k_act].
  change (fst (run c (signal_init c (start k)) h)) with (after c k h).
  now rewrite (I_unman _ _ _ _ (after_inv c k h Hrt) s M).
Qed.

Lemma exec_iff c k0 h s :
  0 <= c_rtmin c -> fresh k0 -> Forall ordinary h ->
  (k_act (mon_exec c k0 h) s = k_act (native_exec (c_os c) k0 h) s <->
   (managed c s -> SignalModel.sa_handler (native_action c k0 h s) <> HIgn)).
Proof.
  intros Hrt F O. pose proof (rel_after c k0 h F O) as R.
  unfold native_exec, native_action. cbn [kernel_exec k_act].
  rewrite <- (managedb_spec c s).
  destruct (managedb c s) eqn:M.
  - rewrite (mon_exec_managed c k0 h s Hrt M).
    destruct (SignalModel.sa_handler (k_act (native_after (c_os c) k0 h) s)); split; try congruence.
    intros X. exfalso. now apply X.
  - rewrite (mon_exec_unmanaged c k0 h s Hrt M), (r_unman _ _ _ _ R s M).
    split; [discriminate|reflexivity].
Qed.

Lemma exec_fresh k : fresh (kernel_exec k).
Proof. intros s. cbn. destruct (SignalModel.sa_handler (k_act k s)); auto. Qed.

(** ** The thread's mask and the mask inside a handler *)
Lemma open_prefix c h1 h2 g : open_after c (h1 ++ h2) g = false -> open_after c h1 g = false.
Proof.
  intros H. destruct (open_after c h1 g) eqn:E; [|reflexivity].
  apply (open_after_mono c h1 h2) in E. congruence.
Qed.

Lemma boot_mask c k0 : k_mask (kn (after c k0 [])) = k_mask k0.
Proof.
  unfold after, boot, signal_init. cbn [run fst inited start shoot sdlist kn].
  destruct (choose_shootdown_early c (init_marks c) (-1) []) as [sd l].
  set (t1 := (upd (init_marks c) sd (set_open (init_marks c sd)) : table)).
  assert (HM : forall l t k, k_mask (snd (fold_left (install_one (c_os c) sd) l (t, k))) = k_mask k).
  { clear. induction l as [|x l IH]; intros t k; [reflexivity|]. cbn [fold_left].
    destruct (install_one (c_os c) sd (t, k) x) as [t' k'] eqn:E. rewrite IH.
    unfold install_one in E. destruct (avoid (t x)); [now injection E as <- <-|].
    unfold real_sigaction in E. destruct (negb (in_range x) || k_reject (c_os c) x); [now injection E as <- <-|].
    destruct ((x =? SIGKILL) || (x =? SIGSTOP)); now injection E as <- <-. }
  specialize (HM all_sigs t1 k0). revert HM. generalize all_sigs. intros L HM.
  match goal with |- context [fold_left ?f L ?x] =>
    change (k_mask (snd (fold_left f L x)) = k_mask k0) in HM; destruct (fold_left f L x) end.
  exact HM.
Qed.

Lemma real_sigaction_mask o k s a : k_mask (fst (real_sigaction o k s a)) = k_mask k.
Proof.
  unfold real_sigaction. destruct (negb (in_range s) || k_reject o s); [reflexivity|].
  destruct a; [|reflexivity]. destruct ((s =? SIGKILL) || (s =? SIGSTOP)); reflexivity.
Qed.

Lemma native_mask_op o k x : is_app x = true \/ (exists s f a, x = OpClient s f a) ->
  k_mask (native_op o k x) = k_mask k.
Proof.
  intros [H|(s & f & a & ->)]; [|reflexivity].
  destruct x as [sig a want|sig hd|sig f a|how set]; try discriminate; cbn [native_op].
  - apply real_sigaction_mask.
  - destruct hd; try reflexivity; apply real_sigaction_mask.
Qed.

Lemma app_mask_op c k0 h x :
  0 <= c_rtmin c -> is_app x = true \/ (exists s f a, x = OpClient s f a) ->
  k_mask (kn (fst (do_op c (after c k0 h) x))) = k_mask (kn (after c k0 h)).
Proof.
  intros Hrt H. pose proof (after_inv c k0 h Hrt) as I.
  destruct x as [sig a want|sig hd|sig f a|how set]; cbn [do_op].
  - rewrite (proj2 (appl_sigaction_spec c k0 h _ sig a want I)).
    destruct (managedb c sig); [|reflexivity]. destruct a; [|reflexivity].
    unfold app_set. cbn [kn]. reflexivity.
  - rewrite (proj2 (appl_signal_spec c k0 h _ sig hd I)).
    destruct (managedb c sig); reflexivity.
  - rewrite (proj2 (client_sigaction_spec c k0 h _ sig f a I)).
    destruct (managedb c sig); [|reflexivity]. destruct a; reflexivity.
  - destruct H as [H|(s & f & a & H)]; discriminate.
Qed.

Lemma same_mask c k0 h g :
  0 <= c_rtmin c -> N.land (k_mask k0) (k_noblock (c_os c)) = 0%N -> 1 <= g < 65 ->
  open_after c h g = false ->
  mem g (k_mask (kn (after c k0 h))) = mem g (k_mask (native_after (c_os c) k0 h)).
Proof.
  intros Hrt D Hg. induction h as [|x h IH] using rev_ind; intros NO.
  - now rewrite boot_mask.
  - pose proof (open_prefix _ _ _ _ NO) as NO'. specialize (IH NO').
    unfold native_after in *. rewrite fold_left_app. cbn [fold_left]. rewrite after_snoc.
    destruct x as [sig a want|sig hd|sig f a|how set];
    try (rewrite app_mask_op, native_mask_op by (auto; right; eauto); exact IH).
    pose proof (mask_call c k0 h how set g Hrt (land_disjoint _ _ D) Hg) as P. cbv zeta in P.
    destruct (do_op c (after c k0 h) (OpMask how set)) as [st' r]. cbn [fst native_op].
    destruct (real_sigprocmask (c_os c) (kn (after c k0 h)) how set) as [nk [nok nold]] eqn:E.
    destruct P as (P & _). rewrite P, NO'.
    replace nk with (fst (real_sigprocmask (c_os c) (kn (after c k0 h)) how set)) by now rewrite E.
    clear - IH. unfold real_sigprocmask. destruct set as [s|]; [|exact IH].
    destruct (how =? SIG_BLOCK); cbn [fst k_mask]; [rewrite !mem_ldiff, !mem_lor, IH; reflexivity|].
    destruct (how =? SIG_UNBLOCK); cbn [fst k_mask]; [rewrite !mem_ldiff, IH; reflexivity|].
    destruct (how =? SIG_SETMASK); cbn [fst k_mask]; [rewrite !mem_ldiff; reflexivity|exact IH].
Qed.

Lemma same_request c k0 h s g :
  managedb c s = true -> fresh k0 -> Forall ordinary h -> 1 <= g < 65 ->
  (forall f a, ~ In (OpClient s f (Some a)) h) -> open_after c h g = false ->
  let a := k_act (native_after (c_os c) k0 h) s in
  N.testbit (req_flags c h s) 30 = N.testbit (sa_flags a) 30 /\
  (req_mask c h s g || ((g =? s) && negb (N.testbit (sa_flags a) 30))) &&
    negb (mem g (k_noblock (c_os c))) =
  (mem g (sa_mask a) || ((g =? s) && negb (N.testbit (sa_flags a) 30))) &&
    negb (mem g (k_noblock (c_os c))).
Proof.
  intros M F O Hg. cbv zeta.
  assert (Ms : 1 <= s) by (apply managedb_spec in M; destruct M; lia).
  induction h as [|x h IH] using rev_ind; intros NC NO.
  - cbn [native_after fold_left]. destruct (F s) as [->| ->]; cbn [sa_flags sa_mask]; rewrite mem_0; now split.
  - apply Forall_app in O. destruct O as [O1 O2]. inversion O2 as [|? ? Ox _]; subst.
    pose proof (open_prefix _ _ _ _ NO) as NO'.
    assert (NC' : forall f a, ~ In (OpClient s f (Some a)) h).
    { intros f a X. apply (NC f a). apply in_or_app. now left. }
    specialize (IH O1 NC' NO').
    rewrite req_flags_snoc, req_mask_snoc.
    unfold native_after in *. rewrite fold_left_app. cbn [fold_left].
    set (nk := fold_left (native_op (c_os c)) h k0) in *.
    destruct x as [sig a want|sig hd|sig f a|how set]; cbn [native_op request].
    + destruct a as [a|].
      * destruct (Z.eqb_spec sig s) as [->|N].
        -- rewrite (real_sigaction_managed _ _ _ _ M). cbn [fst k_act]. rewrite upd_same.
           cbn [strip sa_flags sa_mask]. split; [reflexivity|].
           rewrite mem_ldiff, NO'. cbn [negb]. rewrite andb_true_r.
           destruct (mem g (k_noblock (c_os c))); cbn [negb]; rewrite ?andb_false_r, ?andb_true_r; auto.
        -- replace (k_act (fst (real_sigaction (c_os c) nk sig (Some a))) s) with (k_act nk s);
           [exact IH|].
           unfold real_sigaction. destruct (negb (in_range sig) || k_reject (c_os c) sig); [reflexivity|].
           destruct ((sig =? SIGKILL) || (sig =? SIGSTOP)); [reflexivity|]. cbn [fst k_act].
           rewrite upd_other; auto.
      * replace (fst (real_sigaction (c_os c) nk sig None)) with nk; [exact IH|].
        unfold real_sigaction. destruct (negb (in_range sig) || k_reject (c_os c) sig); reflexivity.
    + cbn in Ox.
      assert (X : (match hd with HErr => nk | _ =>
        fst (real_sigaction (c_os c) nk sig (Some (mkact hd SA_RESTART (sadd sig 0)))) end) =
        fst (real_sigaction (c_os c) nk sig (Some (mkact hd SA_RESTART (sadd sig 0))))).
      { destruct hd; congruence. }
      rewrite X. clear X. destruct (Z.eqb_spec sig s) as [->|N].
      * rewrite (real_sigaction_managed _ _ _ _ M). cbn [fst k_act]. rewrite upd_same.
        cbn [strip sa_flags sa_mask]. split; [reflexivity|].
        rewrite mem_ldiff, mem_sadd, !mem_0 by lia. cbn [negb andb orb].
        destruct (mem g (k_noblock (c_os c))), (g =? s); reflexivity.
      * replace (k_act (fst (real_sigaction (c_os c) nk sig (Some (mkact hd SA_RESTART (sadd sig 0))))) s)
          with (k_act nk s); [exact IH|].
        unfold real_sigaction. destruct (negb (in_range sig) || k_reject (c_os c) sig); [reflexivity|].
        destruct ((sig =? SIGKILL) || (sig =? SIGSTOP)); [reflexivity|]. cbn [fst k_act].
        rewrite upd_other; auto.
    + destruct a as [a|]; [|exact IH]. destruct (Z.eqb_spec sig s) as [->|N]; [|exact IH].
      exfalso. apply (NC f a). apply in_or_app. right. now left.
    + rewrite real_sigprocmask_act. exact IH.
Qed.

Lemma mon_handler_mask c k0 h s g :
  0 <= c_rtmin c -> managed c s -> 1 <= g < 65 ->
  mem g (handler_mask (c_os c) (kn (after c k0 h)) s) =
  (mem g (k_mask (kn (after c k0 h))) || (g =? spec_shoot c) || req_mask c h s g ||
   ((g =? s) && negb (N.testbit (req_flags c h s) 30))) && negb (mem g (k_noblock (c_os c))).
Proof.
  intros Hrt M Hg. destruct (kernel_action c k0 h s Hrt M) as (_ & KF & KM).
  assert (Ms : 1 <= s) by (destruct M; lia).
  unfold handler_mask. rewrite mem_ldiff, !mem_lor, (KM g Hg), (KF 30%N).
  cbn [N.eqb Pos.eqb orb].
  destruct (N.testbit (req_flags c h s) 30); rewrite ?mem_sadd, ?mem_0 by lia;
  destruct (mem g (k_mask (kn (after c k0 h)))), (g =? spec_shoot c), (req_mask c h s g),
    (mem g (k_noblock (c_os c))), (g =? s); reflexivity.
Qed.

Lemma same_handler_mask c k0 h s g :
  0 <= c_rtmin c -> managed c s -> fresh k0 -> N.land (k_mask k0) (k_noblock (c_os c)) = 0%N ->
  Forall ordinary h -> (forall f a, ~ In (OpClient s f (Some a)) h) ->
  1 <= g < 65 -> managed c g -> open_after c h g = false ->
  mem g (handler_mask (c_os c) (kn (after c k0 h)) s) =
  mem g (handler_mask (c_os c) (native_after (c_os c) k0 h) s).
Proof.
  intros Hrt M F D O NC Hg Mg NO.
  assert (Ms : 1 <= s) by (destruct M; lia).
  rewrite (mon_handler_mask c k0 h s g Hrt M Hg), (same_mask c k0 h g Hrt D Hg NO).
  pose proof (proj2 (managedb_spec c s) M) as Mb.
  destruct (same_request c k0 h s g Mb F O Hg NC NO) as [E1 E2]. rewrite E1.
  assert (g =? spec_shoot c = false) as ->.
  { apply managedb_spec in Mg. unfold open_after in NO. rewrite Mg in NO. cbn [andb] in NO.
    apply orb_false_iff in NO. destruct NO as [NO _]. now apply orb_false_iff in NO. }
  unfold handler_mask. rewrite mem_ldiff, !mem_lor.
  set (a := k_act (native_after (c_os c) k0 h) s) in *.
  set (m := mem g (k_mask (native_after (c_os c) k0 h))).
  destruct (N.testbit (sa_flags a) 30); rewrite ?mem_sadd, ?mem_0 by lia; cbn [negb] in E2;
  destruct m, (req_mask c h s g), (mem g (sa_mask a)), (g =? s), (mem g (k_noblock (c_os c)));
  cbn in E2 |- *; congruence.
Qed.
