(** Consequences of the signal invariant, in the form of the properties. *)
From Verif Require Import SignalModel SignalSpec SignalProofs.

(** ** sa_flags bits *)
Lemma adjust_bits f i :
  N.testbit (adjust_saflags f) i =
  if (i =? 2)%N || (i =? 28)%N then true
  else if (i =? 27)%N || (i =? 31)%N then false
  else N.testbit f i.
Proof.
  unfold adjust_saflags, SAFLAGS_REQUIRED, SAFLAGS_FORBIDDEN.
  rewrite N.ldiff_spec, !N.lor_spec.
  change SA_SIGINFO with (2 ^ 2)%N. change SA_RESTART with (2 ^ 28)%N.
  change SA_RESETHAND with (2 ^ 31)%N. change SA_ONSTACK with (2 ^ 27)%N.
  rewrite !N.pow2_bits_eqb.
  rewrite (N.eqb_sym 2 i), (N.eqb_sym 28 i), (N.eqb_sym 27 i), (N.eqb_sym 31 i).
  destruct (N.eqb_spec i 2) as [->|H2]; [cbn; now rewrite orb_true_r|].
  destruct (N.eqb_spec i 28) as [->|H28]; [cbn; now rewrite !orb_true_r|].
  destruct (N.eqb_spec i 27) as [->|H27]; [cbn; now rewrite andb_false_r|].
  destruct (N.eqb_spec i 31) as [->|H31]; cbn; [now rewrite andb_false_r|].
  now rewrite !orb_false_r, andb_true_r.
Qed.

Lemma kernel_action c k0 h s :
  0 <= c_rtmin c -> managed c s ->
  let a := k_act (kn (after c k0 h)) s in
  sa_handler a = HMon /\
  (forall i, N.testbit (sa_flags a) i =
             if (i =? 2)%N || (i =? 28)%N then true
             else if (i =? 27)%N || (i =? 31)%N then false
             else N.testbit (req_flags c h s) i) /\
  (forall g, 1 <= g < 65 ->
     mem g (sa_mask a) =
     ((g =? spec_shoot c) || req_mask c h s g) && negb (mem g (k_noblock (c_os c)))).
Proof.
  intros Hrt M. apply managedb_spec in M.
  pose proof (after_inv c k0 h Hrt) as I. cbv zeta.
  rewrite (I_kern _ _ _ _ I) by exact M. unfold strip. cbn [sa_handler sa_flags sa_mask].
  split; [|split].
  - now apply (I_handler _ _ _ _ I).
  - intros i. rewrite (I_flags _ _ _ _ I) by exact M. apply adjust_bits.
  - intros g Hg. rewrite mem_ldiff. rewrite (I_mask _ _ _ _ I); [reflexivity|exact M|].
    apply in_range_spec. unfold NSIG. lia.
Qed.

(** ** Starting without monitor_signal_init having run makes no difference. *)
Lemma inited_init c st : inited (signal_init c st) = true.
Proof.
  unfold signal_init. destruct (inited st) eqn:E; [exact E|].
  destruct (choose_shootdown_early c (init_marks c) (shoot st) (sdlist st)) as [sd l].
  destruct (fold_left _ _ _) as [t2 k2]. reflexivity.
Qed.

Lemma do_op_init c st o : do_op c (signal_init c st) o = do_op c st o.
Proof.
  assert (E : signal_init c (signal_init c st) = signal_init c st)
    by (apply init_idem, inited_init).
  destruct o as [sig a want|sig hd|sig x a|how set]; cbn [do_op].
  - unfold appl_sigaction. now rewrite E.
  - unfold appl_signal, appl_sigaction. now rewrite E.
  - unfold client_sigaction. now rewrite E.
  - unfold appl_sigprocmask. now rewrite E.
Qed.

Lemma run_start_boot c k0 h : h <> [] -> run c (start k0) h = run c (boot c k0) h.
Proof.
  intros Hh. destruct h as [|o h]; [congruence|].
  cbn [run]. unfold boot. now rewrite do_op_init.
Qed.

(** ** Dispatch *)
Lemma after_app c k0 h1 h2 : fst (run c (after c k0 h1) h2) = after c k0 (h1 ++ h2).
Proof. unfold after. now rewrite run_app. Qed.

Lemma apply_appl_events c dyn st s (eops : list op) k0 h :
  Inv c k0 h st -> managedb c s = true ->
  snd (apply_appl c dyn st s eops) =
  app_events dyn s (disposition_of (last_app h s (k_act k0 s)) s).
Proof.
  intros I M. unfold apply_appl. cbv zeta.
  pose proof (managed_in_range _ _ M) as R.
  rewrite (I_appl _ _ _ _ I) by exact M.
  rewrite (I_noterm _ _ _ _ I) by exact R.
  rewrite (I_stop _ _ _ _ I) by exact R.
  rewrite (I_noraise _ _ _ _ I) by exact R.
  unfold disposition_of.
  destruct (sa_handler (last_app h s (k_act k0 s))) as [| | | |ad].
  - change (existsb (Z.eqb s) [SIGCHLD; SIGCONT; SIGURG; SIGWINCH]) with (is_noterm s).
    change (existsb (Z.eqb s) [SIGTSTP; SIGTTIN; SIGTTOU]) with (is_stop s).
    destruct (is_noterm s); [reflexivity|].
    destruct (is_stop s); [reflexivity|].
    destruct (real_sigaction _ _ _ _) as [k3 x].
    destruct (real_sigprocmask _ _ _ _) as [k4 y].
    reflexivity.
  - reflexivity.
  - cbn. destruct (N.testbit (sa_flags (last_app h s (k_act k0 s))) 2); reflexivity.
  - cbn. destruct (N.testbit (sa_flags (last_app h s (k_act k0 s))) 2); reflexivity.
  - cbn. destruct (N.testbit (sa_flags (last_app h s (k_act k0 s))) 2); reflexivity.
Qed.

Lemma guard_false c k0 h st s :
  Inv c k0 h st -> managedb c s = true ->
  negb (in_range s) || avoid (tab st s) || invalid (tab st s) = false.
Proof.
  intros I M. pose proof (managed_in_range _ _ M) as R.
  rewrite (I_avoid _ _ _ _ I), (I_invalid _ _ _ _ I) by exact R.
  rewrite R, (managed_not_avoid _ _ M), (managed_not_reject _ _ M). reflexivity.
Qed.

Lemma dispatch c k0 h dyn s cops cret eops :
  0 <= c_rtmin c -> managed c s ->
  snd (signal_handler c dyn (after c k0 h) s cops cret eops) =
  match last_client h s None with
  | Some f =>
      EvClient f s ::
      (if cret =? 0 then []
       else app_events dyn s (disposition_of (last_app (h ++ cops) s (k_act k0 s)) s))
  | None => app_events dyn s (disposition_of (last_app h s (k_act k0 s)) s)
  end.
Proof.
  intros Hrt M. apply managedb_spec in M.
  pose proof (after_inv c k0 h Hrt) as I.
  unfold signal_handler. rewrite (guard_false _ _ _ _ _ I M).
  rewrite (I_client _ _ _ _ I) by exact M.
  destruct (last_client h s None) as [f|].
  - rewrite after_app. destruct (cret =? 0); [reflexivity|].
    rewrite <- (apply_appl_events c dyn (after c k0 (h ++ cops)) s eops k0 (h ++ cops));
      [|now apply after_inv|exact M].
    destruct (apply_appl _ _ _ _ _) as [st2 tr]. reflexivity.
  - now apply apply_appl_events.
Qed.

(** Outside the managed signals nothing happens. *)
Lemma dispatch_unmanaged c k0 h dyn s cops cret eops :
  0 <= c_rtmin c -> ~ managed c s ->
  signal_handler c dyn (after c k0 h) s cops cret eops = (after c k0 h, []).
Proof.
  intros Hrt M. pose proof (after_inv c k0 h Hrt) as I.
  assert (Mb : managedb c s = false).
  { apply not_true_is_false. intros E. apply M. now apply managedb_spec. }
  unfold signal_handler. rewrite managedb_unfold in Mb.
  destruct (in_range s) eqn:R; [|reflexivity].
  rewrite (I_avoid _ _ _ _ I), (I_invalid _ _ _ _ I) by exact R.
  destruct (is_avoid s); [reflexivity|].
  destruct (k_reject (c_os c) s); [reflexivity|discriminate].
Qed.

(** ** Termination *)
Lemma apply_appl_end c k0 hx dyn s eops :
  managedb c s = true ->
  let r := apply_appl c dyn (after c k0 hx) s eops in
  In EvEndProcess (snd r) ->
  sa_handler (k_act (kn (fst r)) s) = HDfl /\ k_mask (kn (fst r)) = 0%N /\
  (forall g, g <> s -> k_act (kn (fst r)) g = k_act (kn (after c k0 (hx ++ eops))) g) /\
  tab (fst r) = tab (after c k0 (hx ++ eops)).
Proof.
  intros M. unfold apply_appl. cbv zeta.
  assert (Hx : forall ev, ev <> EvEndProcess -> ~ In EvEndProcess [ev]).
  { intros ev Hev [H|[]]; auto. }
  destruct (sa_handler (appl_act (tab (after c k0 hx) s))).
  - destruct (noterm _); [cbn; tauto|].
    destruct (stop _); [cbn [snd]; intros H; exfalso; revert H; apply Hx; discriminate|].
    rewrite after_app, real_sigaction_managed by exact M.
    unfold real_sigprocmask. cbn [SIG_BLOCK SIG_UNBLOCK SIG_SETMASK Z.eqb].
    intros _. cbn. rewrite upd_same. repeat split.
    intros g Hg. now rewrite upd_other.
  - cbn; tauto.
  - cbn [snd]. intros H. exfalso. revert H. apply Hx. destruct (N.testbit _ 2); discriminate.
  - cbn [snd]. intros H. exfalso. revert H. apply Hx. destruct (N.testbit _ 2); discriminate.
  - cbn [snd]. intros H. exfalso. revert H. apply Hx. destruct (N.testbit _ 2); discriminate.
Qed.

Lemma terminate_state c k0 h dyn s cops cret eops :
  0 <= c_rtmin c -> managed c s ->
  let evs := snd (signal_handler c dyn (after c k0 h) s cops cret eops) in
  let st' := fst (signal_handler c dyn (after c k0 h) s cops cret eops) in
  let h' := match last_client h s None with Some _ => h ++ cops | None => h end in
  In EvEndProcess evs ->
  sa_handler (k_act (kn st') s) = HDfl /\ k_mask (kn st') = 0%N /\
  (forall g, g <> s -> k_act (kn st') g = k_act (kn (after c k0 (h' ++ eops))) g) /\
  tab st' = tab (after c k0 (h' ++ eops)).
Proof.
  intros Hrt M evs st' h'. apply managedb_spec in M.
  pose proof (after_inv c k0 h Hrt) as I.
  subst evs st'.
  unfold signal_handler. rewrite (guard_false _ _ _ _ _ I M).
  rewrite (I_client _ _ _ _ I) by exact M.
  subst h'. destruct (last_client h s None) as [f|].
  - rewrite after_app. destruct (cret =? 0).
    + cbn. intros [H|[]]. discriminate.
    + pose proof (apply_appl_end c k0 (h ++ cops) dyn s eops M) as E. cbv zeta in E.
      destruct (apply_appl _ _ _ _ _) as [st2 tr]. cbn [fst snd] in *.
      intros [H|H]; [discriminate|]. now apply E.
  - now apply apply_appl_end.
Qed.

(** ** Masks *)
Lemma land_disjoint a b : N.land a b = 0%N -> forall x, mem x a = true -> mem x b = false.
Proof.
  intros H x Ha. unfold mem in *.
  assert (E : N.testbit (N.land a b) (sbit x) = false) by (rewrite H; apply N.bits_0).
  rewrite N.land_spec, Ha in E. exact E.
Qed.

Lemma mask_noblock c k0 h g :
  0 <= c_rtmin c -> (forall x, mem x (k_mask k0) = true -> mem x (k_noblock (c_os c)) = false) ->
  mem g (k_mask (kn (after c k0 h))) = true -> mem g (k_noblock (c_os c)) = false.
Proof.
  intros Hrt H0. revert g. induction h as [|o h IH] using rev_ind; intros g.
  - unfold after, boot, signal_init. cbn [run fst inited start shoot sdlist kn].
    destruct (choose_shootdown_early c (init_marks c) (-1) []) as [sd l].
    set (t1 := (upd (init_marks c) sd (set_open (init_marks c sd)) : table)).
    assert (HM : k_mask (snd (fold_left (install_one (c_os c) sd) all_sigs (t1, k0)))
                 = k_mask k0).
    { clearbody t1. clear. generalize all_sigs. intros l. revert t1 k0.
      induction l as [|x l IH]; intros t1 k0; [reflexivity|].
      cbn [fold_left]. destruct (install_one (c_os c) sd (t1, k0) x) as [t2 k2] eqn:E.
      etransitivity; [apply IH|]. unfold install_one in E. cbv zeta in E.
      destruct (avoid (t1 x)); [inversion E; reflexivity|].
      unfold real_sigaction in E.
      destruct (negb (in_range x) || k_reject (c_os c) x); [inversion E; reflexivity|].
      destruct ((x =? SIGKILL) || (x =? SIGSTOP)); inversion E; reflexivity. }
    set (R := fold_left (install_one (c_os c) sd) all_sigs (t1, k0)) in HM.
    change (mem g (k_mask (kn (let '(t2, k2) := R in mkstate true t2 sd l k2))) = true ->
            mem g (k_noblock (c_os c)) = false).
    destruct R as [t2 k2]. cbn [kn snd] in *. rewrite HM. apply H0.
  - rewrite after_snoc. pose proof (after_inv c k0 h Hrt) as I.
    destruct o as [sig a want|sig hd|sig x a|how set]; cbn [do_op].
    + destruct (appl_sigaction_spec c k0 h _ sig a want I) as [_ E]. rewrite E.
      destruct (managedb c sig), a; apply IH.
    + destruct (appl_signal_spec c k0 h _ sig hd I) as [_ E]. rewrite E.
      destruct (managedb c sig); apply IH.
    + destruct (client_sigaction_spec c k0 h _ sig x a I) as [_ E]. rewrite E.
      destruct (managedb c sig), a; apply IH.
    + unfold appl_sigprocmask. rewrite (init_idem _ _ (I_init _ _ _ _ I)).
      destruct set as [s|]; [|apply IH].
      unfold real_sigprocmask.
      destruct (how =? SIG_BLOCK); [cbn [fst kn k_mask]; rewrite mem_ldiff; intros H;
        apply andb_prop in H; destruct H as [_ H]; now apply negb_true_iff in H|].
      destruct (how =? SIG_UNBLOCK); [cbn [fst kn k_mask]; rewrite mem_ldiff; intros H;
        apply andb_prop in H; destruct H as [_ H]; now apply negb_true_iff in H|].
      destruct (how =? SIG_SETMASK); [cbn [fst kn k_mask]; rewrite mem_ldiff; intros H;
        apply andb_prop in H; destruct H as [_ H]; now apply negb_true_iff in H|].
      apply IH.
Qed.

Lemma mask_call c k0 h how set g :
  0 <= c_rtmin c ->
  (forall x, mem x (k_mask k0) = true -> mem x (k_noblock (c_os c)) = false) ->
  1 <= g < 65 ->
  let before := kn (after c k0 h) in
  let '(st', r) := do_op c (after c k0 h) (OpMask how set) in
  let '(native, (nok, nold)) := real_sigprocmask (c_os c) before how set in
  mem g (k_mask (kn st')) =
    (if open_after c h g then mem g (k_mask before) else mem g (k_mask native)) /\
  k_act (kn st') = k_act before /\
  r = (if nok then mkret 0 None None (Some nold) None
       else mkret (-1) (Some EINVAL) None None None).
Proof.
  intros Hrt H0 Hg. cbv zeta. cbn [do_op].
  pose proof (after_inv c k0 h Hrt) as I.
  assert (R : in_range g = true) by (apply in_range_spec; unfold NSIG; lia).
  pose proof (mask_noblock c k0 h g Hrt H0) as NB.
  unfold appl_sigprocmask. rewrite (init_idem _ _ (I_init _ _ _ _ I)).
  set (st := after c k0 h) in *.
  pose proof (kept_open_spec c k0 h st g I R) as KO.
  destruct set as [s|].
  2:{ cbn. repeat split. destruct (open_after c h g); reflexivity. }
  pose proof (remove_mem (tab st) (k_mask (kn st)) s how g R) as RM. rewrite KO in RM.
  unfold real_sigprocmask.
  destruct (how =? SIG_BLOCK) eqn:E1.
  { cbn [fst kn k_mask k_act]. repeat split. cbn [orb] in RM.
    rewrite !mem_ldiff, !mem_lor, RM. destruct (open_after c h g); [|reflexivity].
    rewrite orb_false_r. destruct (mem g (k_mask (kn st))); [|reflexivity].
    rewrite NB by reflexivity. reflexivity. }
  destruct (how =? SIG_UNBLOCK) eqn:E2.
  { cbn [fst kn k_mask k_act]. repeat split. cbn [orb] in RM.
    rewrite !mem_ldiff, RM. destruct (open_after c h g); [|reflexivity].
    cbn [negb]. rewrite andb_true_r. destruct (mem g (k_mask (kn st))); [|reflexivity].
    rewrite NB by reflexivity. reflexivity. }
  destruct (how =? SIG_SETMASK) eqn:E3.
  { cbn [fst kn k_mask k_act]. repeat split. cbn [orb] in RM.
    rewrite !mem_ldiff, RM. destruct (open_after c h g); [|reflexivity].
    destruct (mem g (k_mask (kn st))); [|reflexivity].
    rewrite NB by reflexivity. reflexivity. }
  cbn. repeat split. destruct (open_after c h g); reflexivity.
Qed.

Lemma open_after_mono c h1 h2 g : open_after c h1 g = true -> open_after c (h1 ++ h2) g = true.
Proof.
  unfold open_after. rewrite existsb_app. rewrite !andb_true_iff, !orb_true_iff. tauto.
Qed.

Lemma mask_history c k0 h1 h2 g :
  0 <= c_rtmin c ->
  (forall x, mem x (k_mask k0) = true -> mem x (k_noblock (c_os c)) = false) ->
  open_after c h1 g = true ->
  mem g (k_mask (kn (after c k0 (h1 ++ h2)))) = mem g (k_mask (kn (after c k0 h1))).
Proof.
  intros Hrt H0 HO. induction h2 as [|o h2 IH] using rev_ind.
  - now rewrite app_nil_r.
  - rewrite app_assoc, after_snoc, <- IH.
    pose proof (after_inv c k0 (h1 ++ h2) Hrt) as I.
    destruct o as [sig a want|sig hd|sig x a|how set].
    + cbn [do_op]. destruct (appl_sigaction_spec c k0 _ _ sig a want I) as [_ E]. rewrite E.
      destruct (managedb c sig), a; reflexivity.
    + cbn [do_op]. destruct (appl_signal_spec c k0 _ _ sig hd I) as [_ E]. rewrite E.
      destruct (managedb c sig); reflexivity.
    + cbn [do_op]. destruct (client_sigaction_spec c k0 _ _ sig x a I) as [_ E]. rewrite E.
      destruct (managedb c sig), a; reflexivity.
    + assert (Hg : 1 <= g < 65).
      { unfold open_after in HO. apply andb_prop in HO. destruct HO as [HO _].
        unfold managedb in HO. lia. }
      pose proof (mask_call c k0 (h1 ++ h2) how set g Hrt H0 Hg) as MC. cbv zeta in MC.
      destruct (do_op c (after c k0 (h1 ++ h2)) (OpMask how set)) as [st' r].
      destruct (real_sigprocmask _ _ how set) as [nat' [a b]].
      destruct MC as [MC _]. cbn [fst]. rewrite MC.
      rewrite (open_after_mono c h1 h2 g HO). reflexivity.
Qed.

(** ** Non-interference of the client with the application's view *)
Lemma last_app_filter h s d : last_app (filter is_app h) s d = last_app h s d.
Proof.
  revert d. induction h as [|o h IH]; intros d; [reflexivity|].
  cbn [filter]. destruct o as [sig a want|sig hd|sig x a|how set];
  cbn [is_app last_app app_request]; try apply IH.
Qed.

Lemma client_invisible c k0 h o :
  0 <= c_rtmin c -> is_app o = true ->
  snd (do_op c (after c k0 h) o) = snd (do_op c (after c k0 (filter is_app h)) o).
Proof.
  intros Hrt Ho. pose proof (after_inv c k0 h Hrt) as I1.
  pose proof (after_inv c k0 (filter is_app h) Hrt) as I2.
  destruct o as [sig a want|sig hd|sig x a|how set]; try discriminate; cbn [do_op].
  - destruct (appl_sigaction_spec c k0 _ _ sig a want I1) as [E1 _].
    destruct (appl_sigaction_spec c k0 _ _ sig a want I2) as [E2 _].
    rewrite E1, E2. unfold spec_sigaction. now rewrite last_app_filter.
  - destruct (appl_signal_spec c k0 _ _ sig hd I1) as [E1 _].
    destruct (appl_signal_spec c k0 _ _ sig hd I2) as [E2 _].
    rewrite E1, E2. unfold spec_signal. now rewrite last_app_filter.
Qed.

(** ** Shootdown signal *)
Lemma shoot_always c k0 h :
  0 <= c_rtmin c -> shootdown_signal c (after c k0 h) = (after c k0 h, spec_shoot c).
Proof.
  intros Hrt. pose proof (after_inv c k0 h Hrt) as I.
  unfold shootdown_signal. rewrite (I_shoot _ _ _ _ I).
  pose proof (spec_shoot_range c). destruct (Z.gtb_spec (spec_shoot c) 0); [reflexivity|lia].
Qed.

Lemma shoot_first c k0 :
  0 <= c_rtmin c -> snd (shootdown_signal c (start k0)) = spec_shoot c.
Proof.
  intros Hrt. pose proof (boot_inv c k0 Hrt) as I.
  unfold shootdown_signal. change (shoot (start k0) >? 0) with false. cbv iota zeta.
  fold (boot c k0).
  unfold choose_shootdown_early. rewrite (I_shoot _ _ _ _ I).
  pose proof (spec_shoot_range c). destruct (Z.gtb_spec (spec_shoot c) 0); [reflexivity|lia].
Qed.

Lemma sdlist_after c k0 h : 0 <= c_rtmin c -> (length (sdlist (after c k0 h)) <= 65)%nat.
Proof.
  intros Hrt. induction h as [|o h IH] using rev_ind.
  - unfold after, boot, signal_init. cbn [run fst inited start shoot sdlist kn].
    destruct (choose_shootdown_early c (init_marks c) (-1) []) as [sd l] eqn:E.
    assert (HL : l = build_sdlist (init_marks c) (c_rtmin c) (c_rtmax c)).
    { unfold choose_shootdown_early in E. cbn [Z.gtb Z.compare] in E.
      destruct (env_choice _ _); [congruence|].
      destruct (sd_valid _ _); congruence. }
    destruct (fold_left _ _ _) as [t2 k2]. cbn [sdlist]. subst l.
    now apply sdlist_length.
  - rewrite after_snoc. pose proof (after_inv c k0 h Hrt) as I.
    destruct o as [sig a want|sig hd|sig x a|how set]; cbn [do_op].
    + destruct (appl_sigaction_spec c k0 h _ sig a want I) as [_ E]. rewrite E.
      destruct (managedb c sig), a; apply IH.
    + destruct (appl_signal_spec c k0 h _ sig hd I) as [_ E]. rewrite E.
      destruct (managedb c sig); apply IH.
    + destruct (client_sigaction_spec c k0 h _ sig x a I) as [_ E]. rewrite E.
      destruct (managedb c sig), a; apply IH.
    + unfold appl_sigprocmask. rewrite (init_idem _ _ (I_init _ _ _ _ I)).
      destruct (real_sigprocmask _ _ _ _) as [k' [ok old]]. apply IH.
Qed.

(** Linux: the C library rejects exactly 32 and 33, SIGRTMIN is 34. *)
Lemma shoot_usable c k a :
  (forall s, k_reject (c_os c) s = (s =? 32) || (s =? 33)) -> c_rtmin c = 34 ->
  (forall e, c_env c = Some e -> sscanf_d e <> Some 32 /\ sscanf_d e <> Some 33) ->
  c_shoot c <> 32 -> c_shoot c <> 33 ->
  snd (real_sigaction (c_os c) k (spec_shoot c) (Some a)) <> None.
Proof.
  intros HR Hrt He H1 H2.
  assert (F : forall l, (forall x, In x l -> x <> 32 /\ x <> 33) ->
     match find (fun s => sd_ok s && negb (reserved c s)) l with
     | Some s => s | None => SIGWINCH end <> 32 /\
     match find (fun s => sd_ok s && negb (reserved c s)) l with
     | Some s => s | None => SIGWINCH end <> 33).
  { intros l Hl. destruct (find _ l) eqn:E; [|unfold SIGWINCH; lia].
    apply find_some in E. destruct E as [E _]. now apply Hl. }
  specialize (F (candidates c)).
  assert (HC : forall x, In x (candidates c) -> x <> 32 /\ x <> 33).
  { intros x Hx. unfold candidates in Hx. apply in_app_or in Hx. destruct Hx as [Hx|Hx].
    - apply ascending_ge in Hx. lia.
    - cbn in Hx. unfold SIGUSR2, SIGUSR1, SIGPWR, SIGURG, SIGPIPE in Hx. lia. }
  specialize (F HC).
  assert (N : spec_shoot c <> 32 /\ spec_shoot c <> 33).
  { unfold spec_shoot. destruct (c_env c) as [e|].
    - specialize (He e eq_refl). destruct (sscanf_d e) as [s|].
      + destruct (sd_ok s); [split; intros ->; tauto|].
        destruct (sd_ok (c_shoot c)); [tauto|exact F].
      + destruct (sd_ok (c_shoot c)); [tauto|exact F].
    - destruct (sd_ok (c_shoot c)); [tauto|exact F]. }
  unfold real_sigaction. rewrite in_range_shoot, HR. cbn [negb orb].
  replace ((spec_shoot c =? 32) || (spec_shoot c =? 33)) with false by lia.
  pose proof (spec_shoot_not_avoid c) as NA. unfold is_avoid in NA.
  unfold SIGKILL, SIGSTOP. rewrite NA. discriminate.
Qed.

(** ** sscanf *)

Lemma is_space_white c : is_space c = true <-> white c.
Proof.
  unfold is_space, white. cbn [In].
  rewrite orb_true_iff, andb_true_iff, Nat.eqb_eq, !Nat.leb_le.
  generalize (nat_of_ascii c). intros n. split; intros H; lia.
Qed.
Lemma is_digit_char c : is_digit c = true <-> exists d, digit_char d c.
Proof.
  unfold is_digit, digit_char. rewrite andb_true_iff, !Nat.leb_le. split.
  - intros H. exists (digit_val c). unfold digit_val. lia.
  - intros [d H]. lia.
Qed.
Lemma digit_char_val d c : digit_char d c -> digit_val c = d.
Proof. unfold digit_char, digit_val. lia. Qed.
Lemma digit_not_space d c : digit_char d c -> is_space c = false.
Proof.
  intros [H1 H2]. apply not_true_is_false. intros H. apply is_space_white in H.
  unfold white in H. cbn [In] in H. lia.
Qed.

Lemma digits_run : forall cs ds rest acc,
  Forall2 digit_char ds cs -> no_digit_first rest ->
  digits (string_of_list_ascii (cs ++ rest)) acc = acc * 10 ^ Z.of_nat (length ds) + dec_value ds.
Proof.
  induction cs as [|c cs IH]; intros ds rest acc H Hr; inversion H; subst; clear H.
  - simpl. destruct rest as [|c r]; simpl; [lia|].
    destruct (is_digit c) eqn:E; [|lia]. exfalso. apply is_digit_char in E. destruct E as [d E].
    exact (Hr d E).
  - cbn [app string_of_list_ascii digits].
    assert (is_digit c = true) as -> by (apply is_digit_char; eauto).
    rewrite (IH _ _ _ H4 Hr), (digit_char_val _ _ H3). cbn [length dec_value].
    rewrite Nat2Z.inj_succ, Z.pow_succ_r by lia. lia.
Qed.

Lemma skip_space_run : forall ws r, Forall white ws ->
  match r with [] => True | c :: _ => is_space c = false end ->
  skip_space (string_of_list_ascii (ws ++ r)) = string_of_list_ascii r.
Proof.
  induction ws as [|c ws IH]; intros r H Hr; simpl.
  - destruct r as [|x r]; simpl; [reflexivity|]. now rewrite Hr.
  - inversion H; subst. apply is_space_white in H2. rewrite H2. now apply IH.
Qed.

Lemma scan_run neg cs ds rest :
  cs <> [] -> Forall2 digit_char ds cs -> no_digit_first rest ->
  scan_unsigned neg (string_of_list_ascii (cs ++ rest)) =
  Some (to_int32 (clamp_long (if neg then - dec_value ds else dec_value ds))).
Proof.
  intros Hn H Hr. pose proof (digits_run cs ds rest 0 H Hr) as D.
  destruct cs as [|c cs]; [contradiction|]. unfold scan_unsigned.
  cbn [app string_of_list_ascii] in D |- *. inversion H; subst.
  assert (is_digit c = true) as -> by (apply is_digit_char; eauto).
  rewrite D. rewrite Z.mul_0_l, Z.add_0_l. reflexivity.
Qed.

Lemma sscanf_reads l z : reads_number l z ->
  sscanf_d (string_of_list_ascii l) = Some (to_int32 (clamp_long z)).
Proof.
  intros H. destruct H as [ws sg neg ds cs rest Hws Hsg Hcs Hds Hrest].
  destruct cs as [|c cs]; [contradiction|].
  assert (Hc : exists d, digit_char d c) by (inversion Hds; subst; eauto).
  destruct Hc as [d Hc].
  assert (Hpm : Ascii.eqb c "-"%char = false /\ Ascii.eqb c "+"%char = false).
  { split; apply Ascii.eqb_neq; intros ->; destruct Hc as [Q1 Q2]; cbn [nat_of_ascii] in Q2; vm_compute (Z.of_nat _) in Q2; lia. }
  destruct Hpm as [Hm Hp].
  unfold sscanf_d. destruct Hsg as [[-> ->]|[[-> ->]|[-> ->]]].
  - cbn [app]. rewrite (skip_space_run ws (c :: cs ++ rest) Hws (digit_not_space d c Hc)).
    change (c :: cs ++ rest) with ((c :: cs) ++ rest).
    pose proof (scan_run false (c :: cs) ds rest Hcs Hds Hrest) as S.
    cbn [app string_of_list_ascii] in S |- *. now rewrite Hm, Hp.
  - cbn [app]. rewrite (skip_space_run ws ("+"%char :: c :: cs ++ rest) Hws eq_refl).
    exact (scan_run false (c :: cs) ds rest Hcs Hds Hrest).
  - cbn [app]. rewrite (skip_space_run ws ("-"%char :: c :: cs ++ rest) Hws eq_refl).
    exact (scan_run true (c :: cs) ds rest Hcs Hds Hrest).
Qed.

Lemma digit_prefix : forall l : list ascii, exists cs rest ds, l = cs ++ rest /\
  Forall2 digit_char ds cs /\ no_digit_first rest.
Proof.
  induction l as [|c l IH]; [exists [], [], []; repeat split; constructor|].
  destruct (is_digit c) eqn:E.
  - destruct IH as (cs & rest & ds & -> & H1 & H2). apply is_digit_char in E. destruct E as [d E].
    exists (c :: cs), rest, (d :: ds). repeat split; [now constructor|exact H2].
  - exists [], (c :: l), []. repeat split; [constructor|]. intros d Hd.
    assert (is_digit c = true) by (apply is_digit_char; eauto). congruence.
Qed.

Lemma white_prefix : forall l : list ascii, exists ws r, l = ws ++ r /\ Forall white ws /\
  match r with [] => True | c :: _ => is_space c = false end.
Proof.
  induction l as [|c l IH]; [exists [], []; repeat split; constructor|].
  destruct (is_space c) eqn:E.
  - destruct IH as (ws & r & -> & H1 & H2). exists (c :: ws), r. repeat split; [|exact H2].
    constructor; [now apply is_space_white|exact H1].
  - exists [], (c :: l). repeat split; [constructor|exact E].
Qed.

Lemma scan_some neg r v : scan_unsigned neg (string_of_list_ascii r) = Some v ->
  exists cs rest ds, r = cs ++ rest /\ cs <> [] /\ Forall2 digit_char ds cs /\ no_digit_first rest.
Proof.
  intros H. destruct (digit_prefix r) as (cs & rest & ds & -> & H1 & H2).
  exists cs, rest, ds. repeat split; auto. intros ->. inversion H1; subst. simpl in H.
  destruct rest as [|c rest]; simpl in H; [discriminate|].
  destruct (is_digit c) eqn:E; [|discriminate]. apply is_digit_char in E. destruct E as [d E].
  exact (H2 d E).
Qed.

Lemma sscanf_none l : (forall z, ~ reads_number l z) -> sscanf_d (string_of_list_ascii l) = None.
Proof.
  intros H. destruct (sscanf_d (string_of_list_ascii l)) as [v|] eqn:E; [|reflexivity]. exfalso.
  destruct (white_prefix l) as (ws & r & -> & Hws & Hr).
  unfold sscanf_d in E. rewrite (skip_space_run ws r Hws Hr) in E.
  destruct r as [|c r]; [discriminate|]. cbn [string_of_list_ascii] in E.
  destruct (Ascii.eqb c "-"%char) eqn:Em; [|destruct (Ascii.eqb c "+"%char) eqn:Ep].
  - apply Ascii.eqb_eq in Em. subst c. apply scan_some in E.
    destruct E as (cs & rest & ds & -> & H1 & H2 & H3).
    apply (H (- dec_value ds)). exact (RN ws ["-"%char] true ds cs rest Hws ltac:(auto) H1 H2 H3).
  - apply Ascii.eqb_eq in Ep. subst c. apply scan_some in E.
    destruct E as (cs & rest & ds & -> & H1 & H2 & H3).
    apply (H (dec_value ds)). exact (RN ws ["+"%char] false ds cs rest Hws ltac:(auto) H1 H2 H3).
  - change (String c (string_of_list_ascii r)) with (string_of_list_ascii (c :: r)) in E.
    apply scan_some in E. destruct E as (cs & rest & ds & Er & H1 & H2 & H3).
    apply (H (dec_value ds)). rewrite Er. exact (RN ws [] false ds cs rest Hws ltac:(auto) H1 H2 H3).
Qed.

Lemma small_int z : -2147483648 <= z < 2147483648 -> to_int32 (clamp_long z) = z.
Proof.
  intros H. unfold to_int32, clamp_long, LONG_MIN, LONG_MAX.
  rewrite (Z.min_r _ z), (Z.max_r _ z) by lia. rewrite Z.mod_small by lia. lia.
Qed.
