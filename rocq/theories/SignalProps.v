(** Properties C01-C08, C10: signals.  [after c k0 h] is the state after the
    initialised process made the calls [h]; [k0] is the kernel's state at program
    start, [c] the configuration; see SignalSpec.v for the vocabulary.
    The hypothesis [0 <= c_rtmin c] only says SIGRTMIN is not negative. *)
From Verif Require Import SignalModel SignalSpec SignalProofs SignalProofs2.

(** ** A concrete system used to show that the hypotheses can be met. *)
Definition linux : os :=
  mkos (fun s => (s =? 32) || (s =? 33)) (sadd 9 (sadd 19 (sadd 32 (sadd 33 0)))).
Definition cfg0 : config := mkconfig linux [27; -1] 0 None 34 64.
Definition kern0 : kern := mkkern (fun s => if s =? 1 then mkact HIgn 0 0 else act0) (sadd 10 0).

(** ** C01 *)
Theorem C01_sigaction_transparent : forall c k0 h sig a want,
  0 <= c_rtmin c ->
  snd (do_op c (after c k0 h) (OpSigaction sig a want)) = spec_sigaction c k0 h sig a want.
Proof.
  intros c k0 h sig a want H.
  exact (proj1 (appl_sigaction_spec c k0 h _ sig a want (after_inv c k0 h H))).
Qed.
Print Assumptions C01_sigaction_transparent.

Theorem C01_signal_transparent : forall c k0 h sig hd,
  0 <= c_rtmin c ->
  snd (do_op c (after c k0 h) (OpSignal sig hd)) = spec_signal c k0 h sig.
Proof.
  intros c k0 h sig hd H.
  exact (proj1 (appl_signal_spec c k0 h _ sig hd (after_inv c k0 h H))).
Qed.
Print Assumptions C01_signal_transparent.

(** The first call initialises, so starting uninitialised is the same. *)
Theorem C01_lazy_init : forall c k0 h, h <> [] -> run c (start k0) h = run c (boot c k0) h.
Proof. exact run_start_boot. Qed.
Print Assumptions C01_lazy_init.

(** Non-trivial: an application replaces its handler, the client registers in
    between, and the old action reported is the application's. *)
Example C01_example :
  let a1 := mkact (HFun 7) SA_ONSTACK (sadd 14 0) in
  let h := [OpSigaction 15 (Some a1) true; OpClient 15 (Some 99%N) (Some act0);
            OpSignal 10 (HFun 8)] in
  0 <= c_rtmin cfg0 /\
  r_old (snd (do_op cfg0 (after cfg0 kern0 h) (OpSigaction 15 None true))) = Some a1 /\
  r_old (snd (do_op cfg0 (after cfg0 kern0 h) (OpSigaction 1 None true))) =
    Some (mkact HIgn 0 0) /\
  r_val (snd (do_op cfg0 (after cfg0 kern0 h) (OpSigaction 32 None true))) = -1.
Proof. vm_compute. intuition discriminate. Qed.

(** ** C02 *)
Theorem C02_kernel_control : forall c k0 h s,
  0 <= c_rtmin c -> managed c s ->
  let a := k_act (kn (after c k0 h)) s in
  sa_handler a = HMon /\
  (forall i, N.testbit (sa_flags a) i =
             if (i =? 2)%N || (i =? 28)%N then true
             else if (i =? 27)%N || (i =? 31)%N then false
             else N.testbit (req_flags c h s) i) /\
  (forall g, 1 <= g < 65 ->
     mem g (sa_mask a) =
     ((g =? spec_shoot c) || req_mask c h s g) && negb (mem g (k_noblock (c_os c)))).
Proof. exact kernel_action. Qed.
Print Assumptions C02_kernel_control.

Example C02_example :
  managed cfg0 15 /\
  let h := [OpSigaction 15 (Some (mkact (HFun 7) (N.lor SA_ONSTACK 1) (sadd 27 (sadd 14 0)))) true] in
  k_act (kn (after cfg0 kern0 h)) 15 =
    mkact HMon (N.lor 1 (N.lor SA_SIGINFO SA_RESTART)) (sadd 42 (sadd 14 0)).
Proof. vm_compute. intuition discriminate. Qed.

(** ** C03 *)
Theorem C03_dispatch : forall c k0 h dyn s cops cret eops,
  0 <= c_rtmin c -> managed c s ->
  snd (signal_handler c dyn (after c k0 h) s cops cret eops) =
  match last_client h s None with
  | Some f =>
      EvClient f s ::
      (if cret =? 0 then []
       else app_events dyn s (disposition_of (last_app (h ++ cops) s (k_act k0 s)) s))
  | None => app_events dyn s (disposition_of (last_app h s (k_act k0 s)) s)
  end.
Proof. exact dispatch. Qed.
Print Assumptions C03_dispatch.

Theorem C03_unmanaged_nothing : forall c k0 h dyn s cops cret eops,
  0 <= c_rtmin c -> ~ managed c s ->
  signal_handler c dyn (after c k0 h) s cops cret eops = (after c k0 h, []).
Proof. exact dispatch_unmanaged. Qed.
Print Assumptions C03_unmanaged_nothing.

Example C03_example :
  managed cfg0 15 /\
  let h := [OpSigaction 15 (Some (mkact (HFun 7) SA_SIGINFO 0)) false;
            OpClient 15 (Some 99%N) None] in
  snd (signal_handler cfg0 true (after cfg0 kern0 h) 15 [] 1 []) =
    [EvClient 99 15; EvApp3 (HFun 7) 15] /\
  snd (signal_handler cfg0 true (after cfg0 kern0 h) 15 [] 0 []) = [EvClient 99 15] /\
  snd (signal_handler cfg0 true (after cfg0 kern0 h) 2 [] 0 []) =
    [EvEndProcess; EvEndLibrary; EvSetDefault 2; EvClearMask; EvRaise 2].
Proof. vm_compute. intuition discriminate. Qed.

(** ** C04 *)
Theorem C04_terminate : forall c k0 h dyn s cops cret eops,
  0 <= c_rtmin c -> managed c s ->
  let evs := snd (signal_handler c dyn (after c k0 h) s cops cret eops) in
  let st' := fst (signal_handler c dyn (after c k0 h) s cops cret eops) in
  let h' := match last_client h s None with Some _ => h ++ cops | None => h end in
  In EvEndProcess evs ->
  sa_handler (k_act (kn st') s) = HDfl /\ k_mask (kn st') = 0%N /\
  (forall g, g <> s -> k_act (kn st') g = k_act (kn (after c k0 (h' ++ eops))) g) /\
  tab st' = tab (after c k0 (h' ++ eops)).
Proof. exact terminate_state. Qed.
Print Assumptions C04_terminate.

(** The exact order of events for a default-terminate signal with no client. *)
Theorem C04_order : forall c k0 h dyn s cops cret eops,
  0 <= c_rtmin c -> managed c s -> last_client h s None = None ->
  disposition_of (last_app h s (k_act k0 s)) s = DTerminate ->
  snd (signal_handler c dyn (after c k0 h) s cops cret eops) =
  [EvEndProcess] ++ (if dyn then [EvEndLibrary] else []) ++
  [EvSetDefault s; EvClearMask] ++
  (if existsb (Z.eqb s) [SIGSEGV; SIGBUS; SIGILL] then [] else [EvRaise s]).
Proof.
  intros c k0 h dyn s cops cret eops Hrt M Hc Hd.
  rewrite (dispatch c k0 h dyn s cops cret eops Hrt M), Hc, Hd. reflexivity.
Qed.
Print Assumptions C04_order.

Example C04_example :
  managed cfg0 11 /\
  In EvEndProcess (snd (signal_handler cfg0 true (after cfg0 kern0 []) 11 [] 0
                          [OpSignal 15 HIgn])).
Proof. vm_compute. intuition discriminate. Qed.

(** ** C05 *)
Theorem C05_mask_call : forall c k0 h how set g,
  0 <= c_rtmin c ->
  N.land (k_mask k0) (k_noblock (c_os c)) = 0%N ->
  1 <= g < 65 ->
  let before := kn (after c k0 h) in
  let '(st', r) := do_op c (after c k0 h) (OpMask how set) in
  let '(native, (nok, nold)) := real_sigprocmask (c_os c) before how set in
  mem g (k_mask (kn st')) =
    (if open_after c h g then mem g (k_mask before) else mem g (k_mask native)) /\
  k_act (kn st') = k_act before /\
  r = (if nok then mkret 0 None None (Some nold) None
       else mkret (-1) (Some EINVAL) None None None).
Proof. intros c k0 h how set g Hrt H0. exact (mask_call c k0 h how set g Hrt (land_disjoint _ _ H0)). Qed.
Print Assumptions C05_mask_call.

Theorem C05_mask_history : forall c k0 h1 h2 g,
  0 <= c_rtmin c ->
  N.land (k_mask k0) (k_noblock (c_os c)) = 0%N ->
  open_after c h1 g = true ->
  mem g (k_mask (kn (after c k0 (h1 ++ h2)))) = mem g (k_mask (kn (after c k0 h1))).
Proof. intros c k0 h1 h2 g Hrt H0. exact (mask_history c k0 h1 h2 g Hrt (land_disjoint _ _ H0)). Qed.
Print Assumptions C05_mask_history.

Example C05_example :
  N.land (k_mask kern0) (k_noblock (c_os cfg0)) = 0%N /\
  open_after cfg0 [] 27 = true /\ open_after cfg0 [] 42 = true /\
  let h := [OpMask SIG_SETMASK (Some (N.ones 64))] in
  mem 27 (k_mask (kn (after cfg0 kern0 h))) = false /\
  mem 15 (k_mask (kn (after cfg0 kern0 h))) = true.
Proof. vm_compute. repeat split. Qed.

(** ** C06 *)

(** What the kernel mask of an application handler is, for every history: with
    the application's call most recent, the requested mask minus the signals
    kept open at that time, plus the shootdown signal. *)
Theorem C06_mask_at_call : forall c k0 h s a want g,
  0 <= c_rtmin c -> managed c s -> 1 <= g < 65 ->
  mem g (sa_mask (k_act (kn (after c k0 (h ++ [OpSigaction s (Some a) want]))) s)) =
  ((g =? spec_shoot c) || (mem g (sa_mask a) && negb (open_after c h g))) &&
  negb (mem g (k_noblock (c_os c))).
Proof.
  intros c k0 h s a want g Hrt M Hg.
  rewrite (proj2 (proj2 (kernel_action c k0 _ s Hrt M)) g Hg).
  rewrite req_mask_snoc. cbn [request]. now rewrite Z.eqb_refl.
Qed.
Print Assumptions C06_mask_at_call.

(** A client signal registered (or configured) before the application's last
    request for s is never in the mask of s, however long ago. *)
Theorem C06_open_not_blocked_partial : forall c k0 h s a want h2 g,
  0 <= c_rtmin c -> managed c s -> 1 <= g < 65 ->
  open_after c h g = true -> g <> spec_shoot c ->
  (forall o, In o h2 -> request o s = None) ->
  mem g (sa_mask (k_act (kn (after c k0 (h ++ [OpSigaction s (Some a) want] ++ h2))) s)) = false.
Proof.
  intros c k0 h s a want h2 g Hrt M Hg HO Hne Hh2.
  rewrite (proj2 (proj2 (kernel_action c k0 _ s Hrt M)) g Hg).
  replace (g =? spec_shoot c) with false by lia. cbn [orb].
  rewrite app_assoc.
  assert (E : req_mask c ((h ++ [OpSigaction s (Some a) want]) ++ h2) s g =
              req_mask c (h ++ [OpSigaction s (Some a) want]) s g).
  { clear HO. induction h2 as [|o h2 IH] using rev_ind; [now rewrite app_nil_r|].
    rewrite app_assoc, req_mask_snoc.
    rewrite (Hh2 o) by (apply in_or_app; right; now left).
    apply IH. intros o' Ho'. apply Hh2, in_or_app. now left. }
  rewrite E, req_mask_snoc. cbn [request]. rewrite Z.eqb_refl, HO.
  cbn. now rewrite andb_false_r.
Qed.
Print Assumptions C06_open_not_blocked_partial.

Example C06_partial_example :
  managed cfg0 15 /\ open_after cfg0 [OpClient 14 (Some 5%N) None] 14 = true /\
  14 <> spec_shoot cfg0 /\
  mem 14 (sa_mask (k_act (kn (after cfg0 kern0
    ([OpClient 14 (Some 5%N) None] ++
     [OpSigaction 15 (Some (mkact (HFun 7) 0 (N.ones 64))) false] ++
     [OpSignal 10 HIgn]))) 15)) = false.
Proof. vm_compute. intuition discriminate. Qed.

(** The unrestricted claim fails: an application handler installed first keeps
    blocking a signal the client registers later. *)
Theorem C06_late_client_refuted : exists c k0 h s g,
  0 <= c_rtmin c /\ managed c s /\ managed c g /\ open_after c h g = true /\
  g <> spec_shoot c /\ last_client h g None = Some 5%N /\
  mem g (sa_mask (k_act (kn (after c k0 h)) s)) = true.
Proof.
  exists cfg0, kern0,
    [OpSigaction 15 (Some (mkact (HFun 7) 0 (sadd 14 0))) false;
     OpClient 14 (Some 5%N) None], 15, 14.
  vm_compute. intuition discriminate.
Qed.
Print Assumptions C06_late_client_refuted.

(** ** C07 *)
Theorem C07_choice : forall c k0 h,
  0 <= c_rtmin c ->
  snd (shootdown_signal c (start k0)) = spec_shoot c /\
  shootdown_signal c (after c k0 h) = (after c k0 h, spec_shoot c).
Proof.
  intros c k0 h H. exact (conj (shoot_first c k0 H) (shoot_always c k0 h H)).
Qed.
Print Assumptions C07_choice.

Theorem C07_range : forall c,
  1 <= spec_shoot c < 65 /\ ~ In (spec_shoot c) [SIGKILL; SIGSTOP; SIGTSTP; SIGTTIN; SIGTTOU].
Proof.
  intros c. split; [exact (spec_shoot_range c)|].
  pose proof (spec_shoot_ok c) as H. unfold sd_ok in H. cbn [existsb] in H.
  unfold SIGKILL, SIGSTOP, SIGTSTP, SIGTTIN, SIGTTOU. cbn [In]. lia.
Qed.
Print Assumptions C07_range.

(** The array monitor_shootdown_list has MONITOR_NSIG = 65 entries. *)
Theorem C07_list_fits : forall c k0 h,
  0 <= c_rtmin c -> (length (sdlist (after c k0 h)) <= 65)%nat.
Proof. exact sdlist_after. Qed.
Print Assumptions C07_list_fits.

(** How the environment value is read: a decimal number at its start counts, with an
    optional sign and leading white space; any other text counts as unset. *)
Theorem C07_env_number : forall text,
  (forall z, reads_number (list_ascii_of_string text) z -> -2147483648 <= z < 2147483648 ->
     sscanf_d text = Some z) /\
  ((forall z, ~ reads_number (list_ascii_of_string text) z) -> sscanf_d text = None).
Proof.
  intros text. split.
  - intros z H Hz. pose proof (sscanf_reads _ z H) as E.
    rewrite string_of_list_ascii_of_string in E. now rewrite E, small_int.
  - intros H. pose proof (sscanf_none _ H) as E. now rewrite string_of_list_ascii_of_string in E.
Qed.
Print Assumptions C07_env_number.

Example C07_env_example : reads_number (list_ascii_of_string " -12x"%string) (-12).
Proof.
  apply (RN [" "%char] ["-"%char] true [1; 2] ["1"%char; "2"%char] ["x"%char]).
  - repeat constructor.
  - auto.
  - discriminate.
  - repeat constructor; discriminate.
  - intros d [H1 H2]. vm_compute (Z.of_nat _) in H2. lia.
Qed.

Example C07_example :
  spec_shoot cfg0 = 42 /\
  spec_shoot (mkconfig linux [42; 43; -1] 0 None 34 64) = 44 /\
  spec_shoot (mkconfig linux [] 30 (Some " +12x"%string) 34 64) = 12 /\
  spec_shoot (mkconfig linux [] 30 (Some "9"%string) 34 64) = 30 /\
  spec_shoot (mkconfig linux [] 0 (Some "4294967306"%string) 34 64) = 10.
Proof. vm_compute. repeat split. Qed.

(** ** C08 *)
Theorem C08_usable_partial : forall c k a,
  (forall s, k_reject (c_os c) s = (s =? 32) || (s =? 33)) -> c_rtmin c = 34 ->
  (forall e, c_env c = Some e -> sscanf_d e <> Some 32 /\ sscanf_d e <> Some 33) ->
  c_shoot c <> 32 -> c_shoot c <> 33 ->
  snd (real_sigaction (c_os c) k (spec_shoot c) (Some a)) <> None.
Proof. exact shoot_usable. Qed.
Print Assumptions C08_usable_partial.

Example C08_partial_example :
  (forall s, k_reject (c_os cfg0) s = (s =? 32) || (s =? 33)) /\ c_rtmin cfg0 = 34 /\
  spec_shoot cfg0 = 42.
Proof. repeat split. Qed.

(** MONITOR_SHOOTDOWN_SIGNAL=32 is accepted as the shootdown signal although
    sigaction rejects it. *)
Theorem C08_env_refuted : exists c k0 a,
  (forall s, k_reject (c_os c) s = (s =? 32) || (s =? 33)) /\ c_rtmin c = 34 /\
  c_env c = Some "32"%string /\
  shoot (boot c k0) = 32 /\
  snd (real_sigaction (c_os c) (kn (boot c k0)) (shoot (boot c k0)) (Some a)) = None.
Proof.
  exists (mkconfig linux [] 0 (Some "32"%string) 34 64), kern0, act0.
  split; [reflexivity|]. vm_compute. repeat split.
Qed.
Print Assumptions C08_env_refuted.

(** ** C10 *)
Theorem C10_client_result : forall c k0 h sig x a,
  0 <= c_rtmin c ->
  (managed c sig ->
     r_val (snd (do_op c (after c k0 h) (OpClient sig x a))) = 0 /\
     last_client (h ++ [OpClient sig x a]) sig None = x /\
     open_after c (h ++ [OpClient sig x a]) sig = true) /\
  (~ managed c sig ->
     do_op c (after c k0 h) (OpClient sig x a) = (after c k0 h, ret_int (-1))).
Proof.
  intros c k0 h sig x a Hrt. pose proof (after_inv c k0 h Hrt) as I.
  destruct (client_sigaction_spec c k0 h _ sig x a I) as [E1 E2].
  split; intros M.
  - apply managedb_spec in M. cbn [do_op]. rewrite E1, M. split; [reflexivity|].
    rewrite last_client_snoc, Z.eqb_refl. split; [reflexivity|].
    unfold open_after. rewrite M, existsb_app. cbn. rewrite Z.eqb_refl.
    now rewrite !orb_true_r.
  - assert (Mb : managedb c sig = false).
    { apply not_true_is_false. intros E. now apply M, managedb_spec. }
    rewrite Mb in *. cbn [do_op].
    destruct (client_sigaction c (after c k0 h) sig x a) as [st' r].
    cbn [fst snd] in *. now subst.
Qed.
Print Assumptions C10_client_result.

(** Deleting every client call (and every mask call) from the past changes no
    result of the application's sigaction and signal. *)
Theorem C10_client_invisible : forall c k0 h o,
  0 <= c_rtmin c -> is_app o = true ->
  snd (do_op c (after c k0 h) o) = snd (do_op c (after c k0 (filter is_app h)) o).
Proof. exact client_invisible. Qed.
Print Assumptions C10_client_invisible.

Example C10_example :
  managed cfg0 14 /\ ~ managed cfg0 32 /\ ~ managed cfg0 9 /\ ~ managed cfg0 65.
Proof. vm_compute. intuition discriminate. Qed.
