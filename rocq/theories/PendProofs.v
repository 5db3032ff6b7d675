(** Proofs for PendProps.v. *)
From Verif Require Import SignalModel SignalSpec SignalProofs SignalProofs2.
From Verif Require Import SigOsModel SigOsSpec SigOsProofs PendModel PendSpec.

(** ** Sets *)
Lemma sdel_absent s (x : sigset) : mem s x = false -> sdel s x = x.
Proof.
  unfold mem, sdel. intros H. apply N.bits_inj. intros i. rewrite N.clearbit_eqb.
  destruct (N.eqb_spec (sbit s) i) as [<-|N].
  - rewrite H. reflexivity.
  - cbn. now rewrite andb_true_r.
Qed.

Definition cnt (x : sigset) : nat := length (filter (fun s => mem s x) all_sigs).

Lemma filter_le {A} (f g : A -> bool) l : (forall x, f x = true -> g x = true) ->
  (length (filter f l) <= length (filter g l))%nat.
Proof.
  intros H. induction l as [|a l IH]; [reflexivity|]. cbn.
  destruct (f a) eqn:E; [rewrite (H _ E); cbn; lia|]. destruct (g a); cbn; lia.
Qed.

Lemma filter_lt {A} (f g : A -> bool) l x : (forall y, f y = true -> g y = true) ->
  In x l -> g x = true -> f x = false ->
  (length (filter f l) < length (filter g l))%nat.
Proof.
  intros H. induction l as [|a l IH]; [intros []|]. intros [->|I] G F; cbn.
  - rewrite F, G. cbn. pose proof (filter_le f g l H). lia.
  - specialize (IH I G F). destruct (f a) eqn:E; [rewrite (H _ E); cbn; lia|]. destruct (g a); cbn; lia.
Qed.

Lemma cnt_sdel s x : In s all_sigs -> mem s x = true -> (cnt (sdel s x) < cnt x)%nat.
Proof.
  intros I M. unfold cnt. apply filter_lt with (x := s); auto.
  - intros y. unfold mem, sdel. rewrite N.clearbit_eqb. intros H. apply andb_true_iff in H. tauto.
  - unfold mem, sdel. rewrite N.clearbit_eqb, N.eqb_refl. cbn. apply andb_false_r.
Qed.

Lemma cnt_bound x : (cnt x <= 64)%nat.
Proof.
  unfold cnt. transitivity (length all_sigs); [|reflexivity].
  generalize all_sigs. induction l as [|a l IH]; [reflexivity|]. cbn. destruct (mem a x); cbn; lia.
Qed.

(** ** Facts that do not depend on the mask *)
Lemma inv_mask c k0 h st m : Inv c k0 h st -> Inv c k0 h (with_mask st m).
Proof. intros I. destruct I. split; cbn; assumption. Qed.

Lemma kernel_action_inv c k0 h st s :
  Inv c k0 h st -> managedb c s = true ->
  let a := k_act (kn st) s in
  SignalModel.sa_handler a = HMon /\
  (forall i, N.testbit (sa_flags a) i =
             if (i =? 2)%N || (i =? 28)%N then true
             else if (i =? 27)%N || (i =? 31)%N then false
             else N.testbit (req_flags c h s) i) /\
  (forall g, 1 <= g < 65 ->
     mem g (sa_mask a) =
     ((g =? spec_shoot c) || req_mask c h s g) && negb (mem g (k_noblock (c_os c)))).
Proof.
  intros I M. cbv zeta.
  rewrite (I_kern _ _ _ _ I) by exact M. unfold strip. cbn [SignalModel.sa_handler sa_flags sa_mask].
  split; [|split].
  - now apply (I_handler _ _ _ _ I).
  - intros i. rewrite (I_flags _ _ _ _ I) by exact M. apply adjust_bits.
  - intros g Hg. rewrite mem_ldiff. rewrite (I_mask _ _ _ _ I); [reflexivity|exact M|].
    apply in_range_spec. unfold NSIG. lia.
Qed.

Lemma op_mask_inv c k0 h st x :
  Inv c k0 h st -> is_app x = true \/ (exists s f a, x = OpClient s f a) ->
  k_mask (kn (fst (do_op c st x))) = k_mask (kn st).
Proof.
  intros I H.
  destruct x as [sig a want|sig hd|sig f a|how set]; cbn [do_op].
  - rewrite (proj2 (appl_sigaction_spec c k0 h _ sig a want I)).
    destruct (managedb c sig); [|reflexivity]. destruct a; [|reflexivity].
    unfold app_set. cbn [kn]. reflexivity.
  - rewrite (proj2 (appl_signal_spec c k0 h _ sig hd I)).
    destruct (managedb c sig); reflexivity.
  - rewrite (proj2 (client_sigaction_spec c k0 h _ sig f a I)).
    destruct (managedb c sig); [|reflexivity]. destruct a; reflexivity.
  - destruct H as [H|(s & f & a & H)]; discriminate.
Qed.

Lemma op_mask_call c k0 h st k how set g :
  Inv c k0 h st -> 1 <= g < 65 -> open_after c h g = false ->
  mem g (k_mask (kn st)) = mem g (k_mask k) ->
  mem g (k_mask (kn (fst (do_op c st (OpMask how set))))) =
  mem g (k_mask (fst (real_sigprocmask (c_os c) k how set))).
Proof.
  intros I Hg NO E. cbn [do_op].
  assert (R : in_range g = true) by (apply in_range_spec; unfold NSIG; lia).
  unfold appl_sigprocmask. rewrite (init_idem _ _ (I_init _ _ _ _ I)).
  pose proof (kept_open_spec c k0 h st g I R) as KO. rewrite NO in KO.
  destruct set as [s|]; [|cbn; exact E].
  pose proof (remove_mem (tab st) (k_mask (kn st)) s how g R) as RM. rewrite KO in RM.
  unfold real_sigprocmask.
  destruct (how =? SIG_BLOCK).
  { cbn [fst kn k_mask]. rewrite !mem_ldiff, !mem_lor, RM, E. reflexivity. }
  destruct (how =? SIG_UNBLOCK).
  { cbn [fst kn k_mask]. rewrite !mem_ldiff, RM, E. reflexivity. }
  destruct (how =? SIG_SETMASK); [|cbn; exact E].
  cbn [fst kn k_mask]. rewrite !mem_ldiff, RM. reflexivity.
Qed.

Lemma real_sigaction_act o k k' s a : k_act k = k_act k' ->
  k_act (fst (real_sigaction o k s a)) = k_act (fst (real_sigaction o k' s a)).
Proof.
  intros E. unfold real_sigaction. destruct (negb (in_range s) || k_reject o s); [exact E|].
  destruct a; [|exact E]. destruct ((s =? SIGKILL) || (s =? SIGSTOP)); [exact E|]. cbn. now rewrite E.
Qed.

Lemma native_op_act o k k' x : k_act k = k_act k' ->
  k_act (native_op o k x) = k_act (native_op o k' x).
Proof.
  intros E. destruct x as [sig a want|sig hd|sig f a|how set]; cbn [native_op].
  - now apply real_sigaction_act.
  - destruct hd; try exact E; now apply real_sigaction_act.
  - exact E.
  - rewrite !real_sigprocmask_act. exact E.
Qed.

Lemma native_after_snoc o k h x : native_after o k (h ++ [x]) = native_op o (native_after o k h) x.
Proof. unfold native_after. rewrite fold_left_app. reflexivity. Qed.

(** ** The simulation *)
Section Sim.
Variables (c : config) (dyn : bool) (cret : Z) (k0 : kern) (script : list happening).
Let calls := calls_made script.
Let o := c_os c.
Let MO := monitored c dyn cret.
Let NA := native o.
Hypothesis Hrt : 0 <= c_rtmin c.
Hypothesis F : fresh k0.
Hypothesis O : Forall ordinary calls.

Definition mine (g : Z) : Prop :=
  1 <= g < 65 /\ g <> spec_shoot c /\ (managedb c g = true -> reserved c g = false) /\
  (forall f a, ~ In (HCall (OpClient g f a)) script).

Lemma plain_mine s : plain c script s -> mine s.
Proof. intros (A & B & C & D & _). split; [exact A|]. auto. Qed.

Lemma in_calls x : In x calls -> In (HCall x) script.
Proof.
  unfold calls, calls_made. rewrite in_flat_map. intros (e & I & J).
  destruct e; cbn in J; try tauto. destruct J as [->|[]]. exact I.
Qed.

Lemma mine_open g h : mine g -> incl h calls -> open_after c h g = false.
Proof.
  intros (A & B & C & D) I. unfold open_after. destruct (managedb c g); [|reflexivity].
  rewrite (C eq_refl). cbn [orb andb]. apply orb_false_iff. split; [now apply Z.eqb_neq|].
  apply not_true_is_false. intros X. apply existsb_exists in X. destruct X as (x & X & Y).
  destruct x as [| |sg f a|]; cbn in Y; try discriminate. apply Z.eqb_eq in Y. subst sg.
  apply (D f a). apply in_calls. now apply I.
Qed.

Lemma mine_noclient g h f a : mine g -> incl h calls -> ~ In (OpClient g f a) h.
Proof. intros (A & B & C & D) I X. apply (D f a). apply in_calls. now apply I. Qed.

Lemma mine_last g h : mine g -> incl h calls -> last_client h g None = None.
Proof.
  intros M. induction h as [|x h IH] using rev_ind; intros I; [reflexivity|].
  rewrite last_client_snoc.
  assert (I' : incl h calls) by (intros y Y; apply I; apply in_or_app; now left).
  rewrite (IH I'). destruct x as [| |sg f a|]; try reflexivity.
  destruct (Z.eqb_spec sg g) as [->|]; [|reflexivity].
  exfalso. apply (mine_noclient g (h ++ [OpClient g f a]) f a M I). apply in_or_app. right. now left.
Qed.

Inductive same_frame : frame -> frame -> Prop :=
| SF m m' : (forall g, mine g -> mem g m = mem g m') -> same_frame (FHandler m) (FHandler m').

Record sim (h : list op) (p : proc state) (q : proc kern) : Prop := {
  s_inv : Inv c k0 h (p_sys p);
  s_act : k_act (p_sys q) = k_act (native_after o k0 h);
  s_mask : forall g, mine g -> mem g (k_mask (kn (p_sys p))) = mem g (k_mask (p_sys q));
  s_frames : Forall2 same_frame (p_frames p) (p_frames q);
  s_pend : p_pend p = p_pend q;
  s_plain : forall s, 1 <= s -> mem s (p_pend q) = true -> plain c script s;
  s_seen : p_seen p = p_seen q;
  s_alive : p_alive p = true;
  s_alive' : p_alive q = true;
  s_incl : incl h calls }.

Lemma ordinary_incl h : incl h calls -> Forall ordinary h.
Proof. intros I. apply Forall_forall. intros x X. rewrite Forall_forall in O. apply O, I, X. Qed.

(** Masks inside a handler. *)
Lemma handler_masks h st k s g :
  Inv c k0 h st -> k_act k = k_act (native_after o k0 h) -> incl h calls ->
  managedb c s = true -> mine s -> mine g ->
  mem g (k_mask (kn st)) = mem g (k_mask k) ->
  mem g (handler_mask o (kn st) s) = mem g (handler_mask o k s).
Proof.
  intros I A IC M MS MG E.
  assert (Hg : 1 <= g < 65) by apply MG.
  assert (Ms : 1 <= s) by (apply managedb_spec in M; destruct M; lia).
  destruct (kernel_action_inv c k0 h st s I M) as (_ & KF & KM).
  destruct (same_request c k0 h s g M F (ordinary_incl h IC) Hg
              (fun f a => mine_noclient s h f (Some a) MS IC) (mine_open g h MG IC)) as [E1 E2].
  fold o in E1, E2. rewrite <- A in E1, E2.
  unfold handler_mask. rewrite !mem_ldiff, !mem_lor, (KM g Hg), (KF 30%N), E1, E. fold o.
  cbn [N.eqb Pos.eqb orb].
  assert (g =? spec_shoot c = false) as -> by (apply Z.eqb_neq; apply MG).
  cbn [orb]. set (a := k_act k s) in *. set (m := mem g (k_mask k)).
  destruct (N.testbit (sa_flags a) 30); rewrite ?mem_sadd, ?mem_0 by lia; cbn [negb] in E2;
  destruct m, (req_mask c h s g), (mem g (sa_mask a)), (g =? s), (mem g (k_noblock o));
  cbn in E2 |- *; congruence.
Qed.

(** One delivery of a managed signal on either side. *)
Definition disp (h : list op) (s : Z) : disposition := disposition_of (last_app h s (k_act k0 s)) s.

Lemma native_take_is h k s :
  k_act k = k_act (native_after o k0 h) -> incl h calls -> managedb c s = true ->
  native_take o k s =
  match disp h s with
  | DIgnore | DNothing => (k, TNothing)
  | DStop => (k, TStop)
  | DTerminate => (k, TDie)
  | DHandler hd b => (mkkern (k_act k) (handler_mask o k s), TRun hd b)
  end.
Proof.
  intros A I M. pose proof (rel_after c k0 h F (ordinary_incl h I)) as R. fold o in R.
  pose proof (r_hand _ _ _ _ R s M) as R1. pose proof (r_info _ _ _ _ R s M) as R2.
  pose proof (r_shot _ _ _ _ R s M) as R3. rewrite <- A in R1, R2, R3.
  pose proof (proj1 (managedb_spec c s) M) as (_ & N9 & N19 & _).
  apply Z.eqb_neq in N9. apply Z.eqb_neq in N19.
  unfold native_take, kernel_deliver, disp, disposition_of. rewrite N9, N19, R1, R2, R3.
  destruct (SignalModel.sa_handler (last_app h s (k_act k0 s))); try reflexivity.
  destruct (existsb (Z.eqb s) [SIGCHLD; SIGCONT; SIGURG; SIGWINCH]); [reflexivity|].
  destruct (existsb (Z.eqb s) [SIGTSTP; SIGTTIN; SIGTTOU]); reflexivity.
Qed.

Lemma mon_take_is h st s :
  Inv c k0 h st -> incl h calls -> managedb c s = true -> plain c script s ->
  let inside := with_mask st (handler_mask o (kn st) s) in
  match disp h s with
  | DIgnore | DNothing => mon_take c dyn cret st s = (inside, TNothing)
  | DStop => mon_take c dyn cret st s = (inside, TStop)
  | DTerminate => exists st1, mon_take c dyn cret st s = (st1, TDoom)
  | DHandler hd b => mon_take c dyn cret st s = (inside, TRun hd b)
  end.
Proof.
  intros I IC M P inside.
  pose proof (proj1 (managedb_spec c s) M) as (_ & N9 & N19 & _).
  apply Z.eqb_neq in N9. apply Z.eqb_neq in N19.
  destruct (kernel_action_inv c k0 h st s I M) as (KH & KF & _).
  assert (Iin : Inv c k0 h inside) by now apply inv_mask.
  destruct (kernel_action_inv c k0 h inside s Iin M) as (KH' & _ & _).
  unfold mon_take, kernel_deliver. rewrite N9, N19, KH, (KF 31%N). cbn [N.eqb Pos.eqb orb].
  fold o. change (set_kn st (mkkern (k_act (kn st)) (handler_mask o (kn st) s))) with inside.
  unfold signal_handler. rewrite (guard_false c k0 h _ s Iin M), (I_client _ _ _ _ Iin s M).
  rewrite (mine_last s h (plain_mine s P) IC).
  pose proof (apply_appl_events c dyn inside s [] k0 h Iin M) as EV. fold (disp h s) in EV.
  pose proof (apply_appl_goes_on c dyn inside s []) as G.
  assert (NR : existsb (Z.eqb s) [SIGSEGV; SIGBUS; SIGILL] = false).
  { apply not_true_is_false. intros X. apply existsb_eqb_in in X. destruct P as (_ & _ & _ & _ & P). auto. }
  destruct (disp h s) as [|hd b| | |] eqn:D.
  - assert (fst (apply_appl c dyn inside s []) = inside) as G1 by (apply G; rewrite EV; cbn; tauto).
    destruct (apply_appl c dyn inside s []) as [st1 evs]. cbn [fst snd] in *. subst st1 evs.
    unfold gone. rewrite KH'. reflexivity.
  - assert (fst (apply_appl c dyn inside s []) = inside) as G1.
    { apply G. rewrite EV. destruct b; cbn; intros [X|[]]; discriminate. }
    destruct (apply_appl c dyn inside s []) as [st1 evs]. cbn [fst snd] in *. subst st1 evs.
    unfold gone. rewrite KH'. destruct b; reflexivity.
  - assert (fst (apply_appl c dyn inside s []) = inside) as G1 by (apply G; rewrite EV; cbn; tauto).
    destruct (apply_appl c dyn inside s []) as [st1 evs]. cbn [fst snd] in *. subst st1 evs.
    unfold gone. rewrite KH'. reflexivity.
  - assert (fst (apply_appl c dyn inside s []) = inside) as G1.
    { apply G. rewrite EV. cbn. intros [X|[]]; discriminate. }
    destruct (apply_appl c dyn inside s []) as [st1 evs]. cbn [fst snd] in *. subst st1 evs.
    unfold gone. rewrite KH'. reflexivity.
  - assert (HD : SignalModel.sa_handler (k_act (kn (fst (apply_appl c dyn inside s []))) s) = HDfl /\
                 k_mask (kn (fst (apply_appl c dyn inside s []))) = 0%N).
    { assert (In EvEndProcess (snd (apply_appl c dyn inside s []))) as IE by (rewrite EV; cbn; now left).
      revert IE. unfold apply_appl. cbv zeta.
      assert (Hx : forall ev, ev <> EvEndProcess -> ~ In EvEndProcess [ev]) by (intros ev Hev [H|[]]; auto).
      destruct (SignalModel.sa_handler (appl_act (tab inside s))).
      - destruct (noterm _); [cbn; tauto|].
        destruct (stop _); [cbn [snd]; intros H; exfalso; revert H; apply Hx; discriminate|].
        cbn [run fst]. rewrite real_sigaction_managed by exact M.
        unfold real_sigprocmask. cbn [SIG_BLOCK SIG_UNBLOCK SIG_SETMASK Z.eqb].
        intros _. cbn. rewrite upd_same. split; reflexivity.
      - cbn; tauto.
      - cbn [snd]. intros H. exfalso. revert H. apply Hx. destruct (N.testbit _ 2); discriminate.
      - cbn [snd]. intros H. exfalso. revert H. apply Hx. destruct (N.testbit _ 2); discriminate.
      - cbn [snd]. intros H. exfalso. revert H. apply Hx. destruct (N.testbit _ 2); discriminate. }
    destruct HD as [HD1 HD2]. destruct (apply_appl c dyn inside s []) as [st1 evs]. cbn [fst snd] in *.
    assert (gone (kn st1) s false evs = true) as ->; [|exists st1; reflexivity].
    unfold gone. rewrite HD1, HD2, mem_0, EV. cbn [negb andb]. unfold raised. cbn [app_events].
    rewrite NR, !existsb_app. cbn [existsb]. rewrite Z.eqb_refl. cbn [orb]. now rewrite !orb_true_r.
Qed.

(** What two processes that have come to their end have in common. *)
Definition ended (p : proc state) (q : proc kern) : Prop :=
  p_alive p = false /\ p_alive q = false /\ p_seen p = p_seen q.

Lemma next_same h p q : sim h p q -> next MO p = next NA q.
Proof.
  intros R. unfold next, mask_of. cbn [y_kern MO NA monitored native]. rewrite (s_pend _ _ _ R).
  apply find_ext_in. intros s Is. apply all_sigs_in in Is.
  destruct (mem s (p_pend q)) eqn:E; [|reflexivity]. cbn [andb]. f_equal.
  apply (s_mask _ _ _ R). apply plain_mine. apply (s_plain _ _ _ R); [lia|exact E].
Qed.

Lemma sdel_plain s (x : sigset) :
  (forall g, 1 <= g -> mem g x = true -> plain c script g) ->
  forall g, 1 <= g -> mem g (sdel s x) = true -> plain c script g.
Proof.
  intros H g Hg. unfold mem, sdel. rewrite N.clearbit_eqb. intros X. apply andb_true_iff in X.
  apply H; tauto.
Qed.

Lemma take_sim h p q s :
  sim h p q -> 1 <= s -> mem s (p_pend q) = true ->
  sim h (take MO p s) (take NA q s) \/
  (p_alive (take NA q s) = false /\
   (ended (take MO p s) (take NA q s) \/
    (p_alive (take MO p s) = true /\ p_pend (take MO p s) = p_pend (take NA q s) /\
     (exists r, p_frames (take MO p s) = FDoom s :: r) /\
     p_seen (take NA q s) = Died s :: p_seen (take MO p s)))).
Proof.
  intros R Hs Ms. pose proof (s_plain _ _ _ R s Hs Ms) as P.
  pose proof (sdel_plain s _ (s_plain _ _ _ R)) as PD.
  destruct R as [RI RA RM RF RP RPl RS RL RL' RC].
  destruct p as [st pend fr sn al]. destruct q as [k pend' fr' sn' al']. cbn in *. subst pend al al' sn.
  unfold take, mask_of. cbn [p_sys p_pend p_frames p_seen p_alive y_kern y_take y_mask MO NA monitored native].
  destruct (managedb c s) eqn:M.
  - pose proof (native_take_is h k s RA RC M) as TN.
    pose proof (mon_take_is h st s RI RC M P) as TM. cbv zeta in TM.
    set (inside := with_mask st (handler_mask o (kn st) s)) in *.
    assert (Inv1 : Inv c k0 h (with_mask inside (k_mask (kn st)))) by (apply inv_mask, inv_mask, RI).
    rewrite TN. destruct (disp h s) as [|hd b| | |].
    + rewrite TM. left. split; cbn; auto.
    + rewrite TM. left. split; cbn; auto.
      * now apply inv_mask.
      * intros g MG. apply (handler_masks h); auto. now apply plain_mine.
      * constructor; [constructor; exact RM|exact RF].
    + rewrite TM. left. split; cbn; auto.
    + rewrite TM. left. split; cbn; auto.
    + destruct TM as [st1 ->]. right. cbn. split; [reflexivity|]. right.
      split; [reflexivity|]. split; [reflexivity|]. split; [eexists; reflexivity|]. reflexivity.
  - pose proof (I_unman _ _ _ _ RI s M) as KM.
    pose proof (r_unman _ _ _ _ (rel_after c k0 h F (ordinary_incl h RC)) s M) as KN.
    fold o in KN. rewrite <- RA in KN.
    destruct (kernel_deliver_unmanaged (kn st) s false _ KM (F s)) as [E1 E2].
    destruct (kernel_deliver_unmanaged k s false _ KN (F s)) as [E3 E4].
    assert (E5 : snd (kernel_deliver (kn st) s false) = snd (kernel_deliver k s false)).
    { unfold kernel_deliver. rewrite KM, KN.
      destruct (s =? SIGKILL); [reflexivity|]. destruct (s =? SIGSTOP); [reflexivity|].
      destruct (F s) as [->| ->]; reflexivity. }
    unfold mon_take, native_take. rewrite E1, E3, E5.
    assert (Inv1 : Inv c k0 h (with_mask (set_kn st (kn st)) (k_mask (kn st)))).
    { rewrite set_kn_same. now apply inv_mask. }
    destruct (snd (kernel_deliver k s false)) as [| | |hh b] eqn:D.
    + left. split; cbn; auto.
    + left. split; cbn; auto.
    + right. cbn. split; [reflexivity|]. left. split; [reflexivity|]. split; reflexivity.
    + exfalso. now apply (E4 hh b).
Qed.

Lemma settle_dead {S} (y : sys S) n (p : proc S) : p_alive p = false -> settle y n p = p.
Proof. intros H. destruct n; [reflexivity|]. cbn. now rewrite H. Qed.

Lemma settle_sim h : forall n p q,
  sim h p q -> (cnt (p_pend q) + 2 <= n)%nat ->
  (p_alive (settle NA n q) = false -> p_pend (settle NA n q) = 0%N) ->
  sim h (settle MO n p) (settle NA n q) \/ ended (settle MO n p) (settle NA n q).
Proof.
  induction n as [|n IH]; intros p q R L K; [lia|].
  cbn [settle] in *. rewrite (s_alive _ _ _ R), (s_alive' _ _ _ R) in *.
  rewrite (next_same h p q R) in *.
  destruct (next NA q) as [s|] eqn:NX.
  - apply find_some in NX. destruct NX as [Is Es]. apply andb_true_iff in Es. destruct Es as [Es _].
    pose proof (proj1 (all_sigs_in s) Is) as Rs.
    assert (PD : p_pend (take NA q s) = sdel s (p_pend q)).
    { unfold take. destruct (y_take NA (p_sys q) s) as [x [| | | |]]; reflexivity. }
    assert (CL : (cnt (sdel s (p_pend q)) < cnt (p_pend q))%nat) by now apply cnt_sdel.
    destruct (take_sim h p q s R ltac:(lia) Es) as [R'|(D & E)].
    + apply IH; [exact R'|rewrite PD; lia|exact K].
    + right. rewrite (settle_dead NA n _ D) in *. specialize (K D).
      destruct E as [(E1 & E2 & E3)|(E1 & E2 & (r & E3) & E4)].
      * rewrite (settle_dead MO n _ E1). split; [exact E1|]. auto.
      * destruct n as [|n]; [lia|]. cbn [settle]. rewrite E1.
        assert (next MO (take MO p s) = None) as ->.
        { unfold next. rewrite E2, K. destruct (find _ all_sigs) as [g|] eqn:X; [|reflexivity].
          apply find_some in X. destruct X as [_ X]. rewrite mem_0 in X. discriminate. }
        rewrite E3. split; [reflexivity|]. split; [exact D|]. cbn. now rewrite E4.
  - left. pose proof (s_frames _ _ _ R) as RF.
    destruct RF as [|f f' r r' RF1 RF2] eqn:X; [exact R|]. destruct RF1. exact R.
Qed.

Lemma happen_sim h p q e :
  sim h p q -> In e script -> (forall s, e = HSend s -> plain c script s) ->
  calm_at o q e ->
  exists h', sim h' (happen o MO p e) (happen o NA q e).
Proof.
  intros R Ie PS [CA _]. destruct e as [x|s|]; cbn [happen].
  - assert (Ix : In x calls).
    { unfold calls, calls_made. rewrite in_flat_map. exists (HCall x). split; [exact Ie|]. now left. }
    exists (h ++ [x]).
    pose proof (step_inv c k0 h (p_sys p) x (s_inv _ _ _ R)) as I'.
    assert (FL : flush o (native_op o (p_sys q) x) x (p_pend q) = p_pend q).
    { unfold flush. destruct (sets x) as [g|] eqn:Sx; [|reflexivity].
      destruct (discards o (native_op o (p_sys q) x) x g) eqn:Dx; [|reflexivity].
      apply sdel_absent. apply (CA x g eq_refl (s_alive' _ _ _ R) Dx). }
    assert (FM : flush o (kn (fst (do_op c (p_sys p) x))) x (p_pend p) = p_pend p).
    { unfold flush. destruct (sets x) as [g|] eqn:Sx; [|reflexivity].
      destruct (discards o (kn (fst (do_op c (p_sys p) x))) x g) eqn:Dx; [|reflexivity].
      exfalso. unfold discards in Dx. rewrite Sx in Dx. rewrite !andb_true_iff, !negb_true_iff in Dx.
      destruct Dx as [[[[[_ D1] D2] D3] D4] D5].
      assert (M : managedb c g = true).
      { rewrite managedb_unfold, D1, <- avoid_eq, D3, D4. fold o. rewrite D2. reflexivity. }
      destruct (kernel_action_inv c k0 (h ++ [x]) _ g I' M) as (KH & _).
      unfold ignoring in D5. rewrite KH in D5. discriminate. }
    split; cbn [p_sys p_pend p_frames p_seen p_alive y_call y_kern MO NA monitored native].
    + exact I'.
    + rewrite native_after_snoc. apply native_op_act. apply (s_act _ _ _ R).
    + intros g MG. pose proof (s_mask _ _ _ R g MG) as E.
      destruct x as [sig a want|sig hd|sig f a|how set];
      try (rewrite (op_mask_inv c k0 h _ _ (s_inv _ _ _ R)), native_mask_op by (auto; right; eauto); exact E).
      apply (op_mask_call c k0 h); auto; [apply (s_inv _ _ _ R)|apply MG|].
      apply mine_open; [exact MG|apply (s_incl _ _ _ R)].
    + apply (s_frames _ _ _ R).
    + rewrite FL, FM. apply (s_pend _ _ _ R).
    + rewrite FL. apply (s_plain _ _ _ R).
    + apply (s_seen _ _ _ R).
    + apply (s_alive _ _ _ R).
    + apply (s_alive' _ _ _ R).
    + intros y Y. apply in_app_or in Y. destruct Y as [Y|[<-|[]]]; [now apply (s_incl _ _ _ R)|exact Ix].
  - exists h. pose proof (PS s eq_refl) as P.
    destruct R as [RI RA RM RF RP RPl RS RL RL' RC]. split; cbn; auto.
    + now rewrite RP.
    + intros g Hg Mg. assert (Hs : 1 <= s < 65) by apply P.
      rewrite mem_sadd in Mg by lia. apply orb_true_iff in Mg. destruct Mg as [Mg|Mg].
      * apply Z.eqb_eq in Mg. subst g. exact P.
      * apply RPl; assumption.
  - exists h. destruct R as [RI RA RM RF RP RPl RS RL RL' RC].
    destruct p as [st pend fr sn al]. destruct q as [k pend' fr' sn' al']. cbn in *.
    destruct RF as [|f f' r r' RF1 RF2].
    + split; cbn; auto.
    + destruct RF1 as [m m' E]. split; cbn; auto. now apply inv_mask.
Qed.

Lemma step_dead {S} (y : sys S) o' p e : p_alive p = false -> step o' y p e = p.
Proof. unfold step. now intros ->. Qed.

Lemma runs_sim : forall rest h p q,
  incl rest script -> (forall s, In (HSend s) rest -> plain c script s) ->
  (sim h p q \/ ended p q) -> calm o q rest ->
  exists h', sim h' (runs o MO p rest) (runs o NA q rest) \/
             ended (runs o MO p rest) (runs o NA q rest).
Proof.
  induction rest as [|e rest IH]; intros h p q I PS R K.
  - exists h. exact R.
  - cbn [runs fold_left]. destruct K as [K1 K2].
    assert (I' : incl rest script) by (intros y Y; apply I; now right).
    assert (PS' : forall s, In (HSend s) rest -> plain c script s) by (intros s Y; apply PS; now right).
    destruct R as [R|R].
    + destruct (happen_sim h p q e R) as [h' R']; auto.
      { apply I. now left. } { intros s ->. apply PS. now left. }
      assert (ST : sim h' (step o MO p e) (step o NA q e) \/ ended (step o MO p e) (step o NA q e)).
      { destruct K1 as [_ K1]. unfold step in *. rewrite (s_alive _ _ _ R), (s_alive' _ _ _ R) in *.
        apply settle_sim; [exact R'| |exact K1]. pose proof (cnt_bound (p_pend (happen o NA q e))). lia. }
      destruct ST as [ST|ST]; [apply (IH h' _ _ I' PS' (or_introl ST) K2)|].
      apply (IH h' _ _ I' PS' (or_intror ST) K2).
    + destruct R as (R1 & R2 & R3). rewrite (step_dead MO o p e R1).
      change (native o) with NA in K2. rewrite (step_dead NA o q e R2) in *.
      apply (IH h); auto. right. split; auto.
Qed.

Lemma boot_sim pend :
  (forall s, 1 <= s -> mem s pend = true -> plain c script s) ->
  sim [] (mkproc (signal_init c (start k0)) pend [] [] true) (mkproc k0 pend [] [] true).
Proof.
  intros P. change (signal_init c (start k0)) with (after c k0 []).
  split; cbn [p_sys p_pend p_frames p_seen p_alive]; auto.
  - exact (after_inv c k0 [] Hrt).
  - intros g _. now rewrite boot_mask.
  - intros x [].
Qed.

Lemma whole pend :
  only_plain c script pend -> calm_run o k0 pend script ->
  let p := run_with c dyn cret k0 pend script in
  let q := run_without o k0 pend script in
  (exists h, sim h p q) \/ ended p q.
Proof.
  intros [P1 P2] [K1 K2] p q.
  assert (B : sim [] (begin MO (signal_init c (start k0)) pend) (begin NA k0 pend) \/
              ended (begin MO (signal_init c (start k0)) pend) (begin NA k0 pend)).
  { unfold begin. apply settle_sim; [now apply boot_sim| |exact K1].
    pose proof (cnt_bound pend). cbn [p_pend]. lia. }
  destruct (runs_sim script [] _ _ (incl_refl _) P2 B K2) as [h [R|R]].
  - left. exists h. exact R.
  - right. exact R.
Qed.
End Sim.

Lemma same_frames_length c script l l' : Forall2 (same_frame c script) l l' -> length l = length l'.
Proof. induction 1; cbn; congruence. Qed.

Lemma same_view_whole c dyn cret k0 pend script :
  0 <= c_rtmin c -> fresh k0 -> Forall ordinary (calls_made script) ->
  only_plain c script pend -> calm_run (c_os c) k0 pend script ->
  same_view (monitored c dyn cret) (native (c_os c)) (plain c script)
    (run_with c dyn cret k0 pend script) (run_without (c_os c) k0 pend script).
Proof.
  intros Hrt F O P K.
  destruct (whole c dyn cret k0 script Hrt F O pend P K) as [[h R]|(E1 & E2 & E3)].
  - split; [now rewrite (s_seen _ _ _ _ _ _ R)|].
    split; [now rewrite (s_alive _ _ _ _ _ _ R), (s_alive' _ _ _ _ _ _ R)|]. intros _.
    split; [apply (s_pend _ _ _ _ _ _ R)|].
    split; [eapply same_frames_length, (s_frames _ _ _ _ _ _ R)|].
    intros s Ps. apply (s_mask _ _ _ _ _ _ R). now apply plain_mine.
  - split; [now rewrite E3|]. split; [congruence|]. rewrite E1. discriminate.
Qed.

(** ** A check that a run is calm *)
Definition calmb_at (o : os) (p : proc kern) (e : happening) : bool :=
  match e with
  | HCall x => match sets x with
               | Some s => negb (discards o (native_op o (p_sys p) x) x s && mem s (p_pend p))
               | None => true
               end
  | _ => true
  end &&
  (let p' := step o (native o) p e in p_alive p' || (p_pend p' =? 0)%N).
Fixpoint calmb (o : os) (p : proc kern) (script : list happening) : bool :=
  match script with
  | [] => true
  | e :: r => calmb_at o p e && calmb o (step o (native o) p e) r
  end.

Lemma calmb_calm o : forall script p, calmb o p script = true -> calm o p script.
Proof.
  induction script as [|e r IH]; intros p H; [exact I|].
  cbn [calmb calm] in *. apply andb_true_iff in H. destruct H as [H1 H2]. split; [|now apply IH].
  unfold calmb_at in H1. apply andb_true_iff in H1. destruct H1 as [H1 H3]. split.
  - intros x s -> _ D. destruct (sets x) as [g|] eqn:Sx.
    + assert (g = s) as ->.
      { unfold discards in D. rewrite Sx in D. destruct (Z.eqb_spec g s); [assumption|discriminate]. }
      rewrite D in H1. cbn [andb] in H1. now apply negb_true_iff in H1.
    + unfold discards in D. rewrite Sx in D. discriminate.
  - intros D. cbv zeta in H3. rewrite D in H3. cbn [orb] in H3. now apply N.eqb_eq.
Qed.
