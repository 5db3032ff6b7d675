(** Proofs about SignalModel.v: one invariant describes the whole state after
    any history in terms of SignalSpec.v. *)
From Verif Require Import SignalModel SignalSpec.

(** ** Lists and loops *)

Lemma upto_end_prefix l : upto_end l = positive_prefix l.
Proof.
  induction l as [|x r IH]; simpl; [reflexivity|].
  rewrite Z.gtb_ltb, IH. reflexivity.
Qed.

Lemma existsb_eqb_in s l : existsb (Z.eqb s) l = true <-> In s l.
Proof.
  rewrite existsb_exists. split.
  - intros [x [Hx E]]. apply Z.eqb_eq in E. now subst.
  - intros H. exists s. split; [exact H | apply Z.eqb_refl].
Qed.

Lemma existsb_all_sigs s : existsb (Z.eqb s) all_sigs = in_range s.
Proof.
  apply eq_true_iff_eq. rewrite existsb_eqb_in, all_sigs_in, in_range_spec.
  reflexivity.
Qed.

Lemma mark_lookup f t l s :
  (forall e, f (f e) = f e) ->
  mark f t l s = if existsb (Z.eqb s) (upto_end l) then f (t s) else t s.
Proof.
  intros Hf. unfold mark. revert t. induction (upto_end l) as [|x r IH]; intros t.
  - reflexivity.
  - cbn [fold_left existsb]. rewrite IH. unfold upd.
    destruct (Z.eqb_spec s x) as [->|Hne]; cbn [orb].
    + destruct (existsb _ r); now rewrite ?Hf.
    + reflexivity.
Qed.

Lemma mark_open_lookup t l s :
  mark_open t l s =
  if in_range s && existsb (Z.eqb s) (upto_end l) then set_open (t s) else t s.
Proof.
  unfold mark_open. revert t. induction (upto_end l) as [|x r IH]; intros t.
  - cbn. now rewrite andb_false_r.
  - cbn [fold_left existsb]. rewrite IH.
    destruct (in_range x) eqn:Hx.
    + unfold upd. destruct (Z.eqb_spec s x) as [->|Hne]; cbn [orb].
      * rewrite Hx. cbn [andb]. destruct (existsb _ r); reflexivity.
      * reflexivity.
    + destruct (Z.eqb_spec s x) as [->|Hne]; cbn [orb].
      * rewrite Hx. reflexivity.
      * reflexivity.
Qed.

(** The table after the marking loops. *)
Definition is_avoid s := (s =? 9) || (s =? 19).
Definition is_noterm s := existsb (Z.eqb s) [SIGCHLD; SIGCONT; SIGURG; SIGWINCH].
Definition is_noraise s := existsb (Z.eqb s) [SIGSEGV; SIGBUS; SIGILL].
Definition is_stop s := existsb (Z.eqb s) [SIGTSTP; SIGTTIN; SIGTTOU].

Lemma init_marks_lookup c s :
  init_marks c s =
  mkentry act0 act0 None (is_avoid s) false (is_noterm s) (is_noraise s) (is_stop s)
          (in_range s && reserved c s).
Proof.
  unfold init_marks. rewrite mark_open_lookup.
  rewrite !mark_lookup by reflexivity.
  unfold reserved. rewrite <- upto_end_prefix.
  change (existsb (Z.eqb s) (upto_end avoid_list)) with ((s =? 9) || ((s =? 19) || false)).
  change (existsb (Z.eqb s) (upto_end noterm_list)) with (is_noterm s).
  change (existsb (Z.eqb s) (upto_end noraise_list)) with (is_noraise s).
  change (existsb (Z.eqb s) (upto_end stop_list)) with (is_stop s).
  rewrite !orb_false_r. fold (is_avoid s).
  destruct (is_avoid s), (is_noterm s), (is_noraise s), (is_stop s),
    (in_range s && existsb (Z.eqb s) (upto_end (c_open c))); reflexivity.
Qed.

(** ** The choice of the shootdown signal *)

Lemma sd_valid_ok c s : sd_valid (init_marks c) s = sd_ok s.
Proof.
  unfold sd_valid. rewrite init_marks_lookup. cbn [avoid invalid stop].
  unfold sd_ok, is_avoid, is_stop, NSIG.
  cbn [existsb SIGTSTP SIGTTIN SIGTTOU].
  unfold SIGTSTP, SIGTTIN, SIGTTOU.
  rewrite Z.gtb_ltb. lia.
Qed.

Lemma sd_candidate_ok c s :
  in_range s = true ->
  sd_candidate (init_marks c) s = sd_ok s && negb (reserved c s).
Proof.
  intros Hr. unfold sd_candidate. rewrite init_marks_lookup.
  cbn [avoid invalid stop keep_open]. rewrite Hr.
  apply in_range_spec in Hr. unfold NSIG in Hr.
  unfold sd_ok, is_avoid, is_stop.
  cbn [existsb]. unfold SIGTSTP, SIGTTIN, SIGTTOU.
  destruct (reserved c s); lia.
Qed.

Lemma ascending_map lo n :
  ascending lo n = map (fun i => lo + Z.of_nat i) (seq 0 n).
Proof.
  revert lo. induction n as [|n IH]; intros lo; [reflexivity|].
  cbn [ascending seq map]. rewrite IH, <- seq_shift, map_map.
  f_equal; [lia|]. apply map_ext. intros i. lia.
Qed.

Lemma rt_sigs_ascending a b :
  rt_sigs a b = ascending (a + 8) (Z.to_nat (b - a - 15)).
Proof.
  unfold rt_sigs. rewrite ascending_map.
  replace (b - 8 - (a + 8) + 1) with (b - a - 15) by lia. reflexivity.
Qed.

Lemma ascending_ge lo n x : In x (ascending lo n) -> lo <= x.
Proof.
  revert lo. induction n as [|n IH]; intros lo; cbn; [tauto|].
  intros [->|H]; [lia|]. apply IH in H. lia.
Qed.

Lemma find_filter_neg {A} (f g : A -> bool) l :
  (forall x, In x l -> g x = true -> f x = true) ->
  find f (filter g l) = find g l.
Proof.
  intros H. induction l as [|x r IH]; [reflexivity|].
  cbn [filter find]. destruct (g x) eqn:Hg.
  - cbn [find]. rewrite (H x (or_introl eq_refl) Hg). reflexivity.
  - apply IH. intros y Hy. apply H. now right.
Qed.

Lemma find_app {A} (f : A -> bool) l1 l2 :
  find f (l1 ++ l2) = match find f l1 with Some x => Some x | None => find f l2 end.
Proof.
  induction l1 as [|x r IH]; [reflexivity|]. cbn. destruct (f x); auto.
Qed.

Lemma find_ext_in {A} (f g : A -> bool) l :
  (forall x, In x l -> f x = g x) -> find f l = find g l.
Proof.
  intros H. induction l as [|x r IH]; [reflexivity|]. cbn.
  rewrite (H x (or_introl eq_refl)). rewrite IH; [reflexivity|].
  intros y Hy. apply H. now right.
Qed.

Lemma upto_end_app_pos l1 l2 :
  (forall x, In x l1 -> 0 < x) -> upto_end (l1 ++ l2) = l1 ++ upto_end l2.
Proof.
  intros H. induction l1 as [|x r IH]; [reflexivity|]. cbn.
  rewrite Z.gtb_ltb.
  assert (0 < x) by (apply H; now left).
  destruct (Z.ltb_spec 0 x); [|lia].
  f_equal. apply IH. intros y Hy. apply H. now right.
Qed.

Lemma list_choice_spec c :
  0 <= c_rtmin c ->
  list_choice (init_marks c) (build_sdlist (init_marks c) (c_rtmin c) (c_rtmax c)) =
  match find (fun s => sd_ok s && negb (reserved c s)) (candidates c) with
  | Some s => s | None => SIGWINCH end.
Proof.
  intros Hrt. unfold list_choice, build_sdlist.
  set (t := init_marks c).
  set (g := fun s => (s <? NSIG) && sd_candidate t s).
  set (f := fun s => negb (keep_open (t s))).
  assert (Hpos1 : forall x, In x (filter g (rt_sigs (c_rtmin c) (c_rtmax c))) -> 0 < x).
  { intros x Hx. apply filter_In in Hx. destruct Hx as [Hx _].
    rewrite rt_sigs_ascending in Hx. apply ascending_ge in Hx. lia. }
  assert (Hpos2 : forall x, In x (filter (sd_candidate t) (upto_end extra_list)) -> 0 < x).
  { intros x Hx. apply filter_In in Hx. destruct Hx as [Hx _].
    cbn in Hx. unfold SIGUSR2, SIGUSR1, SIGPWR, SIGURG, SIGPIPE in Hx.
    intuition (subst; lia). }
  rewrite upto_end_app_pos by exact Hpos1.
  rewrite upto_end_app_pos by exact Hpos2.
  change (upto_end [last_resort_signal; -1]) with [SIGWINCH].
  rewrite !find_app.
  assert (E1 : find f (filter g (rt_sigs (c_rtmin c) (c_rtmax c))) =
               find (fun s => sd_ok s && negb (reserved c s))
                    (rt_sigs (c_rtmin c) (c_rtmax c))).
  { rewrite find_filter_neg.
    - apply find_ext_in. intros x Hx. rewrite rt_sigs_ascending in Hx.
      apply ascending_ge in Hx. unfold g.
      destruct (Z.ltb_spec x NSIG) as [Hlt|Hge]; cbn [andb].
      + unfold t. rewrite sd_candidate_ok; [reflexivity|].
        apply in_range_spec. unfold NSIG in *. lia.
      + unfold sd_ok. unfold NSIG in Hge. replace (x <? 65) with false by lia.
        now rewrite andb_false_r.
    - intros x _. unfold g, f, sd_candidate. intros H.
      rewrite !andb_true_iff in H. tauto. }
  assert (E2 : find f (filter (sd_candidate t) (upto_end extra_list)) =
               find (fun s => sd_ok s && negb (reserved c s))
                    [SIGUSR2; SIGUSR1; SIGPWR; SIGURG; SIGPIPE]).
  { change (upto_end extra_list) with [SIGUSR2; SIGUSR1; SIGPWR; SIGURG; SIGPIPE].
    rewrite find_filter_neg.
    - apply find_ext_in. intros x Hx. unfold t. apply sd_candidate_ok.
      apply in_range_spec. cbn in Hx.
      unfold SIGUSR2, SIGUSR1, SIGPWR, SIGURG, SIGPIPE, NSIG in *.
      intuition (subst; lia).
    - intros x _. unfold f, sd_candidate. intros H.
      rewrite !andb_true_iff in H. tauto. }
  rewrite E1, E2. clear E1 E2. unfold candidates. rewrite find_app, <- rt_sigs_ascending.
  destruct (find (fun s => sd_ok s && negb (reserved c s)) (rt_sigs _ _)); [reflexivity|].
  destruct (find (fun s => sd_ok s && negb (reserved c s)) _); [reflexivity|].
  cbn [find]. destruct (f SIGWINCH); reflexivity.
Qed.

Lemma choose_shoot_spec c l :
  0 <= c_rtmin c ->
  fst (choose_shootdown_early c (init_marks c) (-1) l) = spec_shoot c.
Proof.
  intros Hrt. unfold choose_shootdown_early, spec_shoot, env_choice.
  cbn [Z.gtb Z.compare].
  rewrite sd_valid_ok, list_choice_spec by exact Hrt.
  destruct (c_env c) as [str|].
  - destruct (sscanf_d str) as [s|].
    + rewrite sd_valid_ok. destruct (sd_ok s); [reflexivity|].
      destruct (sd_ok (c_shoot c)); reflexivity.
    + destruct (sd_ok (c_shoot c)); reflexivity.
  - destruct (sd_ok (c_shoot c)); reflexivity.
Qed.

Lemma spec_shoot_ok c : sd_ok (spec_shoot c) = true.
Proof.
  assert (H : forall l, sd_ok (match find (fun s => sd_ok s && negb (reserved c s)) l with
                       | Some s => s | None => SIGWINCH end) = true).
  { intros l. destruct (find _ l) as [s|] eqn:E; [|reflexivity].
    apply find_some in E. destruct E as [_ E]. now apply andb_prop in E. }
  unfold spec_shoot.
  destruct (match c_env c with None => None | Some e => sscanf_d e end) as [s|].
  - destruct (sd_ok s) eqn:E; [exact E|].
    destruct (sd_ok (c_shoot c)) eqn:E2; [exact E2|apply H].
  - destruct (sd_ok (c_shoot c)) eqn:E2; [exact E2|apply H].
Qed.

Lemma spec_shoot_range c : 1 <= spec_shoot c < 65.
Proof.
  pose proof (spec_shoot_ok c) as H. unfold sd_ok in H. lia.
Qed.

Lemma spec_shoot_not_avoid c : is_avoid (spec_shoot c) = false.
Proof.
  pose proof (spec_shoot_ok c) as H. unfold sd_ok, is_avoid in *.
  cbn [existsb] in H. lia.
Qed.

(** The list fits its array of MONITOR_NSIG ints. *)
Lemma ascending_length lo n : length (ascending lo n) = n.
Proof. revert lo. induction n as [|n IH]; intros lo; cbn; auto. Qed.

Lemma filter_lt_ascending (P : Z -> bool) n : forall lo, 0 <= lo ->
  (length (filter (fun s => (s <? NSIG)%Z && P s) (ascending lo n))
   <= Z.to_nat (NSIG - lo)%Z)%nat.
Proof.
  induction n as [|n IH]; intros lo Hlo; cbn [ascending filter length]; [lia|].
  specialize (IH (lo + 1) ltac:(lia)).
  destruct ((lo <? NSIG) && P lo) eqn:E; cbn [length]; lia.
Qed.

Lemma sdlist_length t a b :
  0 <= a -> (length (build_sdlist t a b) <= 65)%nat.
Proof.
  intros Ha. unfold build_sdlist. rewrite !app_length.
  pose proof (filter_lt_ascending (sd_candidate t) (Z.to_nat (b - a - 15)) (a + 8)
                ltac:(lia)) as H.
  rewrite <- rt_sigs_ascending in H. unfold NSIG in *.
  assert (H2 : (length (filter (sd_candidate t) (upto_end extra_list)) <= 5)%nat).
  { change (upto_end extra_list) with [SIGUSR2; SIGUSR1; SIGPWR; SIGURG; SIGPIPE].
    generalize (sd_candidate t). intros P. cbn [filter].
    destruct (P SIGUSR2), (P SIGUSR1), (P SIGPWR), (P SIGURG), (P SIGPIPE); cbn; lia. }
  cbn [length]. lia.
Qed.

(** ** Installation *)

Definition inst_act (sd : Z) : act := mkact HMon SAFLAGS_REQUIRED (adjust_samask sd 0).
Definition strip (o : os) (a : act) : act :=
  mkact (sa_handler a) (sa_flags a) (N.ldiff (sa_mask a) (k_noblock o)).

Definition inst_entry (o : os) (sd : Z) (old : act) (sig : Z) (e : entry) : entry :=
  if avoid e then e
  else if k_reject o sig then set_invalid (set_kern (inst_act sd) e)
  else set_appl old (set_kern (inst_act sd) e).

Lemma install_fold o sd l : forall (t : table) (k : kern),
  NoDup l -> (forall s, In s l -> in_range s = true) ->
  (forall s, In s l -> avoid (t s) = is_avoid s) ->
  let r := fold_left (install_one o sd) l (t, k) in
  (forall s, fst r s = if existsb (Z.eqb s) l
                       then inst_entry o sd (k_act k s) s (t s) else t s) /\
  (forall s, k_act (snd r) s =
             if existsb (Z.eqb s) l && negb (is_avoid s) && negb (k_reject o s)
             then strip o (inst_act sd) else k_act k s) /\
  k_mask (snd r) = k_mask k.
Proof.
  induction l as [|x l IH]; intros t k Hnd Hrng Hav.
  - cbn. repeat split; reflexivity.
  - inversion Hnd as [|x' l' Hnin Hnd']; subst.
    cbn [fold_left].
    assert (Hx := Hrng x (or_introl eq_refl)).
    assert (Hax := Hav x (or_introl eq_refl)).
    assert (Hnx : existsb (Z.eqb x) l = false).
    { apply not_true_is_false. rewrite existsb_eqb_in. exact Hnin. }
    destruct (install_one o sd (t, k) x) as [t1 k1] eqn:E.
    assert (Ht1 : forall s, t1 s = if s =? x then inst_entry o sd (k_act k x) x (t x)
                                   else t s).
    { unfold install_one in E. cbv zeta in E.
      unfold inst_entry. destruct (avoid (t x)) eqn:Ha.
      - inversion E; subst. intros s. destruct (Z.eqb_spec s x); subst; reflexivity.
      - unfold real_sigaction in E. rewrite Hx in E. cbn [negb orb] in E.
        destruct (k_reject o x) eqn:Hr.
        + inversion E; subst. intros s. reflexivity.
        + unfold is_avoid in Hax.
          replace ((x =? SIGKILL) || (x =? SIGSTOP)) with false in E
            by (unfold SIGKILL, SIGSTOP; congruence).
          inversion E; subst. intros s. reflexivity. }
    assert (Hk1 : forall s, k_act k1 s =
              if (s =? x) && negb (is_avoid s) && negb (k_reject o s)
              then strip o (inst_act sd) else k_act k s).
    { unfold install_one in E. cbv zeta in E.
      destruct (avoid (t x)) eqn:Ha.
      - inversion E; subst. intros s. destruct (Z.eqb_spec s x); subst; cbn.
        + rewrite <- Hax. reflexivity.
        + reflexivity.
      - unfold real_sigaction in E. rewrite Hx in E. cbn [negb orb] in E.
        destruct (k_reject o x) eqn:Hr.
        + inversion E; subst. intros s. destruct (Z.eqb_spec s x); subst; cbn; auto.
          rewrite Hr. cbn. now rewrite andb_false_r.
        + unfold is_avoid in Hax.
          replace ((x =? SIGKILL) || (x =? SIGSTOP)) with false in E
            by (unfold SIGKILL, SIGSTOP; congruence).
          inversion E; subst. intros s. cbn. unfold upd.
          destruct (Z.eqb_spec s x); subst; cbn; auto.
          unfold is_avoid. rewrite <- Hax, Hr. reflexivity. }
    assert (Hm1 : k_mask k1 = k_mask k).
    { unfold install_one in E. cbv zeta in E.
      destruct (avoid (t x)) eqn:Ha.
      - inversion E; subst; reflexivity.
      - unfold real_sigaction in E. rewrite Hx in E. cbn [negb orb] in E.
        destruct (k_reject o x) eqn:Hr.
        + inversion E; subst; reflexivity.
        + replace ((x =? SIGKILL) || (x =? SIGSTOP)) with false in E
            by (unfold is_avoid in Hax; unfold SIGKILL, SIGSTOP; congruence).
          inversion E; subst; reflexivity. }
    specialize (IH t1 k1 Hnd').
    assert (HIH := IH (fun s Hs => Hrng s (or_intror Hs))).
    assert (Hav1 : forall s, In s l -> avoid (t1 s) = is_avoid s).
    { intros s Hs. rewrite Ht1. destruct (Z.eqb_spec s x).
      - subst. contradiction.
      - apply Hav. now right. }
    specialize (HIH Hav1). cbv zeta in HIH. destruct HIH as [A [B C]].
    cbv zeta. split; [|split].
    + intros s. rewrite A, Ht1. cbn [existsb].
      destruct (Z.eqb_spec s x) as [->|Hne]; cbn [orb].
      * rewrite Hnx. reflexivity.
      * destruct (existsb (Z.eqb s) l); [|reflexivity].
        rewrite Hk1. destruct (Z.eqb_spec s x); [contradiction|]. reflexivity.
    + intros s. rewrite B, Hk1. cbn [existsb].
      destruct (Z.eqb_spec s x) as [->|Hne]; cbn [orb andb].
      * rewrite Hnx. reflexivity.
      * reflexivity.
    + etransitivity; [exact C | exact Hm1].
Qed.

(** ** remove_client_signals, member by member *)

Lemma fold_del_mem t g l : forall s, 1 <= g -> (forall x, In x l -> 1 <= x) ->
  mem g (fold_left (fun s x => if kept_open t x then sdel x s else s) l s) =
  mem g s && negb (existsb (Z.eqb g) l && kept_open t g).
Proof.
  induction l as [|x l IH]; intros s Hg Hl; cbn [fold_left existsb].
  - now rewrite andb_true_r.
  - rewrite IH; [|exact Hg|intros y Hy; apply Hl; now right].
    assert (1 <= x) by (apply Hl; now left).
    destruct (kept_open t x) eqn:Kx.
    + rewrite mem_sdel by lia. destruct (Z.eqb_spec g x) as [->|Hne]; cbn [orb negb andb].
      * rewrite Kx. cbn. now rewrite andb_false_r.
      * reflexivity.
    + destruct (Z.eqb_spec g x) as [->|Hne]; cbn [orb].
      * rewrite Kx. cbn. now rewrite !andb_false_r.
      * reflexivity.
Qed.

Lemma fold_set_mem t cur g l : forall s, 1 <= g -> (forall x, In x l -> 1 <= x) ->
  mem g (fold_left (fun s x => if kept_open t x
                               then (if mem x cur then sadd x s else sdel x s)
                               else s) l s) =
  if existsb (Z.eqb g) l && kept_open t g then mem g cur else mem g s.
Proof.
  induction l as [|x l IH]; intros s Hg Hl; cbn [fold_left existsb]; [reflexivity|].
  rewrite IH; [|exact Hg|intros y Hy; apply Hl; now right].
  assert (1 <= x) by (apply Hl; now left).
  destruct (Z.eqb_spec g x) as [->|Hne]; cbn [orb].
  - destruct (kept_open t x) eqn:Kx.
    + cbn [andb]. rewrite andb_true_r. destruct (existsb _ l); [reflexivity|].
      destruct (mem x cur) eqn:Mx; [rewrite mem_sadd by lia|rewrite mem_sdel by lia];
      rewrite Z.eqb_refl; reflexivity.
    + now rewrite !andb_false_r.
  - destruct (existsb (Z.eqb g) l && kept_open t g); [reflexivity|].
    destruct (kept_open t x); [|reflexivity].
    destruct (mem x cur); [rewrite mem_sadd by lia|rewrite mem_sdel by lia];
    replace (g =? x) with false by lia; reflexivity.
Qed.

Lemma all_sigs_pos x : In x all_sigs -> 1 <= x.
Proof. intros H. apply all_sigs_in in H. lia. Qed.

Lemma remove_mem t cur s how g : in_range g = true ->
  mem g (remove_client_signals t cur s how) =
  if kept_open t g
  then if (how =? SIG_BLOCK) || (how =? SIG_UNBLOCK) then false else mem g cur
  else mem g s.
Proof.
  intros Hg. assert (1 <= g) by (apply in_range_spec in Hg; lia).
  unfold remove_client_signals.
  destruct ((how =? SIG_BLOCK) || (how =? SIG_UNBLOCK)).
  - rewrite fold_del_mem by (auto using all_sigs_pos).
    rewrite existsb_all_sigs, Hg. destruct (kept_open t g); cbn; auto using andb_true_r, andb_false_r.
  - rewrite fold_set_mem by (auto using all_sigs_pos).
    rewrite existsb_all_sigs, Hg. reflexivity.
Qed.

(** ** The invariant *)

(** The initialised start state: monitor_early_init / monitor_normal_init call
    monitor_signal_init before the application runs. *)
Definition boot (c : config) (k0 : kern) : state := signal_init c (start k0).
Definition after (c : config) (k0 : kern) (h : list op) : state :=
  fst (run c (boot c k0) h).

Definition registered (h : list op) (s : Z) : bool := existsb (registers s) h.

Record Inv (c : config) (k0 : kern) (h : list op) (st : state) : Prop := {
  I_init : inited st = true;
  I_shoot : shoot st = spec_shoot c;
  I_avoid : forall s, in_range s = true -> avoid (tab st s) = is_avoid s;
  I_invalid : forall s, in_range s = true ->
    invalid (tab st s) = negb (is_avoid s) && k_reject (c_os c) s;
  I_noterm : forall s, in_range s = true -> noterm (tab st s) = is_noterm s;
  I_noraise : forall s, in_range s = true -> noraise (tab st s) = is_noraise s;
  I_stop : forall s, in_range s = true -> stop (tab st s) = is_stop s;
  I_open : forall s, managedb c s = true ->
    keep_open (tab st s) = reserved c s || (s =? spec_shoot c) || registered h s;
  I_client : forall s, managedb c s = true ->
    client_handler (tab st s) = last_client h s None;
  I_clientx : forall s, in_range s = true -> managedb c s = false ->
    client_handler (tab st s) = None;
  I_appl : forall s, managedb c s = true ->
    appl_act (tab st s) = last_app h s (k_act k0 s);
  I_handler : forall s, managedb c s = true -> sa_handler (kern_act (tab st s)) = HMon;
  I_kern : forall s, managedb c s = true ->
    k_act (kn st) s = strip (c_os c) (kern_act (tab st s));
  I_flags : forall s, managedb c s = true ->
    sa_flags (kern_act (tab st s)) = adjust_saflags (req_flags c h s);
  I_mask : forall s g, managedb c s = true -> in_range g = true ->
    mem g (sa_mask (kern_act (tab st s))) = (g =? spec_shoot c) || req_mask c h s g;
  I_unman : forall s, managedb c s = false -> k_act (kn st) s = k_act k0 s }.

Lemma managedb_spec c s : managedb c s = true <-> managed c s.
Proof.
  unfold managedb, managed, SIGKILL, SIGSTOP.
  rewrite !andb_true_iff, !negb_true_iff. 
  rewrite !Z.eqb_neq, Z.leb_le, Z.ltb_lt. tauto.
Qed.

Lemma managedb_unfold c s :
  managedb c s = in_range s && negb (is_avoid s) && negb (k_reject (c_os c) s).
Proof. unfold managedb, in_range, is_avoid, NSIG. lia. Qed.

Lemma in_range_shoot c : in_range (spec_shoot c) = true.
Proof. apply in_range_spec. pose proof (spec_shoot_range c). unfold NSIG. lia. Qed.

Lemma boot_inv c k0 : 0 <= c_rtmin c -> Inv c k0 [] (boot c k0).
Proof.
  intros Hrt. unfold boot, signal_init. cbn [inited start shoot sdlist kn].
  destruct (choose_shootdown_early c (init_marks c) (-1) []) as [sd l] eqn:E.
  assert (Hsd : sd = spec_shoot c).
  { pose proof (choose_shoot_spec c [] Hrt) as H. rewrite E in H. exact H. }
  clear E. subst sd.
  set (t1 := (upd (init_marks c) (spec_shoot c)
                 (set_open (init_marks c (spec_shoot c))) : table)).
  assert (Ht1 : forall s, t1 s =
     mkentry act0 act0 None (is_avoid s) false (is_noterm s) (is_noraise s) (is_stop s)
             (in_range s && reserved c s || (s =? spec_shoot c))).
  { intros s. unfold t1, upd. destruct (Z.eqb_spec s (spec_shoot c)) as [->|Hne].
    - rewrite init_marks_lookup. unfold set_open. cbn. now rewrite orb_true_r.
    - rewrite init_marks_lookup. now rewrite orb_false_r. }
  pose proof (install_fold (c_os c) (spec_shoot c) all_sigs t1 k0 all_sigs_nodup) as H.
  assert (H1 : forall s, In s all_sigs -> in_range s = true).
  { intros s Hs. apply in_range_spec. now apply all_sigs_in. }
  assert (H2 : forall s, In s all_sigs -> avoid (t1 s) = is_avoid s).
  { intros s _. rewrite Ht1. reflexivity. }
  specialize (H H1 H2). cbv zeta in H.
  set (R := fold_left (install_one (c_os c) (spec_shoot c)) all_sigs (t1, k0)) in H.
  change (Inv c k0 [] (let '(t2, k2) := R in mkstate true t2 (spec_shoot c) l k2)).
  destruct R as [t2 k2].
  destruct H as [HA [HB HC]].
  cbn [fst snd] in *.
  assert (HT : forall s, in_range s = true -> t2 s = inst_entry (c_os c) (spec_shoot c)
                 (k_act k0 s) s (t1 s)).
  { intros s Hs. rewrite HA, existsb_all_sigs, Hs. reflexivity. }
  assert (HM : forall s, managedb c s = true -> t2 s =
     set_appl (k_act k0 s) (set_kern (inst_act (spec_shoot c)) (t1 s))).
  { intros s Hs. rewrite managedb_unfold in Hs.
    apply andb_prop in Hs. destruct Hs as [Hs Hr].
    apply andb_prop in Hs. destruct Hs as [Hs Ha].
    rewrite HT by exact Hs. unfold inst_entry. rewrite Ht1 at 1. cbn [avoid].
    apply negb_true_iff in Ha, Hr. now rewrite Ha, Hr. }
  constructor; cbn [inited shoot tab kn].
  - reflexivity.
  - reflexivity.
  - intros s Hs. rewrite HT by exact Hs. unfold inst_entry. rewrite !Ht1. cbn.
    destruct (is_avoid s) eqn:Ha; cbn; auto.
    destruct (k_reject (c_os c) s); reflexivity.
  - intros s Hs. rewrite HT by exact Hs. unfold inst_entry. rewrite !Ht1. cbn.
    destruct (is_avoid s) eqn:Ha; cbn; auto.
    destruct (k_reject (c_os c) s); reflexivity.
  - intros s Hs. rewrite HT by exact Hs. unfold inst_entry. rewrite !Ht1. cbn.
    destruct (is_avoid s) eqn:Ha; cbn; auto.
    destruct (k_reject (c_os c) s); reflexivity.
  - intros s Hs. rewrite HT by exact Hs. unfold inst_entry. rewrite !Ht1. cbn.
    destruct (is_avoid s) eqn:Ha; cbn; auto.
    destruct (k_reject (c_os c) s); reflexivity.
  - intros s Hs. rewrite HT by exact Hs. unfold inst_entry. rewrite !Ht1. cbn.
    destruct (is_avoid s) eqn:Ha; cbn; auto.
    destruct (k_reject (c_os c) s); reflexivity.
  - intros s Hs. rewrite HM by exact Hs. rewrite Ht1. cbn.
    rewrite managedb_unfold in Hs.
    apply andb_prop in Hs. destruct Hs as [Hs _].
    apply andb_prop in Hs. destruct Hs as [Hs _]. rewrite Hs. cbn.
    now rewrite orb_false_r.
  - intros s Hs. rewrite HM by exact Hs. rewrite Ht1. reflexivity.
  - intros s Hs _. rewrite HT by exact Hs. unfold inst_entry. rewrite !Ht1. cbn.
    destruct (is_avoid s) eqn:Ha; cbn; auto.
    destruct (k_reject (c_os c) s); reflexivity.
  - intros s Hs. rewrite HM by exact Hs. rewrite Ht1. reflexivity.
  - intros s Hs. rewrite HM by exact Hs. rewrite Ht1. reflexivity.
  - intros s Hs. rewrite HM by exact Hs. rewrite Ht1. cbn.
    rewrite HB, existsb_all_sigs. rewrite managedb_unfold in Hs. rewrite Hs. reflexivity.
  - intros s Hs. rewrite HM by exact Hs. rewrite Ht1. reflexivity.
  - intros s g Hs Hg. rewrite HM by exact Hs. rewrite Ht1.
    cbn [sa_mask kern_act set_appl set_kern inst_act].
    unfold adjust_samask. pose proof (spec_shoot_range c).
    rewrite mem_sadd by (apply in_range_spec in Hg; lia).
    rewrite mem_0. reflexivity.
  - intros s Hs. rewrite HB, existsb_all_sigs.
    rewrite managedb_unfold in Hs. rewrite Hs. reflexivity.
Qed.

(** ** Histories *)

Lemma avoid_eq sig : (sig =? SIGKILL) || (sig =? SIGSTOP) = is_avoid sig.
Proof. reflexivity. Qed.

#[local] Opaque is_avoid is_noterm is_noraise is_stop.

Lemma init_idem c st : inited st = true -> signal_init c st = st.
Proof. intros H. unfold signal_init. now rewrite H. Qed.

Lemma run_app c h1 : forall st h2,
  fst (run c st (h1 ++ h2)) = fst (run c (fst (run c st h1)) h2).
Proof.
  induction h1 as [|o h1 IH]; intros st h2; [reflexivity|].
  cbn [app run]. destruct (do_op c st o) as [st1 x].
  specialize (IH st1 h2).
  destruct (run c st1 (h1 ++ h2)) as [a b]. destruct (run c st1 h1) as [a' b'].
  cbn [fst] in *. exact IH.
Qed.

Lemma run_one c st o : fst (run c st [o]) = fst (do_op c st o).
Proof. cbn. destruct (do_op c st o); reflexivity. Qed.

Lemma after_snoc c k0 h o : after c k0 (h ++ [o]) = fst (do_op c (after c k0 h) o).
Proof. unfold after. now rewrite run_app, run_one. Qed.

Lemma last_app_snoc h o s d :
  last_app (h ++ [o]) s d =
  match app_request o s with Some a => a | None => last_app h s d end.
Proof.
  revert d. induction h as [|x h IH]; intros d; cbn [app last_app].
  - destruct (app_request o s); reflexivity.
  - apply IH.
Qed.

Lemma last_client_snoc h o s d :
  last_client (h ++ [o]) s d =
  match o with
  | OpClient g x _ => if g =? s then x else last_client h s d
  | _ => last_client h s d
  end.
Proof.
  revert d. induction h as [|x h IH]; intros d; cbn [app last_client].
  - destruct o; reflexivity.
  - destruct x; apply IH.
Qed.

Lemma registered_snoc h o s : registered (h ++ [o]) s = registered h s || registers s o.
Proof. unfold registered. rewrite existsb_app. cbn. now rewrite orb_false_r. Qed.

Lemma req_flags_snoc c h o s :
  req_flags c (h ++ [o]) s =
  match request o s with Some (_, a) => sa_flags a | None => req_flags c h s end.
Proof.
  unfold req_flags. rewrite rev_app_distr. cbn [rev app last_request].
  destruct (request o s) as [[b a]|]; reflexivity.
Qed.

Lemma req_mask_snoc c h o s g :
  req_mask c (h ++ [o]) s g =
  match request o s with
  | Some (true, a) => mem g (sa_mask a)
  | Some (false, a) => mem g (sa_mask a) && negb (open_after c h g)
  | None => req_mask c h s g
  end.
Proof.
  unfold req_mask. rewrite rev_app_distr. cbn [rev app last_request].
  destruct (request o s) as [[b a]|]; [|reflexivity].
  rewrite rev_involutive. reflexivity.
Qed.

Lemma managed_in_range c s : managedb c s = true -> in_range s = true.
Proof. rewrite managedb_unfold. rewrite !andb_true_iff. tauto. Qed.

Lemma managed_not_avoid c s : managedb c s = true -> is_avoid s = false.
Proof. rewrite managedb_unfold. rewrite !andb_true_iff, !negb_true_iff. tauto. Qed.

Lemma managed_not_reject c s : managedb c s = true -> k_reject (c_os c) s = false.
Proof. rewrite managedb_unfold. rewrite !andb_true_iff, !negb_true_iff. tauto. Qed.

Lemma kept_open_spec c k0 h st g :
  Inv c k0 h st -> in_range g = true -> kept_open (tab st) g = open_after c h g.
Proof.
  intros I Hg. unfold kept_open, open_after.
  rewrite (I_avoid _ _ _ _ I) by exact Hg. rewrite (I_invalid _ _ _ _ I) by exact Hg.
  destruct (managedb c g) eqn:M.
  - rewrite (I_open _ _ _ _ I) by exact M.
    rewrite (managed_not_avoid _ _ M), (managed_not_reject _ _ M). reflexivity.
  - rewrite managedb_unfold, Hg in M. cbn [andb] in M.
    destruct (is_avoid g), (k_reject (c_os c) g); cbn in *; congruence.
Qed.

(** A call that requests nothing for a managed signal. *)
Lemma inv_noop c k0 h st o k' :
  Inv c k0 h st ->
  (forall s, managedb c s = true -> app_request o s = None) ->
  (forall s, managedb c s = true -> request o s = None) ->
  (forall s, managedb c s = true -> registers s o = false) ->
  k_act k' = k_act (kn st) ->
  Inv c k0 (h ++ [o]) (mkstate (inited st) (tab st) (shoot st) (sdlist st) k').
Proof.
  intros I Ha Hr Hc Hk. destruct I. constructor; cbn [inited shoot tab kn];
    try assumption; intros s; intros.
  - rewrite registered_snoc, Hc, orb_false_r by assumption. auto.
  - rewrite last_client_snoc. specialize (Hc s). destruct o as [| |g x y|]; auto.
    cbn in Hc. destruct (g =? s); auto. now specialize (Hc ltac:(assumption)).
  - rewrite last_app_snoc, Ha by assumption. auto.
  - rewrite Hk. auto.
  - rewrite req_flags_snoc, Hr by assumption. auto.
  - rewrite req_mask_snoc, Hr by assumption. auto.
  - rewrite Hk. auto.
Qed.

Lemma state_eta st : mkstate (inited st) (tab st) (shoot st) (sdlist st) (kn st) = st.
Proof. destruct st; reflexivity. Qed.

Lemma real_sigaction_managed c k sig a :
  managedb c sig = true ->
  real_sigaction (c_os c) k sig (Some a) =
  (mkkern (upd (k_act k) sig (strip (c_os c) a)) (k_mask k), Some (k_act k sig)).
Proof.
  intros M. unfold real_sigaction.
  rewrite (managed_in_range _ _ M), (managed_not_reject _ _ M). cbn [negb orb].
  rewrite avoid_eq, (managed_not_avoid _ _ M). reflexivity.
Qed.

(** The state after an application request for a managed signal. *)
Definition app_set (c : config) (st : state) (sig : Z) (x : act) : state :=
  let e := tab st sig in
  let ka := mkact (sa_handler (kern_act e)) (adjust_saflags (sa_flags x))
                  (adjust_samask (shoot st)
                     (remove_client_signals (tab st) (k_mask (kn st)) (sa_mask x)
                                            SIG_BLOCK)) in
  mkstate (inited st) (upd (tab st) sig (set_kern ka (set_appl x e))) (shoot st)
          (sdlist st)
          (mkkern (upd (k_act (kn st)) sig (strip (c_os c) ka)) (k_mask (kn st))).

Ltac at_sig s sig :=
  unfold upd; destruct (Z.eqb_spec s sig) as [->|Hne].

Lemma inv_app_set c k0 h st o sig x :
  Inv c k0 h st -> managedb c sig = true ->
  (forall s, app_request o s = if s =? sig then Some x else None) ->
  (forall s, request o s = if s =? sig then Some (false, x) else None) ->
  (forall s, registers s o = false) ->
  Inv c k0 (h ++ [o]) (app_set c st sig x).
Proof.
  intros I M Ha Hr Hc.
  pose proof (fun g => kept_open_spec c k0 h st g I) as KO.
  pose proof (spec_shoot_range c) as SR.
  destruct I. unfold app_set.
  constructor; cbn [inited shoot tab kn k_act k_mask]; try assumption; intros s; intros.
  - at_sig s sig; cbn; auto.
  - at_sig s sig; cbn; auto.
  - at_sig s sig; cbn; auto.
  - at_sig s sig; cbn; auto.
  - at_sig s sig; cbn; auto.
  - rewrite registered_snoc, Hc, orb_false_r. at_sig s sig; cbn; auto.
  - rewrite last_client_snoc.
    assert (E : match o with OpClient g x0 _ => if g =? s then x0 else last_client h s None
                | _ => last_client h s None end = last_client h s None).
    { specialize (Hc s). destruct o; auto. cbn in Hc. now rewrite Hc. }
    rewrite E. at_sig s sig; cbn; auto.
  - at_sig s sig; cbn; auto.
  - rewrite last_app_snoc, Ha. at_sig s sig; cbn; auto.
  - at_sig s sig; cbn; auto.
  - at_sig s sig; cbn [kern_act set_kern]; auto.
  - rewrite req_flags_snoc, Hr. at_sig s sig; cbn; auto.
  - rewrite req_mask_snoc, Hr. at_sig s sig; cbn [kern_act set_kern sa_mask]; auto.
    unfold adjust_samask. rewrite I_shoot0.
    assert (Hg := g). rewrite mem_sadd; [|apply in_range_spec in H0; lia|lia].
    rewrite remove_mem by assumption. rewrite KO by assumption.
    cbn [Z.eqb orb SIG_BLOCK]. destruct (open_after c h g); cbn;
    now rewrite ?andb_false_r, ?andb_true_r.
  - at_sig s sig; [congruence|auto].
Qed.

(** The state after a client request for a managed signal. *)
Definition client_set (c : config) (st : state) (sig : Z) (x : option N)
  (a : option act) : state :=
  let e := set_client x (set_open (tab st sig)) in
  match a with
  | None => mkstate (inited st) (upd (tab st) sig e) (shoot st) (sdlist st) (kn st)
  | Some y =>
      let ka := mkact (sa_handler (kern_act e)) (adjust_saflags (sa_flags y))
                      (adjust_samask (shoot st) (sa_mask y)) in
      mkstate (inited st) (upd (tab st) sig (set_kern ka e)) (shoot st) (sdlist st)
              (mkkern (upd (k_act (kn st)) sig (strip (c_os c) ka)) (k_mask (kn st)))
  end.

Lemma inv_client_set c k0 h st sig x a :
  Inv c k0 h st -> managedb c sig = true ->
  Inv c k0 (h ++ [OpClient sig x a]) (client_set c st sig x a).
Proof.
  intros I M.
  pose proof (spec_shoot_range c) as SR.
  assert (Hr : forall s, request (OpClient sig x a) s =
            match a with Some y => if s =? sig then Some (true, y) else None
            | None => None end).
  { intros s. destruct a; cbn; [|reflexivity]. now rewrite Z.eqb_sym. }
  destruct I. unfold client_set.
  destruct a as [y|];
  (constructor; cbn [inited shoot tab kn k_act k_mask]; try assumption; intros s; intros).
  all: try (at_sig s sig; cbn; solve [auto]).
  all: try (at_sig s sig; cbn; [congruence|]; solve [auto]).
  - rewrite registered_snoc. cbn [registers]. at_sig s sig; cbn.
    + now rewrite Z.eqb_refl, !orb_true_r.
    + replace (sig =? s) with false by lia. rewrite orb_false_r. auto.
  - rewrite last_client_snoc. at_sig s sig; cbn.
    + now rewrite Z.eqb_refl.
    + replace (sig =? s) with false by lia. auto.
  - rewrite last_app_snoc. cbn [app_request]. at_sig s sig; cbn; auto.
  - rewrite req_flags_snoc, Hr. at_sig s sig; cbn; auto.
  - rewrite req_mask_snoc, Hr.
    at_sig s sig; cbn [kern_act set_kern set_client set_open sa_mask]; auto.
    unfold adjust_samask. rewrite I_shoot0.
    rewrite mem_sadd; [reflexivity|apply in_range_spec in H0; lia|lia].
  - rewrite registered_snoc. cbn [registers]. at_sig s sig; cbn.
    + now rewrite Z.eqb_refl, !orb_true_r.
    + replace (sig =? s) with false by lia. rewrite orb_false_r. auto.
  - rewrite last_client_snoc. at_sig s sig; cbn.
    + now rewrite Z.eqb_refl.
    + replace (sig =? s) with false by lia. auto.
  - rewrite last_app_snoc. cbn [app_request]. at_sig s sig; cbn; auto.
  - rewrite req_flags_snoc, Hr. at_sig s sig; cbn; auto.
  - rewrite req_mask_snoc, Hr. at_sig s sig; cbn; auto.
Qed.

(** ** One application sigaction call *)
Lemma appl_sigaction_spec c k0 h st sig a want :
  Inv c k0 h st ->
  snd (appl_sigaction c st sig a want) = spec_sigaction c k0 h sig a want /\
  fst (appl_sigaction c st sig a want) =
    (if managedb c sig then match a with Some x => app_set c st sig x | None => st end
     else st).
Proof.
  intros I. pose proof (I_init _ _ _ _ I) as Hi.
  unfold appl_sigaction. rewrite (init_idem _ _ Hi).
  unfold spec_sigaction.
  assert (ER : (1 <=? sig) && (sig <? 65) = in_range sig)
    by (unfold in_range, NSIG; lia).
  rewrite ER. destruct (in_range sig) eqn:R; cbn [negb orb].
  2:{ assert (managedb c sig = false) as ->
        by (rewrite managedb_unfold, R; reflexivity). split; reflexivity. }
  rewrite (I_invalid _ _ _ _ I) by exact R.
  rewrite (I_avoid _ _ _ _ I) by exact R.
  pose proof (avoid_eq sig) as EA.
  rewrite EA. rewrite managedb_unfold, R. cbn [andb].
  destruct (is_avoid sig) eqn:A; cbn [negb andb].
  - unfold real_sigaction. rewrite R. cbn [negb orb]. rewrite EA.
    destruct (k_reject (c_os c) sig) eqn:J.
    + rewrite state_eta. split; reflexivity.
    + destruct a as [x|]; rewrite state_eta; split; try reflexivity.
      cbn [snd]. rewrite (I_unman _ _ _ _ I); [reflexivity|].
      rewrite managedb_unfold, A. cbn. now rewrite andb_false_r.
  - destruct (k_reject (c_os c) sig) eqn:J.
    + split; reflexivity.
    + assert (M : managedb c sig = true)
        by (rewrite managedb_unfold, R, A, J; reflexivity).
      rewrite (I_appl _ _ _ _ I) by exact M.
      destruct a as [x|]; [|split; reflexivity].
      rewrite real_sigaction_managed by exact M. split; reflexivity.
Qed.

Lemma appl_signal_spec c k0 h st sig hd :
  Inv c k0 h st ->
  snd (appl_signal c st sig hd) = spec_signal c k0 h sig /\
  fst (appl_signal c st sig hd) =
    (if managedb c sig then app_set c st sig (mkact hd 0 0) else st).
Proof.
  intros I.
  destruct (appl_sigaction_spec c k0 h st sig (Some (mkact hd 0 0)) true I) as [E1 E2].
  unfold appl_signal.
  destruct (appl_sigaction c st sig (Some (mkact hd 0 0)) true) as [st' r].
  cbn [fst snd] in *. subst r st'. unfold spec_signal.
  unfold spec_sigaction.
  assert (ER : (1 <=? sig) && (sig <? 65) = in_range sig)
    by (unfold in_range, NSIG; lia).
  rewrite ER. rewrite managedb_unfold.
  pose proof (avoid_eq sig) as EA.
  rewrite EA.
  destruct (in_range sig), (is_avoid sig), (k_reject (c_os c) sig); cbn;
    split; reflexivity.
Qed.

Lemma client_sigaction_spec c k0 h st sig x a :
  Inv c k0 h st ->
  snd (client_sigaction c st sig x a) = ret_int (if managedb c sig then 0 else -1) /\
  fst (client_sigaction c st sig x a) =
    (if managedb c sig then client_set c st sig x a else st).
Proof.
  intros I. pose proof (I_init _ _ _ _ I) as Hi.
  unfold client_sigaction. rewrite (init_idem _ _ Hi).
  destruct (in_range sig) eqn:R; cbn [negb orb].
  2:{ assert (managedb c sig = false) as ->
        by (rewrite managedb_unfold, R; reflexivity). split; reflexivity. }
  rewrite (I_invalid _ _ _ _ I) by exact R.
  rewrite (I_avoid _ _ _ _ I) by exact R.
  destruct (is_avoid sig) eqn:A; cbn [negb andb orb].
  { assert (managedb c sig = false) as ->
      by (rewrite managedb_unfold, R, A; reflexivity). split; reflexivity. }
  destruct (k_reject (c_os c) sig) eqn:J.
  { assert (managedb c sig = false) as ->
      by (rewrite managedb_unfold, R, A, J; reflexivity). split; reflexivity. }
  assert (M : managedb c sig = true)
    by (rewrite managedb_unfold, R, A, J; reflexivity).
  rewrite M. destruct a as [y|]; [|split; reflexivity].
  rewrite real_sigaction_managed by exact M. split; reflexivity.
Qed.

Lemma real_sigprocmask_act o k how s :
  k_act (fst (real_sigprocmask o k how s)) = k_act k.
Proof.
  unfold real_sigprocmask. destruct s; [|reflexivity].
  destruct (how =? SIG_BLOCK); [reflexivity|].
  destruct (how =? SIG_UNBLOCK); [reflexivity|].
  destruct (how =? SIG_SETMASK); reflexivity.
Qed.

(** ** The invariant holds after every history *)
Lemma step_inv c k0 h st o : Inv c k0 h st -> Inv c k0 (h ++ [o]) (fst (do_op c st o)).
Proof.
  intros I. destruct o as [sig a want|sig hd|sig x a|how set]; cbn [do_op].
  - destruct (appl_sigaction_spec c k0 h st sig a want I) as [_ E]. rewrite E.
    destruct (managedb c sig) eqn:M.
    + destruct a as [x|].
      * apply inv_app_set; auto; intros s; cbn; now rewrite Z.eqb_sym.
      * rewrite <- (state_eta st). apply inv_noop; auto.
    + rewrite <- (state_eta st). apply inv_noop; auto; intros s Hs; cbn;
      destruct a; auto; destruct (Z.eqb_spec sig s); auto; congruence.
  - destruct (appl_signal_spec c k0 h st sig hd I) as [_ E]. rewrite E.
    destruct (managedb c sig) eqn:M.
    + apply inv_app_set; auto; intros s; cbn; now rewrite Z.eqb_sym.
    + rewrite <- (state_eta st). apply inv_noop; auto; intros s Hs; cbn;
      destruct (Z.eqb_spec sig s); auto; congruence.
  - destruct (client_sigaction_spec c k0 h st sig x a I) as [_ E]. rewrite E.
    destruct (managedb c sig) eqn:M.
    + now apply inv_client_set.
    + rewrite <- (state_eta st). apply inv_noop; auto; intros s Hs; cbn.
      * destruct a; auto; destruct (Z.eqb_spec sig s); auto; congruence.
      * destruct (Z.eqb_spec sig s); auto; congruence.
  - unfold appl_sigprocmask. rewrite (init_idem _ _ (I_init _ _ _ _ I)).
    set (set' := match set with Some s => Some _ | None => None end).
    pose proof (real_sigprocmask_act (c_os c) (kn st) how set') as HK.
    destruct (real_sigprocmask (c_os c) (kn st) how set') as [k' [ok old]].
    cbn [fst] in *. apply inv_noop; auto.
Qed.

Lemma after_inv c k0 h : 0 <= c_rtmin c -> Inv c k0 h (after c k0 h).
Proof.
  intros Hrt. induction h as [|o h IH] using rev_ind.
  - apply boot_inv. exact Hrt.
  - rewrite after_snoc. now apply step_inv.
Qed.
