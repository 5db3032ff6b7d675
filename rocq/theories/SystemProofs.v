From Verif Require Import SystemModel SystemSpec ExecModel.

Lemma ldiff_disj a b : N.land a b = 0%N -> N.ldiff a b = a.
Proof.
  intros H. apply N.bits_inj. intros n. rewrite N.ldiff_spec.
  assert (E : N.testbit (N.land a b) n = false) by (rewrite H; apply N.bits_0).
  rewrite N.land_spec in E. destruct (N.testbit a n), (N.testbit b n); simpl in *; congruence.
Qed.

Lemma act_eta a : mkact (sa_handler a) (sa_flags a) (sa_mask a) = a.
Proof. now destruct a. Qed.

Lemma enter_saves o k : sane o k ->
  snd (sys_enter o k) = (k_act k SIGINT, k_act k SIGQUIT, k_mask k).
Proof.
  intros (Hm & Ha & Hi & Hq).
  unfold sys_enter, real_sigaction, real_sigprocmask. rewrite Hi, Hq. reflexivity.
Qed.

Lemma enter_acts o k sig : sane o k -> sig <> SIGINT -> sig <> SIGQUIT ->
  k_act (fst (sys_enter o k)) sig = k_act k sig.
Proof.
  intros (Hm & Ha & Hi & Hq) H1 H2.
  unfold sys_enter, real_sigaction, real_sigprocmask. rewrite Hi, Hq. simpl.
  now rewrite !upd_other.
Qed.

Lemma leave_restores o k k1 : sane o k ->
  (forall sig, sig <> SIGINT -> sig <> SIGQUIT -> k_act k1 sig = k_act k sig) ->
  same_signals (sys_leave o k1 (k_act k SIGINT, k_act k SIGQUIT, k_mask k)) k.
Proof.
  intros (Hm & Ha & Hi & Hq) Ho.
  unfold sys_leave, real_sigaction, real_sigprocmask. rewrite Hi, Hq. simpl. split.
  - intros sig. simpl. unfold upd.
    destruct (Z.eqb_spec sig SIGQUIT) as [->|Nq].
    { rewrite ldiff_disj by apply Ha. apply act_eta. }
    destruct (Z.eqb_spec sig SIGINT) as [->|Ni].
    { rewrite ldiff_disj by apply Ha. apply act_eta. }
    now apply Ho.
  - simpl. now apply ldiff_disj.
Qed.

Lemma enter_leave o k : sane o k ->
  same_signals (let '(k1, s) := sys_enter o k in sys_leave o k1 s) k.
Proof.
  intros H. pose proof (enter_saves o k H) as Hs.
  pose proof (fun sig => enter_acts o k sig H) as Ha.
  destruct (sys_enter o k) as [k1 s]. simpl in *. subst s.
  now apply leave_restores.
Qed.

Lemma wait_loop_answer pid ws : fst (wait_loop pid ws) = wait_answer ws.
Proof.
  unfold wait_answer. induction ws as [|w r IH]; [reflexivity|].
  destruct w; simpl; try reflexivity.
  destruct (wait_loop pid r) as [s t]. exact IH.
Qed.

Lemma wait_loop_events pid ws e : In e (snd (wait_loop pid ws)) -> e = SWait pid.
Proof.
  induction ws as [|w r IH]; simpl; [tauto|].
  destruct w; simpl; try (intros [<-|[]]; reflexivity).
  destruct (wait_loop pid r) as [s t]. simpl in *. intros [<-|H]; auto.
Qed.

Lemma filter_waits pid ws : callbacks_of (snd (wait_loop pid ws)) = [].
Proof.
  assert (H : forall l, (forall e, In e l -> e = SWait pid) -> callbacks_of l = []).
  { induction l as [|e l IH]; intros Hl; [reflexivity|].
    rewrite (Hl e) by now left. simpl. apply IH. intros x Hx. apply Hl. now right. }
  apply H. intros e. apply wait_loop_events.
Qed.

Lemma forks_waits pid ws : forks_of (snd (wait_loop pid ws)) = [].
Proof.
  assert (H : forall l, (forall e, In e l -> e = SWait pid) -> forks_of l = []).
  { induction l as [|e l IH]; intros Hl; [reflexivity|].
    rewrite (Hl e) by now left. simpl. apply IH. intros x Hx. apply Hl. now right. }
  apply H. intros e. apply wait_loop_events.
Qed.

Lemma callbacks_app a b : callbacks_of (a ++ b) = callbacks_of a ++ callbacks_of b.
Proof. apply filter_app. Qed.
Lemma forks_app a b : forks_of (a ++ b) = forks_of a ++ forks_of b.
Proof. apply flat_map_app. Qed.

Lemma parent_shape o callback shell_ok pre command pid ws k : pid <> 0 -> sane o k ->
  match monitor_system_parent o callback shell_ok pre (Some command) pid ws k with
  | Returned st k' tr =>
      same_signals k' k /\
      st = (if pid <? 0 then -1 else match wait_answer ws with Some x => x | None => 0 end) /\
      (pid > 0 -> wait_answer ws <> None) /\
      callbacks_of tr = (if callback then [SPreFork; SPostFork pid pre] else []) /\
      forks_of tr = [pid] /\ waits_only pid tr
  | Running tr =>
      pid > 0 /\ wait_answer ws = None /\
      callbacks_of tr = (if callback then [SPreFork] else []) /\
      forks_of tr = [pid] /\ waits_only pid tr
  end.
Proof.
  intros Hp Hs. unfold monitor_system_parent.
  pose proof (enter_leave o k Hs) as Hk. destruct (sys_enter o k) as [k1 s].
  pose proof (wait_loop_answer pid ws) as Hw.
  pose proof (filter_waits pid ws) as Hc. pose proof (forks_waits pid ws) as Hf.
  pose proof (wait_loop_events pid ws) as He.
  assert (Hwait : forall a b, (forall e, In e a -> match e with SWait _ => False | _ => True end) ->
     (forall e, In e b -> match e with SWait _ => False | _ => True end) ->
     waits_only pid (a ++ snd (wait_loop pid ws) ++ b)).
  { intros a b Ha Hb e Hin. rewrite !in_app_iff in Hin.
    destruct Hin as [Hin|[Hin|Hin]].
    - specialize (Ha e Hin). destruct e; tauto.
    - rewrite (He e Hin). reflexivity.
    - specialize (Hb e Hin). destruct e; tauto. }
  destruct (pid <? 0) eqn:Hneg.
  - split; [exact Hk|]. split; [reflexivity|]. split; [lia|].
    destruct callback; (split; [reflexivity|]; split; [reflexivity|]);
      intros e Hin; simpl in Hin; intuition subst; exact I.
  - destruct (wait_loop pid ws) as [[st|] tw]; simpl in Hw, Hc, Hf, Hwait.
    + split; [exact Hk|]. rewrite <- Hw. split; [reflexivity|].
      split; [congruence|].
      rewrite !callbacks_app, !forks_app, Hc, Hf.
      split; [destruct callback; reflexivity|].
      split; [destruct callback; reflexivity|].
      rewrite <- app_assoc. apply Hwait.
      * destruct callback; intros e Hin; simpl in Hin; intuition subst; exact I.
      * destruct callback; intros e Hin; simpl in Hin; intuition subst; exact I.
    + split; [lia|]. split; [now rewrite <- Hw|].
      rewrite !callbacks_app, !forks_app, Hc, Hf.
      split; [destruct callback; reflexivity|].
      split; [destruct callback; reflexivity|].
      rewrite <- (app_nil_r tw). apply Hwait.
      * destruct callback; intros e Hin; simpl in Hin; intuition subst; exact I.
      * intros e [].
Qed.

Lemma child_shape o callback pg mm env command ok k : sane o k ->
  exists k2, same_signals k2 k /\
  monitor_system_child o callback pg mm env command ok k =
  (if callback then [SPreFork] else []) ++ [SForked 0] ++
  [SExec SHELL (shell_argv command)
     (if callback then Ok (map Some env ++ [None])
      else match copy_environ pg mm env with
           | Ok a => Ok (snd a) | Overrun => Overrun | BadRead => BadRead | Fatal => Fatal end) k2]
  ++ (if ok then [] else [SExit127]).
Proof.
  intros Hs. unfold monitor_system_child.
  pose proof (enter_leave o k Hs) as Hk. destruct (sys_enter o k) as [k1 s].
  exists (sys_leave o k1 s). split; [exact Hk|]. reflexivity.
Qed.

(** ** One thread at a time *)

Definition view (s : sysall) (t : Z) := (y_loc s t, y_acts s, y_mask s t).

Lemma view_step o s t l a m r : view s t = (l, a, m) -> sys_step o l a m = Some r ->
  view (y_step o s t) t = r.
Proof.
  unfold view, y_step. intros H E. injection H as -> -> ->. rewrite E.
  destruct r as [[l' a'] m']. simpl. now rewrite !upd_same.
Qed.

Lemma sa_int o k a : k_reject o SIGINT = false ->
  real_sigaction o k SIGINT (Some a) =
  (mkkern (upd (k_act k) SIGINT (mkact (sa_handler a) (sa_flags a) (N.ldiff (sa_mask a) (k_noblock o))))
          (k_mask k), Some (k_act k SIGINT)).
Proof. intros H. unfold real_sigaction. rewrite H. reflexivity. Qed.

Lemma sa_quit o k a : k_reject o SIGQUIT = false ->
  real_sigaction o k SIGQUIT (Some a) =
  (mkkern (upd (k_act k) SIGQUIT (mkact (sa_handler a) (sa_flags a) (N.ldiff (sa_mask a) (k_noblock o))))
          (k_mask k), Some (k_act k SIGQUIT)).
Proof. intros H. unfold real_sigaction. rewrite H. reflexivity. Qed.

Lemma seven_steps o s t : sane o (mkkern (y_acts s) (y_mask s t)) -> y_loc s t = L1 ->
  let s' := y_run o s [t; t; t; t; t; t; t] in
  y_loc s' t = LDone /\
  same_signals (mkkern (y_acts s') (y_mask s' t)) (mkkern (y_acts s) (y_mask s t)).
Proof.
  intros (Hm & Ha & Hi & Hq) Hl. cbn zeta. unfold y_run. cbn [fold_left].
  cbn [k_mask k_act] in Hm, Ha.
  assert (V0 : view s t = (L1, y_acts s, y_mask s t)) by (unfold view; now rewrite Hl).
  set (A := y_acts s) in *. set (M := y_mask s t) in *.
  eapply (view_step o) in V0; [|unfold sys_step; rewrite (sa_int _ _ _ Hi); reflexivity].
  eapply (view_step o) in V0; [|unfold sys_step; rewrite (sa_quit _ _ _ Hq); reflexivity].
  eapply (view_step o) in V0; [|reflexivity].
  eapply (view_step o) in V0; [|reflexivity].
  eapply (view_step o) in V0; [|unfold sys_step; rewrite (sa_int _ _ _ Hi); reflexivity].
  eapply (view_step o) in V0; [|unfold sys_step; rewrite (sa_quit _ _ _ Hq); reflexivity].
  eapply (view_step o) in V0; [|reflexivity].
  match type of V0 with view ?x t = _ => generalize dependent x end. intros s' V0.
  cbn [k_mask k_act saved sa_handler sa_flags sa_mask] in V0.
  unfold view in V0. injection V0 as -> -> ->.
  split; [reflexivity|]. split; cbn [k_act k_mask].
  - intros sig. unfold upd.
    destruct (Z.eqb_spec sig SIGQUIT) as [->|Nq].
    { change (SIGQUIT =? SIGINT) with false. cbn iota. rewrite ldiff_disj by apply Ha. apply act_eta. }
    destruct (Z.eqb_spec sig SIGINT) as [->|Ni]; [|reflexivity].
    rewrite ldiff_disj by apply Ha. apply act_eta.
  - now apply ldiff_disj.
Qed.
