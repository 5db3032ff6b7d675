(** Concurrent sigaction calls: what is installed in the kernel when the calls for
    a signal do not overlap. *)
From Verif Require Import SignalModel SignalSpec SignalProofs SignalProofs2.
From Verif Require Import SigRaceModel SigRaceSpec SigRaceProofs SigRaceSeq.

(** Kept open from the start. *)
Definition open0 (c : config) (x : Z) : bool :=
  managedb c x && (reserved c x || (x =? spec_shoot c)).

Lemma open_after_unreg c h x : registered h x = false -> open_after c h x = open0 c x.
Proof. intros H. unfold open_after, open0, registered in *. rewrite H, orb_false_r. reflexivity. Qed.

Definition keeps (c : config) (s : rstate) : Prop := forall x, managedb c x = true ->
  registered (calls (r_tr s)) x = false ->
  keep_open (tab (r_st s) x) = reserved c x || (x =? spec_shoot c).

Lemma registered_in h x o : In o h -> registers x o = true -> registered h x = true.
Proof. intros H R. unfold registered. apply existsb_exists. eauto. Qed.

Lemma keeps_reach c k0 s : 0 <= c_rtmin c -> reached c k0 s -> keeps c s.
Proof.
  intros Hrt. revert s. apply reached_ind.
  - pose proof (boot_inv c k0 Hrt) as B. intros x Hx _. change (r_st (rstart c k0)) with (boot c k0).
    rewrite (I_open _ _ _ _ B x Hx). cbn. now rewrite orb_false_r.
  - intros s t ch s' R IH E. pose proof (linked_reach c k0 s R t) as [_ LK].
    pose proof (kind_reach c k0 s R t) as KD.
    apply rstep_view in E. destruct E as [o Hi Hm|st' th' Hn He|st' r Hn He]; intros x Hx; cbn [r_tr r_st].
    + cbn [calls]. rewrite registered_snoc, orb_false_iff. intros [Hr _]. now apply IH.
    + intros Hr. rewrite <- (IH x Hx Hr). destruct (LK Hn) as (L1 & _).
      set (th := r_th s t) in *. unfold kind_ok in KD.
      exec_cases He; cbn [tab set_tab set_kn]; auto; unfold upd;
      destruct (Z.eqb_spec x (op_sig (t_op th))) as [->|]; auto.
      exfalso. erewrite registered_in in Hr; [discriminate|exact L1|].
      destruct (t_op th); try discriminate. cbn. apply Z.eqb_refl.
    + intros Hr. cbn [calls] in Hr. rewrite <- (IH x Hx Hr).
      set (th := r_th s t) in *. exec_cases He; reflexivity.
Qed.

Lemma kept_open0 c k0 s x : 0 <= c_rtmin c -> reached c k0 s -> in_range x = true ->
  registered (calls (r_tr s)) x = false -> kept_open (tab (r_st s)) x = open0 c x.
Proof.
  intros Hrt R Hx Hr. pose proof (fixed_reach c k0 s Hrt R) as F. pose proof (keeps_reach c k0 s Hrt R) as K.
  unfold kept_open, open0. rewrite (F_avoid _ _ _ F x Hx), (F_invalid _ _ _ F x Hx).
  destruct (managedb c x) eqn:M.
  - rewrite (K x M Hr), (managed_not_avoid _ _ M), (managed_not_reject _ _ M). reflexivity.
  - rewrite managedb_unfold, Hx in M. cbn [andb] in M.
    destruct (is_avoid x), (k_reject (c_os c) x); cbn in *; congruence.
Qed.

(** What a mask m must contain: [hi] bounds it, and for signals the client never
    registered it is exactly [lo]. *)
Definition rel (h : list op) (m : sigset) (hi lo : Z -> bool) : Prop :=
  forall x, in_range x = true ->
    (mem x m = true -> hi x = true) /\ (registered h x = false -> mem x m = lo x).

Definition plus (sd : Z) (f : Z -> bool) (x : Z) : bool := (x =? sd) || f x.
Definition less (c : config) (f : Z -> bool) (x : Z) : bool := f x && negb (mem x (k_noblock (c_os c))).
Definition inl_ (l : list Z) (x : Z) : bool := existsb (Z.eqb x) l.

(** l is the rest of the loop over all signals. *)
Definition tail_of (l : list Z) : Prop := exists d, all_sigs = d ++ l.

(** The request of the running call, for signals the client never registered. *)
Definition lo_of (c : config) (o : op) (x : Z) : bool :=
  mem x (sa_mask (the_act o)) && (is_client o || negb (open0 c x)).

(** [Rf], [Rh], [Rl]: flags, upper and exact mask before the call. *)
Definition kstage (c : config) (h : list op) (o : op) (p : pc) (Rf : N) (Rh Rl : Z -> bool)
  (ta ka : act) : Prop :=
  let sd := spec_shoot c in
  let a := the_act o in
  let am x := mem x (sa_mask a) in
  let old_tab_mask := rel h (sa_mask ta) (plus sd Rh) (plus sd Rl) in
  let old_kern := sa_flags ka = adjust_saflags Rf /\
                  rel h (sa_mask ka) (less c (plus sd Rh)) (less c (plus sd Rl)) in
  let new_flags := sa_flags ta = adjust_saflags (sa_flags a) in
  let new_mask m := rel h m (plus sd am) (plus sd (lo_of c o)) in
  match p with
  | PIdle => False
  | PEnter | PAvoid | POpen | PClient | PRdH | PRdF | PRdM | PWrH | PWrF | PWrM | PKF =>
      sa_flags ta = adjust_saflags Rf /\ old_tab_mask /\ old_kern
  | PKM => new_flags /\ old_kern
  | PDel l => tail_of l /\ new_flags /\ old_kern /\ rel h (sa_mask ta) am (fun x => am x && (inl_ l x || negb (open0 c x)))
  | PDelSt m l => tail_of l /\ new_flags /\ old_kern /\ rel h m am (fun x => am x && (inl_ l x || negb (open0 c x)))
  | PAdj => new_flags /\ old_kern /\ rel h (sa_mask ta) am (lo_of c o)
  | PAdjSt m => new_flags /\ old_kern /\ new_mask m
  | PSys => new_flags /\ old_kern /\ new_mask (sa_mask ta)
  | PRet => match op_act o with
            | None => sa_flags ta = adjust_saflags Rf /\ old_tab_mask /\ old_kern
            | Some _ => new_flags /\ new_mask (sa_mask ta) /\
                sa_flags ka = adjust_saflags (sa_flags a) /\
                rel h (sa_mask ka) (less c (plus sd am)) (less c (plus sd (lo_of c o)))
            end
  end.

Lemma range_pos x : in_range x = true -> 1 <= x.
Proof. intros H. apply in_range_spec in H. tauto. Qed.

Lemma rel_strip c h m hi lo : rel h m hi lo ->
  rel h (N.ldiff m (k_noblock (c_os c))) (less c hi) (less c lo).
Proof.
  intros H x Hx. destruct (H x Hx) as [A B]. unfold less. rewrite mem_ldiff. split.
  - rewrite !andb_true_iff. intros [C D]. auto.
  - intros Hr. now rewrite B.
Qed.

Lemma rel_ext h m hi lo hi' lo' : (forall x, in_range x = true -> hi x = hi' x) ->
  (forall x, in_range x = true -> registered h x = false -> lo x = lo' x) ->
  rel h m hi lo -> rel h m hi' lo'.
Proof.
  intros E1 E2 H x Hx. destruct (H x Hx) as [A B]. split; intros Hr.
  - rewrite <- E1 by exact Hx. auto.
  - rewrite <- E2 by assumption. auto.
Qed.

Lemma rel_mono h h' m hi lo : (forall x, registered h' x = false -> registered h x = false) ->
  rel h m hi lo -> rel h' m hi lo.
Proof. intros E H x Hx. destruct (H x Hx) as [A B]. split; auto. Qed.

Lemma kstage_mono c h h' o p Rf Rh Rl ta ka :
  (forall x, registered h' x = false -> registered h x = false) ->
  kstage c h o p Rf Rh Rl ta ka -> kstage c h' o p Rf Rh Rl ta ka.
Proof.
  intros E. pose proof (fun m hi lo => rel_mono h h' m hi lo E) as M.
  unfold kstage. destruct p; try destruct (op_act o); intuition auto.
Qed.

Lemma exec_kstage c k0 s t st' th' Rf Rh Rl g : 0 <= c_rtmin c -> reached c k0 s ->
  let th := r_th s t in let h := calls (r_tr s) in
  exec c (r_st s) th = (st', inl th') -> op_sig (t_op th) = g -> managedb c g = true ->
  kstage c h (t_op th) (t_pc th) Rf Rh Rl (kern_act (tab (r_st s) g)) (k_act (kn (r_st s)) g) ->
  kstage c h (t_op th) (t_pc th') Rf Rh Rl (kern_act (tab st' g)) (k_act (kn st') g).
Proof.
  intros Hrt R th h He Hg Hm S.
  pose proof (fixed_reach c k0 s Hrt R) as F.
  pose proof (checked_reach c k0 s Hrt R t) as [K1 K2].
  pose proof (kind_reach c k0 s R t) as KD.
  pose proof (fun x => kept_open0 c k0 s x Hrt R) as KO.
  pose proof (spec_shoot_range c) as SD.
  fold th in K1, K2, KD. unfold kind_ok in KD. unfold kstage in S at 1. rewrite <- Hg in *. clear Hg g.
  exec_cases He; cbn [t_pc tab kn set_tab set_kn]; rewrite ?upd_same; unfold after_read, after_client in *;
  try contradiction;
  try (destruct (op_act (t_op th)) eqn:Ea); cbn [kstage kern_act set_open set_client set_appl set_kern set_f set_m sa_flags sa_mask sa_handler];
  rewrite ?Ea; try exact S; try tauto.
  - (* PKM, client *) destruct S as [S1 S2].
    split; [exact S1|]. split; [exact S2|]. intros x Hx. unfold lo_of. rewrite Eb. cbn. rewrite andb_true_r. auto.
  - (* PKM, application *) destruct S as [S1 S2].
    split; [now exists []|]. split; [exact S1|]. split; [exact S2|]. intros x Hx. split; [auto|].
    intros _. unfold inl_. rewrite existsb_all_sigs, Hx. cbn. now rewrite andb_true_r.
  - (* PDel [] *) destruct S as (S0 & S1 & S2 & S3). split; [exact S1|]. split; [exact S2|].
    revert S3. apply rel_ext; [auto|]. intros x Hx _. unfold lo_of. destruct KD as [-> _]. reflexivity.
  - (* PDel, open *) destruct S as ([d S0] & S1 & S2 & S3).
    assert (D1 : 1 <= dg /\ inl_ dl dg = false).
    { split.
      - apply all_sigs_pos. rewrite S0. apply in_or_app. right. now left.
      - pose proof all_sigs_nodup as ND. rewrite S0 in ND. apply NoDup_remove_2 in ND.
        unfold inl_. destruct (existsb (Z.eqb dg) dl) eqn:Ee; [|reflexivity].
        apply existsb_eqb_in in Ee. exfalso. apply ND. apply in_or_app. now right. }
    destruct D1 as [D1 D2].
    split; [exists (d ++ [dg]); now rewrite <- app_assoc|]. split; [exact S1|]. split; [exact S2|].
    intros x Hx. destruct (S3 x Hx) as [A B]. assert (X1 : 1 <= x) by exact (range_pos x Hx).
    rewrite mem_sdel by assumption. split.
    + rewrite andb_true_iff. intros [_ C]. auto.
    + intros Hr. rewrite (B Hr). cbn [inl_ existsb]. destruct (Z.eqb_spec x dg) as [->|Hne].
      * cbn. rewrite <- (KO dg Hx Hr), Eb. fold (inl_ dl dg). rewrite D2. cbn. now rewrite andb_false_r.
      * reflexivity.
  - (* PDel, not open *) destruct S as ([d S0] & S1 & S2 & S3).
    split; [exists (d ++ [dg]); now rewrite <- app_assoc|]. split; [exact S1|]. split; [exact S2|].
    revert S3. apply rel_ext; [auto|]. intros x Hx Hr. cbn [inl_ existsb]. fold (inl_ dl x).
    destruct (Z.eqb_spec x dg) as [->|Hne]; [|reflexivity].
    rewrite <- (KO dg Hx Hr), Eb. cbn. now rewrite orb_true_r.
  - (* PAdj *) destruct S as (S1 & S2 & S3). split; [exact S1|]. split; [exact S2|].
    intros x Hx. destruct (S3 x Hx) as [A B]. assert (X1 : 1 <= x) by exact (range_pos x Hx).
    unfold adjust_samask, plus. rewrite (F_shoot _ _ _ F), mem_sadd by (assumption || apply SD). split.
    + rewrite !orb_true_iff. intros [C|C]; auto.
    + intros Hr. now rewrite B.
  - (* PSys *) destruct S as (S1 & S2 & S3). split; [exact S1|]. split; [exact S3|].
    rewrite (k_sigaction_set _ _ _ _ _ _ (op_sig (t_op th)) Hm Ek), Z.eqb_refl. cbn.
    split; [exact S1|]. now apply rel_strip.
Qed.

(** Requests for g in the window of a call for g. *)
Lemma request_sig o g b a : request o g = Some (b, a) -> op_sig o = g.
Proof.
  destruct o as [s [x|] w|s h|s h [x|]|]; cbn; try discriminate; destruct (Z.eqb_spec s g); congruence.
Qed.

Lemma req_flags_window c h h2 g : (forall x, In x h2 -> op_sig x <> g) ->
  req_flags c (h ++ h2) g = req_flags c h g.
Proof.
  induction h2 as [|o h2 IH] using rev_ind; intros H; [now rewrite app_nil_r|].
  rewrite app_assoc, req_flags_snoc. destruct (request o g) as [[b a]|] eqn:Er.
  - apply request_sig in Er. exfalso. apply (H o); [apply in_or_app; right; now left|exact Er].
  - apply IH. intros x Hx. apply H. apply in_or_app. now left.
Qed.
Lemma req_mask_window c h h2 g x : (forall x, In x h2 -> op_sig x <> g) ->
  req_mask c (h ++ h2) g x = req_mask c h g x.
Proof.
  induction h2 as [|o h2 IH] using rev_ind; intros H; [now rewrite app_nil_r|].
  rewrite app_assoc, req_mask_snoc. destruct (request o g) as [[b a]|] eqn:Er.
  - apply request_sig in Er. exfalso. apply (H o); [apply in_or_app; right; now left|exact Er].
  - apply IH. intros y Hy. apply H. apply in_or_app. now left.
Qed.
Lemma wants_snoc h o g x : wants_blocked (h ++ [o]) g x =
  match request o g with Some (_, a) => mem x (sa_mask a) | None => wants_blocked h g x end.
Proof.
  unfold wants_blocked. rewrite rev_app_distr. cbn [rev app last_request].
  destruct (request o g) as [[b a]|]; reflexivity.
Qed.
Lemma wants_window h h2 g x : (forall x, In x h2 -> op_sig x <> g) ->
  wants_blocked (h ++ h2) g x = wants_blocked h g x.
Proof.
  induction h2 as [|o h2 IH] using rev_ind; intros H; [now rewrite app_nil_r|].
  rewrite app_assoc, wants_snoc. destruct (request o g) as [[b a]|] eqn:Er.
  - apply request_sig in Er. exfalso. apply (H o); [apply in_or_app; right; now left|exact Er].
  - apply IH. intros y Hy. apply H. apply in_or_app. now left.
Qed.

Definition settled (c : config) (h : list op) (g : Z) (ta ka : act) : Prop :=
  sa_flags ta = adjust_saflags (req_flags c h g) /\
  rel h (sa_mask ta) (plus (spec_shoot c) (wants_blocked h g)) (plus (spec_shoot c) (req_mask c h g)) /\
  sa_flags ka = adjust_saflags (req_flags c h g) /\
  rel h (sa_mask ka) (less c (plus (spec_shoot c) (wants_blocked h g)))
                     (less c (plus (spec_shoot c) (req_mask c h g))).

Lemma registered_app h h2 x : registered (h ++ h2) x = registered h x || registered h2 x.
Proof. unfold registered. apply existsb_app. Qed.

Record kerneled (c : config) (g : Z) (s : rstate) : Prop := {
  N_quiet : quiet (r_tr s) g ->
    settled c (calls (r_tr s)) g (kern_act (tab (r_st s) g)) (k_act (kn (r_st s)) g);
  N_stage : forall t, inside (r_tr s) t g = true ->
    let h := calls (before (r_tr s) t) in
    kstage c (calls (r_tr s)) (t_op (r_th s t)) (t_pc (r_th s t))
      (req_flags c h g) (wants_blocked h g) (req_mask c h g)
      (kern_act (tab (r_st s) g)) (k_act (kn (r_st s)) g) }.

Lemma exec_other c st th st' w g : exec c st th = (st', w) -> op_sig (t_op th) <> g ->
  tab st' g = tab st g /\ k_act (kn st') g = k_act (kn st) g.
Proof.
  intros He Hg. exec_cases He; cbn [tab kn set_tab set_kn]; split; auto;
  try (rewrite upd_other; auto; fail); eapply k_sigaction_other; eauto.
Qed.

Lemma kerneled_reach c k0 g s : 0 <= c_rtmin c -> managedb c g = true -> reached c k0 s ->
  apart (r_tr s) g -> kerneled c g s.
Proof.
  intros Hrt Hg. revert s. apply (reached_ind c k0 (fun s => apart (r_tr s) g -> kerneled c g s)).
  - intros _. pose proof (boot_inv c k0 Hrt) as B. constructor; [|discriminate].
    intros _. change (r_st (rstart c k0)) with (boot c k0). unfold settled. cbn [rstart r_tr calls].
    rewrite (I_kern _ _ _ _ B g Hg), (I_flags _ _ _ _ B g Hg). unfold strip. cbn [sa_flags sa_mask].
    assert (RL : rel [] (sa_mask (kern_act (tab (boot c k0) g)))
              (plus (spec_shoot c) (wants_blocked [] g)) (plus (spec_shoot c) (req_mask c [] g))).
    { intros x Hx. rewrite (I_mask _ _ _ _ B g x Hg Hx). unfold plus. cbn. auto. }
    split; [reflexivity|]. split; [exact RL|]. split; [exact (I_flags _ _ _ _ B g Hg)|now apply rel_strip].
  - intros s t ch s' R IH E A'.
    pose proof (fixed_reach c k0 s Hrt R) as F.
    pose proof (checked_reach c k0 s Hrt R t) as [K1 K2].
    pose proof (linked_reach c k0 s R) as LK.
    pose proof (opened_reach c k0 s R t) as OP.
    apply rstep_view in E.
    destruct E as [o Hi Hm|st' th' Hn He|st' r Hn He]; cbn [r_tr r_st r_th] in *.
    + pose proof (apart_tail _ _ _ A') as A. destruct (IH A) as [Q1 Q2].
      assert (MO : forall x, registered (calls (ECall t o :: r_tr s)) x = false -> registered (calls (r_tr s)) x = false).
      { intros x. cbn [calls]. rewrite registered_snoc, orb_false_iff. tauto. }
      constructor; cbn [r_tr r_st r_th].
      * intros Hq. pose proof (Hq t) as Hqt. cbn in Hqt. rewrite Z.eqb_refl in Hqt. apply Z.eqb_neq in Hqt.
        assert (Qs : quiet (r_tr s) g).
        { intros u. specialize (Hq u). cbn in Hq.
          destruct (Z.eqb_spec t u) as [Etu|]; [rewrite <- Etu|exact Hq]. now apply (proj1 (LK t) Hi). }
        destruct (Q1 Qs) as (S1 & S2 & S3 & S4). unfold settled.
        assert (H1 : forall x, In x [o] -> op_sig x <> g) by (intros x [<-|[]]; exact Hqt).
        cbn [calls]. rewrite (req_flags_window c _ [o] g H1).
        split; [exact S1|]. split; [|split; [exact S3|]].
        -- eapply rel_mono in S2; [|exact MO]. revert S2. cbn [calls]. apply rel_ext; intros; unfold plus;
           rewrite ?(wants_window _ [o] g _ H1), ?(req_mask_window c _ [o] g _ H1); reflexivity.
        -- eapply rel_mono in S4; [|exact MO]. revert S4. cbn [calls]. apply rel_ext; intros; unfold less, plus;
           rewrite ?(wants_window _ [o] g _ H1), ?(req_mask_window c _ [o] g _ H1); reflexivity.
      * intros u. cbn [inside before by_thread]. destruct (Z.eqb_spec t u) as [Etu|Hne]; [rewrite <- Etu; clear u Etu|].
        -- intros Eo. apply Z.eqb_eq in Eo. rewrite upd_same. cbn [t_op t_pc].
           cbn in A'. destruct (Q1 (proj1 A' Eo)) as (S1 & S2 & S3 & S4).
           cbn [kstage]. split; [exact S1|]. split; [|split; [exact S3|]]; (eapply rel_mono; [exact MO|assumption]).
        -- rewrite upd_other by auto. intros Hin. eapply kstage_mono; [exact MO|]. now apply Q2.
    + destruct (IH A') as [Q1 Q2]. constructor; cbn [r_tr r_st r_th].
      * intros Hq. assert (Hs : op_sig (t_op (r_th s t)) <> g).
        { specialize (Hq t). rewrite (proj2 (proj2 (proj2 (LK t) Hn))) in Hq. now apply Z.eqb_neq. }
        destruct (exec_other _ _ _ _ _ g He Hs) as [-> ->]. now apply Q1.
      * intros u Hin. destruct (Z.eqb_spec u t) as [->|Hne].
        -- rewrite upd_same. rewrite (exec_op _ _ _ _ _ He). cbv zeta.
           apply (exec_kstage c k0 s t _ _ _ _ _ g Hrt R He); [|exact Hg|now apply Q2].
           rewrite (proj2 (proj2 (proj2 (LK t) Hn))) in Hin. now apply Z.eqb_eq.
        -- rewrite upd_other by exact Hne.
           assert (Hs : op_sig (t_op (r_th s t)) <> g).
           { intros Hs. apply Hne. apply (one_inside (r_tr s) g); auto.
             rewrite (proj2 (proj2 (proj2 (LK t) Hn))). now apply Z.eqb_eq. }
           destruct (exec_other _ _ _ _ _ g He Hs) as [-> ->]. now apply Q2.
    + assert (A : apart (r_tr s) g) by exact A'. destruct (IH A) as [Q1 Q2].
      destruct (OP Hn) as (m & e0 & Et & W).
      destruct (proj2 (LK t) Hn) as (L1 & L2 & L3). set (th := r_th s t) in *.
      assert (B0 : before (r_tr s) t = e0) by (rewrite Et; now apply before_away).
      assert (T' : tab st' = tab (r_st s) /\ kn st' = kn (r_st s)).
      { exec_cases He; cbn; auto; split; auto; eapply k_sigaction_avoid; eauto; apply K2; reflexivity. }
      destruct T' as [T1 T2]. constructor; cbn [r_tr r_st r_th]; rewrite T1, T2.
      * intros Hq. cbn [calls]. destruct (Z.eq_dec (op_sig (t_op th)) g) as [Eg|Eg].
        -- assert (Hin : inside (r_tr s) t g = true) by (rewrite L3; now apply Z.eqb_eq).
           specialize (Q2 t Hin). fold th in Q2. rewrite B0 in Q2. cbv zeta in Q2.
           assert (Hp : t_pc th = PRet).
           { assert (MG : in_range g = true /\ avoid (tab (r_st s) g) = false /\
                     invalid (tab (r_st s) g) = false /\ is_avoid g = false).
             { pose proof Hg as Hm'. rewrite managedb_unfold, !andb_true_iff, !negb_true_iff in Hm'.
               destruct Hm' as [[M1 M2] M3]. rewrite (F_avoid _ _ _ F _ M1), (F_invalid _ _ _ F _ M1), M2, M3. auto. }
             destruct MG as (M1 & M2 & M3 & M4). rewrite Eg in *.
             exec_cases He; rewrite ?Eg in *; try (rewrite M1, ?M2, M3 in *; discriminate); auto;
             destruct (K2 eq_refl) as (_ & X & _); congruence. }
           rewrite Hp in Q2. cbn [kstage] in Q2.
           assert (EC : calls (r_tr s) = (calls e0 ++ [t_op th]) ++ calls m).
           { rewrite Et, calls_app. reflexivity. }
           assert (WN : forall x, In x (calls m) -> op_sig x <> g).
           { apply (window g t (t_op th) e0 Eg m); [now rewrite <- Et|exact W]. }
           rewrite EC in Q2 |- *. unfold settled. rewrite (req_flags_window c _ _ g WN), req_flags_snoc.
           assert (RE : forall x, registered ((calls e0 ++ [t_op th]) ++ calls m) x = false -> registered (calls e0) x = false).
           { intros x. rewrite !registered_app, !orb_false_iff. tauto. }
           assert (RQ : request (t_op th) g = match op_act (t_op th) with None => None | Some a => Some (is_client (t_op th), a) end).
           { clear -Eg L2. destruct (t_op th) as [x [y|] z|x y|x y [z|]|]; cbn in *; try rewrite Eg, Z.eqb_refl; reflexivity. }
           rewrite RQ. unfold the_act, lo_of in Q2. unfold the_act in Q2. destruct (op_act (t_op th)) as [a|] eqn:Ea.
           ++ destruct Q2 as (S1 & S2 & S3 & S4). split; [exact S1|]. split; [|split; [exact S3|]].
              ** revert S2. apply rel_ext; intros x Hx; unfold plus.
                 --- rewrite (wants_window _ _ g _ WN), wants_snoc, RQ. reflexivity.
                 --- intros Hr. rewrite (req_mask_window c _ _ g _ WN), req_mask_snoc, RQ.
                     destruct (is_client (t_op th)); [now rewrite andb_true_r|].
                     now rewrite (open_after_unreg c _ x (RE x Hr)).
              ** revert S4. apply rel_ext; intros x Hx; unfold less, plus.
                 --- rewrite (wants_window _ _ g _ WN), wants_snoc, RQ. reflexivity.
                 --- intros Hr. rewrite (req_mask_window c _ _ g _ WN), req_mask_snoc, RQ.
                     destruct (is_client (t_op th)); [now rewrite andb_true_r|].
                     now rewrite (open_after_unreg c _ x (RE x Hr)).
           ++ destruct Q2 as (S1 & S2 & S3 & S4). split; [exact S1|]. split; [|split; [exact S3|]].
              ** revert S2. apply rel_ext; intros x Hx; unfold plus.
                 --- rewrite (wants_window _ _ g _ WN), wants_snoc, RQ. reflexivity.
                 --- intros Hr. rewrite (req_mask_window c _ _ g _ WN), req_mask_snoc, RQ. reflexivity.
              ** revert S4. apply rel_ext; intros x Hx; unfold less, plus.
                 --- rewrite (wants_window _ _ g _ WN), wants_snoc, RQ. reflexivity.
                 --- intros Hr. rewrite (req_mask_window c _ _ g _ WN), req_mask_snoc, RQ. reflexivity.
        -- apply Q1. intros u. specialize (Hq u). cbn in Hq.
           destruct (Z.eqb_spec t u) as [Etu|]; [rewrite <- Etu|exact Hq]. rewrite L3. now apply Z.eqb_neq.
      * intros u. cbn [inside before by_thread]. destruct (Z.eqb_spec t u) as [Etu|Hne]; [discriminate|].
        rewrite upd_other by auto. intros Hin. now apply Q2.
Qed.
