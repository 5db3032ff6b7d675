(** The signal layer in the child of a fork: what is installed in the kernel after a
    call in the child. *)
From Verif Require Import SignalModel SignalSpec SignalProofs SignalProofs2.
From Verif Require Import SigRaceModel SigRaceSpec SigRaceProofs SigRaceSeq SigRaceKern.
From Verif Require Import SigForkModel SigForkSpec SigForkProofs.

(** Installed as the flags f and the mask w say. *)
Definition good (c : config) (f : N) (w : Z -> bool) (ka : act) : Prop :=
  sa_flags ka = adjust_saflags f /\
  mem (spec_shoot c) (sa_mask ka) = negb (mem (spec_shoot c) (k_noblock (c_os c))) /\
  forall x, in_range x = true -> mem x (sa_mask ka) = true -> x = spec_shoot c \/ w x = true.

(** While a call for the signal is running; P: what holds of the installed action
    until the call changes it. *)
Definition kst (c : config) (o : op) (p : pc) (P : act -> Prop) (ta ka : act) : Prop :=
  let sd := spec_shoot c in
  let a := the_act o in
  let nf := sa_flags ta = adjust_saflags (sa_flags a) in
  let sub m := forall x, in_range x = true -> mem x m = true -> mem x (sa_mask a) = true in
  let fin m := mem sd m = true /\
    forall x, in_range x = true -> mem x m = true -> x = sd \/ mem x (sa_mask a) = true in
  match p with
  | PIdle => False
  | PEnter | PAvoid | POpen | PClient | PRdH | PRdF | PRdM | PWrH | PWrF | PWrM | PKF => P ka
  | PKM => nf /\ P ka
  | PDel l => tail_of l /\ nf /\ sub (sa_mask ta) /\ P ka
  | PDelSt m l => tail_of l /\ nf /\ sub m /\ P ka
  | PAdj => nf /\ sub (sa_mask ta) /\ P ka
  | PAdjSt m => nf /\ fin m /\ P ka
  | PSys => nf /\ fin (sa_mask ta) /\ P ka
  | PRet => match op_act o with
            | None => P ka
            | Some _ => good c (sa_flags a) (fun x => mem x (sa_mask a)) ka
            end
  end.

Lemma exec_kst c st th st' th' P g :
  exec c st th = (st', inl th') -> shoot st = spec_shoot c -> kind_ok th ->
  op_sig (t_op th) = g -> managedb c g = true -> t_pc th <> PAvoid ->
  kst c (t_op th) (t_pc th) P (kern_act (tab st g)) (k_act (kn st) g) ->
  kst c (t_op th) (t_pc th') P (kern_act (tab st' g)) (k_act (kn st') g).
Proof.
  intros He Sd KD Hg Hm Hv S. pose proof (spec_shoot_range c) as SD.
  unfold kind_ok in KD. unfold kst in S at 1. rewrite <- Hg in *. clear Hg g.
  exec_cases He; cbn [t_pc tab kn set_tab set_kn]; rewrite ?upd_same; unfold after_read, after_client in *;
  try contradiction;
  try (destruct (op_act (t_op th)) eqn:Ea); cbn [kst kern_act set_open set_client set_appl set_kern set_f set_m sa_flags sa_mask sa_handler];
  rewrite ?Ea; try exact S; try tauto; try (now split).
  all: try (destruct S as ([d S0] & S1 & S2 & S3)).
  - split; [now exists []|]. split; [tauto|]. split; [auto|tauto].
  - split; [exists (d ++ [dg]); now rewrite <- app_assoc|]. split; [exact S1|]. split; [|exact S3].
    assert (D1 : 1 <= dg) by (apply all_sigs_pos; rewrite S0; apply in_or_app; right; now left).
    intros x Hx. rewrite mem_sdel by (assumption || now apply range_pos). rewrite andb_true_iff. intros [_ C]. auto.
  - split; [exists (d ++ [dg]); now rewrite <- app_assoc|]. auto.
  - destruct S as (S1 & S2 & S3). split; [exact S1|]. split; [|exact S3]. unfold adjust_samask. rewrite Sd.
    split; [rewrite mem_sadd by apply SD; now rewrite Z.eqb_refl|].
    intros x Hx. rewrite mem_sadd by (apply SD || now apply range_pos). rewrite orb_true_iff.
    intros [C|C]; [left; lia|right; auto].
  - destruct S as (S1 & (S2 & S3) & _). unfold good.
    rewrite (k_sigaction_set _ _ _ _ _ _ (op_sig (t_op th)) Hm Ek), Z.eqb_refl. cbn.
    split; [exact S1|]. rewrite mem_ldiff, S2. split; [reflexivity|].
    intros x Hx. rewrite mem_ldiff, andb_true_iff. intros [C _]. auto.
Qed.

(** A request for g by the application or the client. *)
Definition sets (g : Z) (o : op) : bool := match request o g with Some _ => true | None => false end.

Definition installed (c : config) (h : list op) (g : Z) (ka : act) : Prop :=
  existsb (sets g) h = true -> good c (req_flags c h g) (wants_blocked h g) ka.

Lemma sets_window h h2 g : (forall x, In x h2 -> op_sig x <> g) ->
  existsb (sets g) (h ++ h2) = existsb (sets g) h.
Proof.
  intros H. rewrite existsb_app. destruct (existsb (sets g) h2) eqn:E; [|now rewrite orb_false_r].
  apply existsb_exists in E. destruct E as (x & Hx & E). unfold sets in E.
  destruct (request x g) as [[b a]|] eqn:Er; [|discriminate]. apply request_sig in Er. now destruct (H x Hx).
Qed.

Lemma good_ext c f w f' w' ka : f = f' -> (forall x, w x = w' x) -> good c f w ka -> good c f' w' ka.
Proof. intros <- E (A & B & C). split; [exact A|]. split; [exact B|]. intros x Hx Hm. rewrite <- E. auto. Qed.

Lemma installed_window c h h2 g ka : (forall x, In x h2 -> op_sig x <> g) ->
  installed c h g ka -> installed c (h ++ h2) g ka.
Proof.
  intros H I. unfold installed. rewrite (sets_window h h2 g H). intros E. specialize (I E).
  revert I. apply good_ext; [now rewrite req_flags_window|]. intros x. now rewrite wants_window.
Qed.

Record kchild (c : config) (g : Z) (s : rstate) : Prop := {
  K_quiet : quiet (r_tr s) g -> installed c (calls (r_tr s)) g (k_act (kn (r_st s)) g);
  K_stage : forall t, inside (r_tr s) t g = true ->
    kst c (t_op (r_th s t)) (t_pc (r_th s t)) (installed c (calls (before (r_tr s) t)) g)
      (kern_act (tab (r_st s) g)) (k_act (kn (r_st s)) g) }.

Lemma kchild_child c k0 s0 g s : 0 <= c_rtmin c -> managedb c g = true -> in_child c k0 s0 s ->
  apart (r_tr s) g -> kchild c g s.
Proof.
  intros Hrt Hg C. assert (R0 : reached c k0 s0) by apply C. revert s C.
  apply (child_ind c k0 s0 (fun s => apart (r_tr s) g -> kchild c g s) R0).
  - intros _. constructor; cbn; [intros _; discriminate|discriminate].
  - intros s t ch s' C Ht IH E A'.
    destruct (child_linked c k0 s0 s C) as [LK OPS]. pose proof (OPS t) as OP.
    destruct (child_like c k0 s0 s C) as (sp & Rp & Lst & Ltr & Lth).
    destruct (Lth t (idle_when c k0 s0 t R0 Ht)) as [Lp Lt].
    pose proof (fixed_reach c k0 sp Hrt Rp) as F.
    assert (KD : t_pc (r_th s t) <> PIdle -> kind_ok (r_th s t))
      by (intros X; rewrite <- (Lt X); apply (kind_reach c k0 sp Rp)).
    assert (K2 : t_pc (r_th s t) = PAvoid -> is_avoid (op_sig (t_op (r_th s t))) = true).
    { intros X. destruct (checked_reach c k0 sp Hrt Rp t) as [_ K2].
      rewrite Lt in K2 by (rewrite X; discriminate). now apply K2. }
    assert (NA : is_avoid g = false) by exact (managed_not_avoid _ _ Hg).
    apply rstep_view in E.
    destruct E as [o Hi Hm|st' th' Hn He|st' r Hn He]; cbn [r_tr r_st r_th] in *.
    + pose proof (apart_tail _ _ _ A') as A. destruct (IH A) as [Q1 Q2]. constructor; cbn [r_tr r_st r_th].
      * intros Hq. pose proof (Hq t) as Hqt. cbn in Hqt. rewrite Z.eqb_refl in Hqt. apply Z.eqb_neq in Hqt.
        cbn [calls]. apply installed_window; [intros x [<-|[]]; exact Hqt|].
        apply Q1. intros u. specialize (Hq u). cbn in Hq.
        destruct (Z.eqb_spec t u) as [Etu|]; [rewrite <- Etu|exact Hq]. now apply (proj1 (LK t) Hi).
      * intros u. cbn [inside before by_thread]. destruct (Z.eqb_spec t u) as [Etu|Hne]; [rewrite <- Etu; clear u Etu|].
        -- intros Eo. apply Z.eqb_eq in Eo. rewrite upd_same. cbn. cbn in A'. apply Q1. now apply (proj1 A').
        -- rewrite upd_other by auto. intros Hin. now apply Q2.
    + destruct (IH A') as [Q1 Q2]. constructor; cbn [r_tr r_st r_th].
      * intros Hq. assert (Hs : op_sig (t_op (r_th s t)) <> g).
        { specialize (Hq t). rewrite (proj2 (proj2 (proj2 (LK t) Hn))) in Hq. now apply Z.eqb_neq. }
        destruct (exec_other _ _ _ _ _ g He Hs) as [_ ->]. now apply Q1.
      * intros u Hin. destruct (Z.eqb_spec u t) as [->|Hne].
        -- rewrite upd_same. rewrite (exec_op _ _ _ _ _ He).
           assert (Eo : op_sig (t_op (r_th s t)) = g).
           { rewrite (proj2 (proj2 (proj2 (LK t) Hn))) in Hin. now apply Z.eqb_eq. }
           apply (exec_kst c _ _ _ _ _ g He); auto.
           ++ rewrite <- Lst. apply (F_shoot _ _ _ F).
           ++ intros X. specialize (K2 X). congruence.
        -- rewrite upd_other by exact Hne.
           assert (Hs : op_sig (t_op (r_th s t)) <> g).
           { intros Hs. apply Hne. apply (one_inside (r_tr s) g); auto.
             rewrite (proj2 (proj2 (proj2 (LK t) Hn))). now apply Z.eqb_eq. }
           destruct (exec_other _ _ _ _ _ g He Hs) as [-> ->]. now apply Q2.
    + destruct (IH A') as [Q1 Q2]. destruct (OP Hn) as (m & e0 & Et & W).
      destruct (proj2 (LK t) Hn) as (L1 & L2 & L3).
      assert (B0 : before (r_tr s) t = e0) by (rewrite Et; now apply before_away).
      assert (T' : tab st' = tab (r_st s) /\ kn st' = kn (r_st s)).
      { clear -He K2. exec_cases He; cbn; auto; split; auto; eapply k_sigaction_avoid; eauto. }
      destruct T' as [T1 T2]. constructor; cbn [r_tr r_st r_th]; rewrite ?T1, ?T2.
      * intros Hq. cbn [calls]. destruct (Z.eq_dec (op_sig (t_op (r_th s t))) g) as [Eg|Eg].
        -- assert (Hin : inside (r_tr s) t g = true) by (rewrite L3; now apply Z.eqb_eq).
           specialize (Q2 t Hin). rewrite B0 in Q2.
           assert (Hp : t_pc (r_th s t) = PRet).
           { assert (MG : in_range g = true /\ avoid (tab (r_st s) g) = false /\ invalid (tab (r_st s) g) = false).
             { pose proof Hg as Hm'. rewrite managedb_unfold, !andb_true_iff, !negb_true_iff in Hm'.
               destruct Hm' as [[M1 M2] M3]. rewrite <- Lst.
               rewrite (F_avoid _ _ _ F _ M1), (F_invalid _ _ _ F _ M1), M2, M3. auto. }
             destruct MG as (M1 & M2 & M3). clear -He Eg M1 M2 M3 K2 NA. rewrite <- Eg in *.
             exec_cases He; try (rewrite M1, ?M2, M3 in *; discriminate); auto;
             specialize (K2 eq_refl); congruence. }
           rewrite Hp in Q2. cbn [kst] in Q2.
           assert (EC : calls (r_tr s) = (calls e0 ++ [t_op (r_th s t)]) ++ calls m) by (rewrite Et, calls_app; reflexivity).
           assert (WN : forall x, In x (calls m) -> op_sig x <> g).
           { apply (window g t (t_op (r_th s t)) e0 Eg m); [now rewrite <- Et|exact W]. }
           rewrite EC. apply installed_window; [exact WN|].
           assert (RQ : request (t_op (r_th s t)) g = match op_act (t_op (r_th s t)) with None => None | Some a => Some (is_client (t_op (r_th s t)), a) end).
           { clear -Eg L2. destruct (t_op (r_th s t)) as [x [y|] z|x y|x y [z|]|]; cbn in *; try rewrite Eg, Z.eqb_refl; reflexivity. }
           unfold the_act in Q2. destruct (op_act (t_op (r_th s t))) as [a|] eqn:Ea.
           ++ intros _. revert Q2. apply good_ext.
              ** now rewrite req_flags_snoc, RQ.
              ** intros x. now rewrite wants_snoc, RQ.
           ++ unfold installed. rewrite existsb_app. cbn [existsb]. unfold sets at 2. rewrite RQ, !orb_false_r. intros X.
              specialize (Q2 X). revert Q2. apply good_ext.
              ** now rewrite req_flags_snoc, RQ.
              ** intros x. now rewrite wants_snoc, RQ.
        -- apply Q1. intros u. specialize (Hq u). cbn in Hq.
           destruct (Z.eqb_spec t u) as [Etu|]; [rewrite <- Etu|exact Hq]. rewrite L3. now apply Z.eqb_neq.
      * intros u. cbn [inside before by_thread]. destruct (Z.eqb_spec t u) as [Etu|Hne]; [discriminate|].
        rewrite upd_other by auto. intros Hin. now apply Q2.
Qed.
