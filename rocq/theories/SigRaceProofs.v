(** Proofs about concurrent sigaction calls. *)
From Verif Require Import SignalModel SignalSpec SignalProofs SignalProofs2.
From Verif Require Import SigRaceModel SigRaceSpec.

(** ** Schedules *)
Lemma reached_ind c k0 (P : rstate -> Prop) :
  P (rstart c k0) ->
  (forall s t ch s', reached c k0 s -> P s -> rstep c s t ch = Some s' -> P s') ->
  forall s, reached c k0 s -> P s.
Proof.
  intros H0 HS.
  assert (G : forall l s0 s, reached c k0 s0 -> P s0 -> rrun c s0 l = Some s -> P s).
  { induction l as [|[t ch] l IH]; intros s0 s R0 P0 E; cbn in E; [congruence|].
    destruct (rstep c s0 t ch) as [s1|] eqn:E1; [|discriminate].
    apply (IH s1 s); [|eapply HS; eassumption|assumption].
    destruct R0 as [l0 R0]. exists (l0 ++ [(t, ch)]).
    clear -R0 E1. revert R0. generalize (rstart c k0).
    induction l0 as [|[u d] l0 IHl]; intros z R0; cbn in *.
    - injection R0 as ->. now rewrite E1.
    - destruct (rstep c z u d); [now apply IHl|discriminate]. }
  intros s [l E]. apply (G l (rstart c k0) s); auto. now exists [].
Qed.

Inductive view (c : config) (s : rstate) (t : Z) : rstate -> Prop :=
| VCall o : t_pc (r_th s t) = PIdle -> is_mask o = false ->
    view c s t (mkrstate (r_st s) (upd (r_th s) t (mkthread PEnter o act0))
                         (ECall t o :: r_tr s))
| VStep st' th' : t_pc (r_th s t) <> PIdle -> exec c (r_st s) (r_th s t) = (st', inl th') ->
    view c s t (mkrstate st' (upd (r_th s) t th') (r_tr s))
| VRet st' r : t_pc (r_th s t) <> PIdle -> exec c (r_st s) (r_th s t) = (st', inr r) ->
    view c s t (mkrstate st' (upd (r_th s) t (mkthread PIdle (t_op (r_th s t)) act0))
                         (ERet t (t_op (r_th s t)) r :: r_tr s)).

Lemma rstep_view c s t ch s' : rstep c s t ch = Some s' -> view c s t s'.
Proof.
  unfold rstep, idle. destruct ch as [o|].
  - destruct (t_pc (r_th s t)) eqn:Ep; cbn; try discriminate.
    destruct (is_mask o) eqn:Em; cbn; [discriminate|]. intros [= <-]. now constructor.
  - destruct (t_pc (r_th s t)) eqn:Ep; try discriminate;
    (destruct (exec c (r_st s) (r_th s t)) as [st' [th'|r]] eqn:Ee; intros [= <-];
     constructor; auto; congruence).
Qed.

(** ** Facts that hold in every schedule *)

(** The threads' positions and the trace agree. *)
Definition linked (s : rstate) : Prop := forall t,
  (t_pc (r_th s t) = PIdle -> forall g, inside (r_tr s) t g = false) /\
  (t_pc (r_th s t) <> PIdle -> In (t_op (r_th s t)) (calls (r_tr s)) /\
     is_mask (t_op (r_th s t)) = false /\
     forall g, inside (r_tr s) t g = (op_sig (t_op (r_th s t)) =? g)).

Lemma exec_op c st th st' th' : exec c st th = (st', inl th') -> t_op th' = t_op th.
Proof.
  unfold exec. destruct (t_pc th) as [| | | | | | | | | | | | |[|g l]| | | | |];
  repeat match goal with |- context [if ?b then _ else _] => destruct b end;
  repeat match goal with |- context [let '(_, _) := ?b in _] => destruct b end;
  try (intros [= <- <-]; reflexivity); try discriminate.
  all: destruct o; discriminate.
Qed.

Lemma exec_pc c st th st' th' : exec c st th = (st', inl th') ->
  t_pc th <> PIdle -> t_pc th' <> PIdle.
Proof.
  unfold exec, after_read, after_client.
  destruct (t_pc th) as [| | | | | | | | | | | | |[|g l]| | | | |];
  repeat match goal with |- context [if ?b then _ else _] => destruct b end;
  repeat match goal with |- context [let '(_, _) := ?b in _] => destruct b end;
  try (intros [= <- <-]; cbn; intros _; try discriminate;
       destruct (op_act (t_op th)); discriminate); try discriminate; try congruence.
  all: destruct o; discriminate.
Qed.

Lemma linked_reach c k0 s : reached c k0 s -> linked s.
Proof.
  revert s. apply reached_ind.
  - intros t. split; [reflexivity|]. intros H. now destruct H.
  - intros s t ch s' _ IH E t'. apply rstep_view in E. destruct E as [o Hi Hm|st' th' Hn He|st' r Hn He];
    cbn [r_th r_tr]; (destruct (Z.eqb_spec t' t) as [->|Hne];
      [rewrite upd_same | rewrite upd_other by exact Hne]).
    + cbn. rewrite Z.eqb_refl. split; [discriminate|]. intros _. repeat split; auto.
      apply in_or_app. right. now left.
    + cbn. replace (t =? t') with false by (symmetry; now apply Z.eqb_neq; auto).
      destruct (IH t') as [A B]. split; [exact A|]. intros H. destruct (B H) as (B1 & B2 & B3).
      repeat split; auto. apply in_or_app. now left.
    + pose proof (exec_op _ _ _ _ _ He) as Ho. rewrite Ho.
      destruct (IH t) as [A B]. split; intros H; [exfalso; eapply exec_pc; eassumption|].
      now apply B.
    + apply IH.
    + cbn. rewrite Z.eqb_refl. split; [reflexivity|]. intros H. now destruct H.
    + cbn. replace (t =? t') with false by (symmetry; now apply Z.eqb_neq; auto).
      apply IH.
Qed.

(** Fields of the table that no call changes, and what each call may change. *)
Record fixed (c : config) (k0 : kern) (s : rstate) : Prop := {
  F_init : inited (r_st s) = true;
  F_shoot : shoot (r_st s) = spec_shoot c;
  F_avoid : forall g, in_range g = true -> avoid (tab (r_st s) g) = is_avoid g;
  F_invalid : forall g, in_range g = true ->
    invalid (tab (r_st s) g) = negb (is_avoid g) && k_reject (c_os c) g;
  F_unman : forall g, managedb c g = false -> k_act (kn (r_st s)) g = k_act k0 g }.

(** Past the tests of a call the signal is managed, except on the way through the
    system's own sigaction. *)
Definition past (p : pc) : bool :=
  match p with PIdle | PEnter | PAvoid => false | _ => true end.
Definition checked (c : config) (s : rstate) : Prop := forall t,
  (past (t_pc (r_th s t)) = true -> managedb c (op_sig (t_op (r_th s t))) = true) /\
  (t_pc (r_th s t) = PAvoid -> in_range (op_sig (t_op (r_th s t))) = true /\
     is_avoid (op_sig (t_op (r_th s t))) = true /\ is_client (t_op (r_th s t)) = false).

Ltac exec_cases He :=
  unfold exec in He;
  match type of He with context [t_pc ?th] =>
    let p := fresh "p" in let Ep := fresh "Ep" in
    destruct (t_pc th) as [| | | | | | | | | | | | |[|dg dl]|dm dl| |dm| |] eqn:Ep end;
  repeat match type of He with context [if ?b then _ else _] =>
    let Eb := fresh "Eb" in destruct b eqn:Eb end;
  repeat match type of He with context [let '(_, _) := ?b in _] =>
    let k := fresh "k" in let w := fresh "w" in let Ek := fresh "Ek" in
    destruct b as [k w] eqn:Ek end;
  repeat match type of He with context [match ?w with Some _ => _ | None => _ end] =>
    is_var w; destruct w end;
  try discriminate He;
  try (injection He as <- <-).

Lemma k_sigaction_other o k sig a k' r g : real_sigaction o k sig a = (k', r) ->
  g <> sig -> k_act k' g = k_act k g.
Proof.
  unfold real_sigaction. destruct (negb (in_range sig) || k_reject o sig); [intros [= <- <-]; auto|].
  destruct a; [|intros [= <- <-]; auto].
  destruct ((sig =? SIGKILL) || (sig =? SIGSTOP)); intros [= <- <-]; auto.
  intros H. cbn. now rewrite upd_other.
Qed.

Lemma k_sigaction_unman c k sig a k' r g : real_sigaction (c_os c) k sig a = (k', r) ->
  managedb c g = false -> k_act k' g = k_act k g.
Proof.
  intros E Hg. destruct (Z.eq_dec g sig) as [->|Hne]; [|now apply (k_sigaction_other _ _ _ _ _ _ _ E)].
  revert E. unfold real_sigaction. destruct (negb (in_range sig) || k_reject (c_os c) sig) eqn:E1;
    [intros [= <- <-]; auto|].
  destruct a; [|intros [= <- <-]; auto].
  destruct ((sig =? SIGKILL) || (sig =? SIGSTOP)) eqn:E2; [intros [= <- <-]; auto|].
  exfalso. rewrite avoid_eq in E2. rewrite managedb_unfold, E2 in Hg.
  apply orb_false_iff in E1 as [E1 E3]. apply negb_false_iff in E1. rewrite E1, E3 in Hg. discriminate.
Qed.

Lemma exec_fixed c k0 st th st' w :
  (forall g, managedb c g = false -> k_act (kn st) g = k_act k0 g) ->
  exec c st th = (st', w) ->
  inited st' = inited st /\ shoot st' = shoot st /\
  (forall g, avoid (tab st' g) = avoid (tab st g)) /\
  (forall g, invalid (tab st' g) = invalid (tab st g)) /\
  (forall g, managedb c g = false -> k_act (kn st') g = k_act k0 g).
Proof.
  intros HU He. exec_cases He; cbn [inited shoot tab kn set_tab set_kn];
  repeat split; auto; intros g';
  try (intros Hm; match goal with E : real_sigaction _ _ _ _ = _ |- _ =>
         rewrite (k_sigaction_unman _ _ _ _ _ _ _ E Hm); now apply HU end);
  unfold upd; destruct (Z.eqb_spec g' (op_sig (t_op th))) as [->|]; reflexivity.
Qed.

Lemma fixed_reach c k0 s : 0 <= c_rtmin c -> reached c k0 s -> fixed c k0 s.
Proof.
  intros Hrt. revert s. apply reached_ind.
  - pose proof (boot_inv c k0 Hrt) as B. destruct B. constructor; assumption.
  - intros s t ch s' _ IH E. apply rstep_view in E.
    destruct E as [o Hi Hm|st' th' Hn He|st' r Hn He]; [destruct IH; constructor; assumption| |];
    destruct (exec_fixed c k0 _ _ _ _ (F_unman _ _ _ IH) He) as (A1 & A2 & A3 & A4 & A5);
    destruct IH as [B1 B2 B3 B4 B5]; constructor; cbn [r_st]; try congruence; auto; intros g Hg;
    rewrite ?A3, ?A4; auto.
Qed.

Lemma checked_reach c k0 s : 0 <= c_rtmin c -> reached c k0 s -> checked c s.
Proof.
  intros Hrt. revert s. apply reached_ind.
  - intros t. split; discriminate.
  - intros s t ch s' R IH E t'. pose proof (fixed_reach c k0 s Hrt R) as F.
    apply rstep_view in E.
    destruct E as [o Hi Hm|st' th' Hn He|st' r Hn He]; cbn [r_th];
    (destruct (Z.eqb_spec t' t) as [->|Hne]; [rewrite upd_same|rewrite upd_other by exact Hne; apply IH]).
    + cbn. split; discriminate.
    + rewrite (exec_op _ _ _ _ _ He). pose proof (IH t) as [A B].
      set (th := r_th s t) in *. set (sg := op_sig (t_op th)) in *.
      assert (M : in_range sg = true -> avoid (tab (r_st s) sg) = false ->
                  invalid (tab (r_st s) sg) = false -> managedb c sg = true).
      { intros X1 X2 X3. rewrite managedb_unfold, X1.
        rewrite (F_avoid _ _ _ F _ X1) in X2. rewrite (F_invalid _ _ _ F _ X1), X2 in X3.
        rewrite X2. cbn in X3. now rewrite X3. }
      destruct (past (t_pc th)) eqn:Ep.
      * split; [intros _; now apply A|]. intros Ha. exfalso. clear -He Ep Ha.
        exec_cases He; cbn in *; unfold after_read, after_client in *; try discriminate;
        destruct (op_act (t_op th)); discriminate.
      * exec_cases He; cbn in Ep; try discriminate; try congruence; fold sg in Eb, Eb0 |- *.
        -- rewrite !orb_false_iff, negb_false_iff in Eb0. destruct Eb0 as [[X1 X2] X3].
           cbn. split; [intros _; now apply M|discriminate].
        -- fold sg in Eb1. rewrite !orb_false_iff, negb_false_iff in Eb0. destruct Eb0 as [X1 X3].
           cbn. split; [discriminate|]. intros _. repeat split; auto.
           now rewrite <- (F_avoid _ _ _ F _ X1).
        -- fold sg in Eb1. rewrite !orb_false_iff, negb_false_iff in Eb0. destruct Eb0 as [X1 X3].
           cbn. split; [intros _; now apply M|]. discriminate.
        -- fold sg in Eb1. rewrite !orb_false_iff, negb_false_iff in Eb0. destruct Eb0 as [X1 X3].
           cbn. split; [intros _; now apply M|]. unfold after_read. destruct (op_act (t_op th)); discriminate.
    + cbn. split; discriminate.
Qed.

(** ** The kernel always has monitor's handler and adjusted flags *)
Definition adjusted (f : N) : Prop := exists r, f = adjust_saflags r.
Record control (c : config) (s : rstate) : Prop := {
  C_th : forall g, managedb c g = true -> sa_handler (kern_act (tab (r_st s) g)) = HMon;
  C_tf : forall g, managedb c g = true -> adjusted (sa_flags (kern_act (tab (r_st s) g)));
  C_kh : forall g, managedb c g = true -> sa_handler (k_act (kn (r_st s)) g) = HMon;
  C_kf : forall g, managedb c g = true -> adjusted (sa_flags (k_act (kn (r_st s)) g)) }.

Lemma boot_flags c k0 g : 0 <= c_rtmin c -> managedb c g = true ->
  adjusted (sa_flags (kern_act (tab (boot c k0) g))).
Proof. intros Hrt Hg. eexists. apply (I_flags _ _ _ _ (boot_inv c k0 Hrt) g Hg). Qed.

(** What the system's sigaction does to the kernel for a managed signal. *)
Lemma k_sigaction_set c k sig a k' r g : managedb c sig = true ->
  real_sigaction (c_os c) k sig (Some a) = (k', r) ->
  k_act k' g = if g =? sig then strip (c_os c) a else k_act k g.
Proof.
  intros Hm. rewrite managedb_unfold, !andb_true_iff, !negb_true_iff in Hm. destruct Hm as [[M1 M2] M3].
  unfold real_sigaction. rewrite M1, M3. cbn [negb orb]. rewrite avoid_eq, M2. intros [= <- <-].
  cbn. unfold upd. now destruct (g =? sig).
Qed.

Lemma k_sigaction_avoid c k sig a k' r : is_avoid sig = true ->
  real_sigaction (c_os c) k sig a = (k', r) -> k' = k.
Proof.
  intros Hm. unfold real_sigaction. destruct (negb (in_range sig) || k_reject (c_os c) sig); [intros [= <- <-]; auto|].
  destruct a; [|intros [= <- <-]; auto]. rewrite avoid_eq, Hm. intros [= <- <-]; auto.
Qed.

Lemma control_reach c k0 s : 0 <= c_rtmin c -> reached c k0 s -> control c s.
Proof.
  intros Hrt. revert s. apply reached_ind.
  - pose proof (boot_inv c k0 Hrt) as B. pose proof (fun g => boot_flags c k0 g Hrt) as BF.
    constructor; intros g Hg; change (r_st (rstart c k0)) with (boot c k0).
    + now apply (I_handler _ _ _ _ B).
    + now apply BF.
    + rewrite (I_kern _ _ _ _ B g Hg). now apply (I_handler _ _ _ _ B).
    + rewrite (I_kern _ _ _ _ B g Hg). now apply BF.
  - intros s t ch s' R IH E. pose proof (checked_reach c k0 s Hrt R t) as [K1 K2].
    apply rstep_view in E.
    assert (G : forall st' w, exec c (r_st s) (r_th s t) = (st', w) ->
      (forall g, managedb c g = true -> sa_handler (kern_act (tab st' g)) = HMon) /\
      (forall g, managedb c g = true -> adjusted (sa_flags (kern_act (tab st' g)))) /\
      (forall g, managedb c g = true -> sa_handler (k_act (kn st') g) = HMon) /\
      (forall g, managedb c g = true -> adjusted (sa_flags (k_act (kn st') g)))).
    { intros st' w He. destruct IH as [H1 H2 H3 H4].
      set (th := r_th s t) in *.
      exec_cases He; cbn [tab kn set_tab set_kn]; repeat split; auto; intros g' Hg';
      try match goal with E : real_sigaction _ _ _ (Some _) = _ |- _ =>
        rewrite (k_sigaction_set _ _ _ _ _ _ g' (K1 eq_refl) E);
        destruct (Z.eqb_spec g' (op_sig (t_op th))) as [->|]; cbn; auto end;
      try match goal with E : real_sigaction _ _ _ (op_act _) = _ |- _ =>
        rewrite (k_sigaction_avoid _ _ _ _ _ _ (proj1 (proj2 (K2 eq_refl))) E); auto end;
      unfold upd; destruct (Z.eqb_spec g' (op_sig (t_op th))) as [->|]; cbn; auto.
      now eexists. }
    destruct E as [o Hi Hm|st' th' Hn He|st' r Hn He]; [destruct IH; constructor; assumption| |];
    destruct (G _ _ He) as (A1 & A2 & A3 & A4); now constructor.
Qed.

(** ** The shootdown signal is in the installed mask when nobody is in a call *)
Definition will_add (sd g : Z) (th : thread) : Prop :=
  op_sig (t_op th) = g /\
  match t_pc th with
  | PAdj | PDel _ | PDelSt _ _ => True
  | PAdjSt m => mem sd m = true
  | _ => False
  end.
Definition will_call (g : Z) (th : thread) : Prop :=
  op_sig (t_op th) = g /\
  match t_pc th with
  | PAdj | PDel _ | PDelSt _ _ | PAdjSt _ | PSys => True
  | _ => False
  end.
Definition masked (c : config) (s : rstate) : Prop := forall g, managedb c g = true ->
  (forall t, op_sig (t_op (r_th s t)) = g ->
     match t_pc (r_th s t) with PAdjSt m => mem (spec_shoot c) m = true | _ => True end) /\
  (mem (spec_shoot c) (sa_mask (kern_act (tab (r_st s) g))) = true \/
   exists t, will_add (spec_shoot c) g (r_th s t)) /\
  (mem (spec_shoot c) (sa_mask (k_act (kn (r_st s)) g)) =
     negb (mem (spec_shoot c) (k_noblock (c_os c))) \/
   exists t, will_call g (r_th s t)).

Lemma masked_reach c k0 s : 0 <= c_rtmin c -> reached c k0 s -> masked c s.
Proof.
  intros Hrt. assert (SD : 1 <= spec_shoot c) by apply (spec_shoot_range c).
  revert s. apply reached_ind.
  - pose proof (boot_inv c k0 Hrt) as B. intros g Hg. change (r_st (rstart c k0)) with (boot c k0).
    assert (M : mem (spec_shoot c) (sa_mask (kern_act (tab (boot c k0) g))) = true).
    { rewrite (I_mask _ _ _ _ B g (spec_shoot c) Hg (in_range_shoot c)), Z.eqb_refl. reflexivity. }
    split; [intros t _; exact I|]. split; [now left|]. left.
    rewrite (I_kern _ _ _ _ B g Hg). unfold strip. cbn [sa_mask]. now rewrite mem_ldiff, M.
  - intros s t ch s' R IH E g Hg. pose proof (checked_reach c k0 s Hrt R t) as [K1 K2].
    pose proof (fixed_reach c k0 s Hrt R) as F.
    destruct (IH g Hg) as (I0 & I1 & I2). apply rstep_view in E.
    assert (OT : forall P : thread -> Prop, forall th',
      ~ P (r_th s t) -> (exists u, P (r_th s u)) -> exists u, P (upd (r_th s) t th' u)).
    { intros P th' N [u Hu]. exists u. rewrite upd_other; auto. intros ->. contradiction. }
    destruct E as [o Hi Hm|st' th' Hn He|st' r Hn He]; cbn [r_th r_st].
    + split; [|split].
      * intros u. destruct (Z.eqb_spec u t) as [->|Hne]; [rewrite upd_same; intros _; exact I|rewrite upd_other by exact Hne; exact (I0 u)].
      * destruct I1 as [I1|I1]; [now left|right]. apply OT; [|exact I1].
        unfold will_add. rewrite Hi. tauto.
      * destruct I2 as [I2|I2]; [now left|right]. apply OT; [|exact I2].
        unfold will_call. rewrite Hi. tauto.
    + assert (MINE : forall P : thread -> Prop, P th' -> exists u, P (upd (r_th s) t th' u)).
      { intros P HP. exists t. now rewrite upd_same. }
      assert (OTH : forall P : thread -> Prop, ~ P (r_th s t) -> (exists u, P (r_th s u)) ->
                 exists u, P (upd (r_th s) t th' u)).
      { intros P N [u Hu]. exists u. rewrite upd_other; auto. intros ->. contradiction. }
      pose proof (I0 t) as I0t.
      split; [|split].
      * intros u. destruct (Z.eqb_spec u t) as [->|Hne]; [rewrite upd_same|rewrite upd_other by exact Hne; exact (I0 u)].
        rewrite (exec_op _ _ _ _ _ He). intros Hs. clear OT MINE OTH I0 I1 I2.
        set (th := r_th s t) in *. exec_cases He; cbn; auto;
          try (unfold after_read, after_client; destruct (op_act _); exact I).
        unfold adjust_samask. rewrite (F_shoot _ _ _ F), mem_sadd, Z.eqb_refl by assumption. reflexivity.
      * set (th := r_th s t) in *. destruct (Z.eq_dec (op_sig (t_op th)) g) as [Eg|Eg].
        -- destruct (t_pc th) as [| | | | | | | | | | | | |l|m l| |m| |] eqn:Ep;
           try (right; apply MINE; unfold will_add; rewrite (exec_op _ _ _ _ _ He);
                split; [exact Eg|]; unfold exec in He; rewrite Ep in He; injection He as <- <-;
                cbn; destruct (is_client (t_op th)); exact I);
           try (destruct I1 as [I1|I1];
                [left; rewrite <- I1; f_equal; clear MINE OTH; unfold exec in He; rewrite Ep in He
                |right; apply OTH; [unfold will_add; rewrite Ep; tauto|exact I1]]).
           all: try (repeat match type of He with context [if ?b then _ else _] => destruct b end;
             repeat match type of He with context [let '(_, _) := ?b in _] => destruct b as [? [?|]] end;
             try discriminate He; injection He as <- <-; cbn [tab set_tab set_kn]; unfold upd;
             rewrite ?Eg, ?Z.eqb_refl; reflexivity).
           ++ (* PDel *) right. apply MINE. unfold will_add. rewrite (exec_op _ _ _ _ _ He).
              split; [exact Eg|]. unfold exec in He; rewrite Ep in He.
              destruct l; [|destruct (kept_open _ _)]; injection He as <- <-; exact I.
           ++ (* PAdj *) right. apply MINE. unfold will_add. rewrite (exec_op _ _ _ _ _ He).
              split; [exact Eg|]. unfold exec in He; rewrite Ep in He. injection He as <- <-. cbn.
              unfold adjust_samask. rewrite (F_shoot _ _ _ F), mem_sadd, Z.eqb_refl by assumption. reflexivity.
           ++ (* PAdjSt *) left. unfold exec in He; rewrite Ep in He. injection He as <- <-.
              cbn. rewrite Eg, upd_same. cbn. now apply I0t.
        -- destruct I1 as [I1|I1]; [left|right; apply OTH; [unfold will_add; tauto|exact I1]].
           rewrite <- I1. f_equal. clear -He Eg.
           assert (tab st' g = tab (r_st s) g) as ->; [|reflexivity].
           exec_cases He; cbn [tab set_tab set_kn]; auto; rewrite upd_other; auto.
      * set (th := r_th s t) in *. destruct (Z.eq_dec (op_sig (t_op th)) g) as [Eg|Eg].
        -- destruct (t_pc th) as [| | | | | | | | | | | | |l|m l| |m| |] eqn:Ep;
           try (right; apply MINE; unfold will_call; rewrite (exec_op _ _ _ _ _ He);
                split; [exact Eg|]; unfold exec in He; rewrite Ep in He; injection He as <- <-;
                cbn; destruct (is_client (t_op th)); exact I);
           try (destruct I2 as [I2|I2];
                [left; rewrite <- I2; f_equal; clear MINE OTH; unfold exec in He; rewrite Ep in He
                |right; apply OTH; [unfold will_call; rewrite Ep; tauto|exact I2]]).
           all: try (repeat match type of He with context [if ?b then _ else _] => destruct b end;
             try discriminate He; injection He as <- <-; reflexivity).
           ++ (* PAvoid *) destruct (real_sigaction _ _ _ _) as [k [x|]] eqn:Ek; discriminate He.
           ++ (* PDel *) right. apply MINE. unfold will_call. rewrite (exec_op _ _ _ _ _ He).
              split; [exact Eg|]. unfold exec in He; rewrite Ep in He.
              destruct l; [|destruct (kept_open _ _)]; injection He as <- <-; exact I.
           ++ (* PSys *) destruct I1 as [I1|[u Hu]].
              ** left. unfold exec in He. rewrite Ep in He.
                 destruct (real_sigaction _ _ _ _) as [k w] eqn:Ek. injection He as <- <-. cbn.
                 rewrite (k_sigaction_set _ _ _ _ _ _ g (K1 eq_refl) Ek), Eg, Z.eqb_refl. cbn.
                 now rewrite mem_ldiff, I1.
              ** right. exists u. destruct (Z.eqb_spec u t) as [->|Hne].
                 --- exfalso. unfold will_add in Hu. fold th in Hu. rewrite Ep in Hu. tauto.
                 --- rewrite upd_other by exact Hne. destruct Hu as [U1 U2]. split; [exact U1|].
                     destruct (t_pc (r_th s u)); auto.
        -- destruct I2 as [I2|I2]; [left|right; apply OTH; [unfold will_call; tauto|exact I2]].
           rewrite <- I2. f_equal. f_equal.
           exec_cases He; cbn [kn set_tab set_kn]; auto;
           eapply k_sigaction_other; eauto.
    + set (th := r_th s t) in *.
      assert (OTH : forall P : thread -> Prop, ~ P th -> (exists u, P (r_th s u)) ->
                 exists u, P (upd (r_th s) t (mkthread PIdle (t_op th) act0) u)).
      { intros P N [u Hu]. exists u. rewrite upd_other; auto. intros ->. contradiction. }
      assert (W : tab st' = tab (r_st s) /\ kn st' = kn (r_st s) /\ ~ will_call g th /\ ~ will_add (spec_shoot c) g th).
      { unfold will_call, will_add. exec_cases He; cbn [tab kn set_tab set_kn]; repeat split; auto; try tauto;
        eapply k_sigaction_avoid; eauto; apply K2; reflexivity. }
      destruct W as (W1 & W2 & W3 & W4). rewrite W1, W2. split; [|split].
      * intros u. destruct (Z.eqb_spec u t) as [->|Hne]; [rewrite upd_same; intros _; exact I|rewrite upd_other by exact Hne; exact (I0 u)].
      * destruct I1 as [I1|I1]; [now left|right; now apply OTH].
      * destruct I2 as [I2|I2]; [now left|right; now apply OTH].
Qed.
