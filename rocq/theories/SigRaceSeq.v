(** Concurrent sigaction calls: what is reported, and calls that do not overlap. *)
From Verif Require Import SignalModel SignalSpec SignalProofs SignalProofs2.
From Verif Require Import SigRaceModel SigRaceSpec SigRaceProofs.

(** ** Every field in force or reported was asked for *)
Definition askedf {A} (k0 : kern) (h : list op) (g : Z) (f : act -> A) (x : A) : Prop :=
  exists a, asked k0 h g a /\ x = f a.
Definition mixed (k0 : kern) (h : list op) (g : Z) (a : act) : Prop :=
  askedf k0 h g sa_handler (sa_handler a) /\ askedf k0 h g sa_flags (sa_flags a) /\
  askedf k0 h g sa_mask (sa_mask a).

Lemma askedf_mono {A} k0 h h' g (f : act -> A) x :
  (forall o, In o h -> In o h') -> askedf k0 h g f x -> askedf k0 h' g f x.
Proof.
  intros H (a & [Ha|(o & Ho & Hr)] & E); exists a; (split; [|exact E]); [now left|right; eauto].
Qed.
Lemma mixed_mono k0 h h' g a : (forall o, In o h -> In o h') -> mixed k0 h g a -> mixed k0 h' g a.
Proof. intros H (A & B & C). repeat split; eapply askedf_mono; eauto. Qed.

(** What a thread has read so far. *)
Definition read_ok (k0 : kern) (h : list op) (th : thread) : Prop :=
  let g := op_sig (t_op th) in
  match t_pc th with
  | PRdF => askedf k0 h g sa_handler (sa_handler (t_old th))
  | PRdM => askedf k0 h g sa_handler (sa_handler (t_old th)) /\
            askedf k0 h g sa_flags (sa_flags (t_old th))
  | PWrH | PWrF | PWrM | PKF | PKM | PDel _ | PDelSt _ _ | PAdj | PAdjSt _ | PSys | PRet =>
      op_want (t_op th) = true -> mixed k0 h g (t_old th)
  | _ => True
  end.

Definition told_ok (c : config) (k0 : kern) (h : list op) (e : event) : Prop :=
  match e with
  | ERet _ o r => managedb c (op_sig o) = true ->
      (forall x, r_old r = Some x -> mixed k0 h (op_sig o) x) /\
      (forall x, r_hand r = Some x -> askedf k0 h (op_sig o) sa_handler x)
  | ECall _ _ => True
  end.

Record parts (c : config) (k0 : kern) (s : rstate) : Prop := {
  P_appl : forall g, managedb c g = true -> mixed k0 (calls (r_tr s)) g (appl_act (tab (r_st s) g));
  P_read : forall t, read_ok k0 (calls (r_tr s)) (r_th s t);
  P_told : forall e, In e (r_tr s) -> told_ok c k0 (calls (r_tr s)) e }.

Lemma read_ok_mono k0 h h' th : (forall o, In o h -> In o h') -> read_ok k0 h th -> read_ok k0 h' th.
Proof.
  intros H. pose proof (fun a => mixed_mono k0 h h' (op_sig (t_op th)) a H) as M.
  pose proof (fun f x => askedf_mono (A := handler) k0 h h' (op_sig (t_op th)) f x H) as M1.
  pose proof (fun f x => askedf_mono (A := N) k0 h h' (op_sig (t_op th)) f x H) as M2.
  unfold read_ok. destruct (t_pc th); auto. intros [A B]. split; auto.
Qed.
Lemma told_ok_mono c k0 h h' e : (forall o, In o h -> In o h') -> told_ok c k0 h e -> told_ok c k0 h' e.
Proof.
  intros H. destruct e as [|t o r]; cbn; auto. intros T Hm. destruct (T Hm) as [A B].
  split; intros x Hx; [eapply mixed_mono|eapply askedf_mono]; eauto.
Qed.

(** A request by a thread that is past the tests. *)
Lemma request_of o g a : is_mask o = false -> is_client o = false -> op_sig o = g ->
  op_act o = Some a -> app_request o g = Some a.
Proof.
  destruct o; cbn; intros ? ? <- E; try discriminate.
  - rewrite Z.eqb_refl. now rewrite E.
  - rewrite Z.eqb_refl. exact E.
Qed.

(** Positions after the tests are right for the kind of call. *)
Definition kind_ok (th : thread) : Prop :=
  match t_pc th with
  | PWrH | PWrF | PWrM | PDel _ | PDelSt _ _ =>
      is_client (t_op th) = false /\ op_act (t_op th) <> None
  | PRdH | PRdF | PRdM => is_client (t_op th) = false
  | PKF | PKM | PAdj | PAdjSt _ | PSys => op_act (t_op th) <> None
  | POpen | PClient => is_client (t_op th) = true
  | _ => True
  end.

Lemma exec_kind c st th st' th' : exec c st th = (st', inl th') -> kind_ok th -> kind_ok th'.
Proof.
  unfold kind_ok. intros He. rewrite (exec_op _ _ _ _ _ He). revert He. intros He.
  exec_cases He; cbn; auto; intros K; unfold after_read, after_client;
  try (destruct (op_act (t_op th)) eqn:Ea; auto; try (split; [tauto|]); try discriminate; tauto);
  try tauto.
Qed.

Lemma kind_reach c k0 s : reached c k0 s -> forall t, kind_ok (r_th s t).
Proof.
  revert s. apply (reached_ind c k0 (fun s => forall t, kind_ok (r_th s t))).
  - intros t. exact I.
  - intros s t ch s' _ IH E t'. apply rstep_view in E.
    destruct E as [o Hi Hm|st' th' Hn He|st' r Hn He]; cbn [r_th];
    (destruct (Z.eqb_spec t' t) as [->|Hne]; [rewrite upd_same|rewrite upd_other by exact Hne; apply IH]);
    try exact I. exact (exec_kind _ _ _ _ _ He (IH t)).
Qed.

Lemma parts_reach c k0 s : 0 <= c_rtmin c -> reached c k0 s -> parts c k0 s.
Proof.
  intros Hrt. revert s. apply reached_ind.
  - pose proof (boot_inv c k0 Hrt) as B. constructor.
    + intros g Hg. change (r_st (rstart c k0)) with (boot c k0).
      rewrite (I_appl _ _ _ _ B g Hg). cbn. repeat split; exists (k_act k0 g); (split; [now left|reflexivity]).
    + intros t. exact I.
    + intros e [].
  - intros s t ch s' R [H1 H2 H3] E.
    pose proof (checked_reach c k0 s Hrt R t) as [K1 K2].
    pose proof (kind_reach c k0 s R t) as KD.
    pose proof (fixed_reach c k0 s Hrt R) as F.
    pose proof (linked_reach c k0 s R t) as [_ LK].
    apply rstep_view in E.
    destruct E as [o Hi Hm|st' th' Hn He|st' r Hn He].
    + assert (MO : forall x, In x (calls (r_tr s)) -> In x (calls (ECall t o :: r_tr s))).
      { intros x Hx. cbn. apply in_or_app. now left. }
      constructor; cbn [r_st r_th r_tr].
      * intros g Hg. eapply mixed_mono; [exact MO|auto].
      * intros u. destruct (Z.eqb_spec u t) as [->|Hne]; [rewrite upd_same; exact I|rewrite upd_other by exact Hne].
        eapply read_ok_mono; [exact MO|auto].
      * intros e [<-|He]; [exact I|]. eapply told_ok_mono; [exact MO|auto].
    + destruct (LK Hn) as (L1 & L2 & _). set (th := r_th s t) in *.
      assert (RQ : is_client (t_op th) = false -> op_act (t_op th) <> None ->
        asked k0 (calls (r_tr s)) (op_sig (t_op th)) (the_act (t_op th))).
      { intros A B. right. exists (t_op th). split; [exact L1|]. unfold the_act.
        destruct (op_act (t_op th)) eqn:Ea; [|congruence]. now apply request_of. }
      constructor; cbn [r_st r_th r_tr]; [| |exact H3].
      * intros g Hg. destruct (Z.eq_dec g (op_sig (t_op th))) as [Eg|Eg].
        -- specialize (H1 g Hg). destruct H1 as (A1 & A2 & A3).
           unfold kind_ok in KD.
           exec_cases He; cbn [tab set_tab set_kn]; subst g; rewrite ?upd_same; cbn [appl_act set_open set_client set_appl set_kern];
             try (repeat split; assumption);
             (repeat split; cbn; try assumption; exists (the_act (t_op th)); (split; [now apply RQ|reflexivity])).
        -- assert (tab st' g = tab (r_st s) g) as ->; [|now apply H1].
           exec_cases He; cbn [tab set_tab set_kn]; auto; rewrite upd_other; auto.
      * intros u. destruct (Z.eqb_spec u t) as [->|Hne]; [rewrite upd_same|rewrite upd_other by exact Hne; apply H2].
        unfold read_ok. rewrite (exec_op _ _ _ _ _ He).
        specialize (H2 t). fold th in H2. unfold read_ok in H2. unfold kind_ok in KD.
        exec_cases He; cbn [t_pc t_old]; try exact I; try exact H2;
          try (destruct (H1 _ (K1 eq_refl)) as (A1 & A2 & A3));
          unfold after_read, after_client;
          try (destruct (op_act (t_op th)) eqn:Ea); cbn;
          try (intros Hw; congruence); try exact H2; try assumption; try (split; assumption);
          try (intros _; destruct H2; repeat split; assumption);
          try (intros Hw; destruct (t_op th); cbn in Hw, KD; discriminate);
          try (destruct (is_client (t_op th)); exact H2).
        all: idtac.
    + set (th := r_th s t) in *. constructor; cbn [r_st r_th r_tr calls].
      * intros g Hg. assert (tab st' = tab (r_st s)) as ->; [|now apply H1].
        exec_cases He; reflexivity.
      * intros u. destruct (Z.eqb_spec u t) as [->|Hne]; [rewrite upd_same; exact I|rewrite upd_other by exact Hne; apply H2].
      * intros e [<-|HE]; [|now apply H3]. intros Hm.
        specialize (H2 t). fold th in H2. unfold read_ok in H2.
        assert (MG : in_range (op_sig (t_op th)) = true /\ avoid (tab (r_st s) (op_sig (t_op th))) = false /\
                     invalid (tab (r_st s) (op_sig (t_op th))) = false /\ is_avoid (op_sig (t_op th)) = false).
        { cbn in Hm. pose proof Hm as Hm'. rewrite managedb_unfold, !andb_true_iff, !negb_true_iff in Hm'.
          destruct Hm' as [[M1 M2] M3]. rewrite (F_avoid _ _ _ F _ M1), (F_invalid _ _ _ F _ M1), M2, M3. auto. }
        destruct MG as (M1 & M2 & M3 & M4).
        exec_cases He; try (rewrite M1, ?M2, M3 in *; discriminate);
          try (destruct (K2 eq_refl) as (_ & X & _); congruence).
        unfold result. destruct (t_op th) as [g a w|g h|g h a|]; cbn in *.
        -- split; [|discriminate]. destruct w; [|discriminate]. intros x [= <-]. now apply H2.
        -- split; [discriminate|]. intros x [= <-]. now apply H2.
        -- split; discriminate.
        -- split; discriminate.
Qed.

(** ** Calls for a signal that do not overlap *)
Definition away (t : Z) (m : list event) : Prop := forall e, In e m -> by_thread t e = false.

Lemma calls_app m e : calls (m ++ e) = calls e ++ calls m.
Proof.
  induction m as [|[t o|t o r] m IH]; cbn; [now rewrite app_nil_r| |exact IH].
  now rewrite IH, app_assoc.
Qed.

Lemma inside_away tr t g m : away t m -> inside (m ++ tr) t g = inside tr t g.
Proof.
  induction m as [|e m IH]; intros A; [reflexivity|]. assert (A' : away t m) by (intros x Hx; apply A; now right).
  specialize (A e (or_introl eq_refl)). destruct e; cbn in *; rewrite A; auto.
Qed.

(** While t is inside a call for g nobody else makes one. *)
Lemma window g t o e0 : op_sig o = g -> forall m, apart (m ++ ECall t o :: e0) g -> away t m ->
  forall x, In x (calls m) -> op_sig x <> g.
Proof.
  intros Ho m. induction m as [|e m IH]; intros A W x Hx; [destruct Hx|].
  assert (W' : away t m) by (intros y Hy; apply W; now right).
  destruct e as [u o'|u o' r]; cbn in *.
  - destruct A as [A1 A2]. apply in_app_or in Hx. destruct Hx as [Hx|[<-|[]]]; [now apply (IH A2)|].
    intros E. specialize (A1 E t). rewrite inside_away in A1 by assumption. cbn in A1.
    rewrite Z.eqb_refl, Ho, Z.eqb_refl in A1. discriminate.
  - now apply (IH A).
Qed.

Lemma last_app_app h1 h2 g d : last_app (h1 ++ h2) g d = last_app h2 g (last_app h1 g d).
Proof. revert d. induction h1 as [|o h1 IH]; intros d; cbn; auto. Qed.
Lemma last_app_other h g d : (forall x, In x h -> op_sig x <> g) -> last_app h g d = d.
Proof.
  revert d. induction h as [|o h IH]; intros d H; [reflexivity|]. cbn.
  assert (E : app_request o g = None).
  { specialize (H o (or_introl eq_refl)). destruct o as [s [a|] w|s hh|s hh a|]; cbn in *; auto;
    destruct (Z.eqb_spec s g); congruence. }
  rewrite E. apply IH. intros x Hx. apply H. now right.
Qed.

Lemma one_inside tr g t u : apart tr g -> inside tr t g = true -> inside tr u g = true -> t = u.
Proof.
  induction tr as [|e tr IH]; intros A; [discriminate|]. destruct e as [v o|v o r]; cbn in *.
  - destruct A as [A1 A2]. destruct (Z.eqb_spec v t) as [Evt|]; destruct (Z.eqb_spec v u) as [Evu|]; intros B C.
    + congruence.
    + apply Z.eqb_eq in B. specialize (A1 B u). congruence.
    + apply Z.eqb_eq in C. specialize (A1 C t). congruence.
    + auto.
  - destruct (Z.eqb_spec v t); destruct (Z.eqb_spec v u); try discriminate. auto.
Qed.

(** The trace from a thread's current call on. *)
Definition opened (s : rstate) : Prop := forall t, t_pc (r_th s t) <> PIdle ->
  exists m e0, r_tr s = m ++ ECall t (t_op (r_th s t)) :: e0 /\ away t m.

Lemma opened_reach c k0 s : reached c k0 s -> opened s.
Proof.
  revert s. apply reached_ind.
  - intros t H. now destruct H.
  - intros s t ch s' _ IH E t' Hp. apply rstep_view in E.
    destruct E as [o Hi Hm|st' th' Hn He|st' r Hn He]; cbn [r_th r_tr] in *;
    (destruct (Z.eqb_spec t' t) as [->|Hne]; [rewrite upd_same in *|rewrite upd_other in * by exact Hne]).
    + exists [], (r_tr s). split; [reflexivity|]. intros e [].
    + destruct (IH t' Hp) as (m & e0 & E & W). exists (ECall t o :: m), e0. rewrite E. split; [reflexivity|].
      intros e [<-|H]; [cbn; now apply Z.eqb_neq; auto|auto].
    + rewrite (exec_op _ _ _ _ _ He). now apply IH.
    + now apply IH.
    + now destruct Hp.
    + destruct (IH t' Hp) as (m & e0 & E & W). exists (ERet t (t_op (r_th s t)) r :: m), e0. rewrite E. split; [reflexivity|].
      intros e [<-|H]; [cbn; now apply Z.eqb_neq; auto|auto].
Qed.

Lemma opened_unique t o o' e0 e0' : forall m m', m ++ ECall t o :: e0 = m' ++ ECall t o' :: e0' ->
  away t m -> away t m' -> m = m' /\ o = o' /\ e0 = e0'.
Proof.
  induction m as [|e m IH]; intros [|e' m'] E W W'; cbn in E.
  - injection E as -> ->. auto.
  - injection E as <- E. specialize (W' _ (or_introl eq_refl)). cbn in W'. rewrite Z.eqb_refl in W'. discriminate.
  - injection E as -> E. specialize (W _ (or_introl eq_refl)). cbn in W. rewrite Z.eqb_refl in W. discriminate.
  - injection E as <- E. destruct (IH m' E) as (-> & -> & ->); auto.
    + intros x Hx. apply W. now right.
    + intros x Hx. apply W'. now right.
Qed.

(** What the table holds for g while t is inside a call for it.  [L]: the action
    in force before the call. *)
Definition stage (o : op) (p : pc) (L ap old : act) : Prop :=
  let a := the_act o in
  match p with
  | PIdle => False
  | PEnter | PAvoid | POpen | PClient | PRdH => ap = L
  | PRdF => ap = L /\ sa_handler old = sa_handler L
  | PRdM => ap = L /\ sa_handler old = sa_handler L /\ sa_flags old = sa_flags L
  | PWrH => ap = L /\ (op_want o = true -> old = L)
  | PWrF => ap = set_h (sa_handler a) L /\ (op_want o = true -> old = L)
  | PWrM => ap = set_f (sa_flags a) (set_h (sa_handler a) L) /\ (op_want o = true -> old = L)
  | PKF | PKM | PDel _ | PDelSt _ _ | PAdj | PAdjSt _ | PSys =>
      ap = (if is_client o then L else a) /\ (op_want o = true -> old = L)
  | PRet => ap = (match op_act o with None => L | Some x => if is_client o then L else x end) /\
            (op_want o = true -> old = L)
  end.

Lemma act_ext a b : sa_handler a = sa_handler b -> sa_flags a = sa_flags b -> sa_mask a = sa_mask b -> a = b.
Proof. destruct a, b; cbn; congruence. Qed.

Lemma exec_stage c st th st' th' L g : exec c st th = (st', inl th') -> op_sig (t_op th) = g ->
  kind_ok th ->
  stage (t_op th) (t_pc th) L (appl_act (tab st g)) (t_old th) ->
  stage (t_op th) (t_pc th') L (appl_act (tab st' g)) (t_old th').
Proof.
  intros He <- KD. unfold stage at 1. unfold kind_ok in KD. intros S.
  exec_cases He; cbn [t_pc t_old tab set_tab set_kn]; rewrite ?upd_same; unfold after_read, after_client in *;
  try (destruct (op_act (t_op th)) eqn:Ea); cbn [stage appl_act set_open set_client set_appl set_kern];
  try contradiction; try exact S; try (destruct (is_client (t_op th)) eqn:Ec; cbn in *);
  rewrite ?Ea, ?Ec in *;
  try (destruct KD; congruence);
  try (split; [congruence|intros Hw; destruct (t_op th); cbn in Hw, Eb1, Ec; congruence]).
  all: try (destruct S as (S1 & S2 & S3)); try (destruct S as (S1 & S2)); subst;
    try (repeat split; auto; fail).
  all: try (repeat split; auto; try (intros Hw); apply act_ext; cbn; congruence).
  all: try (rewrite S; repeat split; auto; try congruence; fail).
  all: try (split; [assumption|intros _; apply act_ext; cbn; congruence]).
  1,2: split; [reflexivity|intros Hw; destruct (t_op th); discriminate].
  1,2: rewrite S1; split; [apply act_ext; reflexivity|exact S2].
  rewrite S1. split; [unfold the_act; now rewrite Ea|exact S2].
Qed.

(** The trace before a thread's most recent event. *)
Fixpoint before (tr : list event) (t : Z) : list event :=
  match tr with
  | [] => []
  | e :: r => if by_thread t e then r else before r t
  end.

Lemma before_away t o e0 m : away t m -> before (m ++ ECall t o :: e0) t = e0.
Proof.
  induction m as [|e m IH]; intros W; cbn; [now rewrite Z.eqb_refl|].
  rewrite (W e (or_introl eq_refl)). apply IH. intros x Hx. apply W. now right.
Qed.

Fixpoint answered (c : config) (k0 : kern) (g : Z) (tr : list event) : Prop :=
  match tr with
  | [] => True
  | ERet t o r :: e1 =>
      (op_sig o = g -> r = answer_after c k0 (calls (before e1 t)) o) /\ answered c k0 g e1
  | ECall _ _ :: e1 => answered c k0 g e1
  end.

Record inseq (c : config) (k0 : kern) (g : Z) (s : rstate) : Prop := {
  Q_quiet : managedb c g = true -> quiet (r_tr s) g ->
    appl_act (tab (r_st s) g) = last_app (calls (r_tr s)) g (k_act k0 g);
  Q_stage : managedb c g = true -> forall t, inside (r_tr s) t g = true ->
    stage (t_op (r_th s t)) (t_pc (r_th s t))
      (last_app (calls (before (r_tr s) t)) g (k_act k0 g))
      (appl_act (tab (r_st s) g)) (t_old (r_th s t));
  Q_ans : answered c k0 g (r_tr s) }.

Lemma last_app_window tr t o m e0 g d : tr = m ++ ECall t o :: e0 -> op_sig o = g -> apart tr g ->
  away t m ->
  last_app (calls tr) g d =
  match app_request o g with Some a => a | None => last_app (calls e0) g d end.
Proof.
  intros -> Ho A W. rewrite calls_app. cbn. rewrite !last_app_app.
  rewrite (last_app_other (calls m)); [reflexivity|]. exact (window g t o e0 Ho m A W).
Qed.

Lemma apart_tail e tr g : apart (e :: tr) g -> apart tr g.
Proof. destruct e; cbn; tauto. Qed.

Lemma app_request_sig o g a : app_request o g = Some a -> op_sig o = g.
Proof.
  destruct o as [s [x|] w|s h|s h x|]; cbn; try discriminate; destruct (Z.eqb_spec s g); congruence.
Qed.

(** The answers of calls that are turned away or go to the system. *)
Lemma answer_turned c k0 s th st' r :
  fixed c k0 s -> kind_ok th -> (t_pc th = PAvoid -> in_range (op_sig (t_op th)) = true /\
    is_avoid (op_sig (t_op th)) = true /\ is_client (t_op th) = false) ->
  is_mask (t_op th) = false ->
  exec c (r_st s) th = (st', inr r) -> t_pc th <> PRet ->
  forall h, r = answer_after c k0 h (t_op th).
Proof.
  intros F KD K2 Hm He Hp h. remember (op_sig (t_op th)) as g eqn:Hg.
  exec_cases He; try congruence; try rewrite <- Hg in Eb0; try rewrite <- Hg in Ek.
  - (* client *) destruct (t_op th) as [| |x y z|]; try discriminate. cbn. cbn in Hg. subst g.
    replace (managedb c x) with false; [reflexivity|]. symmetry. rewrite managedb_unfold.
    destruct (in_range x) eqn:Er; [|reflexivity]. cbn in Eb0.
    rewrite (F_avoid _ _ _ F _ Er), (F_invalid _ _ _ F _ Er) in Eb0.
    destruct (is_avoid x), (k_reject (c_os c) x); auto.
  - (* application *) assert (MB : managedb c g = false /\ (in_range g = true -> is_avoid g = false /\ k_reject (c_os c) g = true)).
    { rewrite managedb_unfold. destruct (in_range g) eqn:Er; [|split; [reflexivity|discriminate]]. cbn in Eb0.
      rewrite (F_invalid _ _ _ F _ Er) in Eb0. destruct (is_avoid g), (k_reject (c_os c) g); try discriminate. auto. }
    destruct MB as [MB1 MB2].
    destruct (t_op th) as [x y z|x y|x y z|]; try discriminate; cbn in Hg; subst g; cbn.
    + unfold spec_sigaction. rewrite avoid_eq. change ((1 <=? x) && (x <? 65)) with ((1 <=? x) && (x <? NSIG)).
      destruct (in_range x) eqn:Er.
      * destruct (MB2 eq_refl) as [-> ->].
        replace ((1 <=? x) && (x <? NSIG)) with true; [reflexivity|]. unfold in_range in Er. lia.
      * replace ((1 <=? x) && (x <? NSIG)) with false; [reflexivity|]. unfold in_range in Er. lia.
    + unfold spec_signal. now rewrite MB1.
  - destruct (K2 eq_refl) as (A1 & A2 & A3).
    assert (U : managedb c g = false) by (rewrite managedb_unfold, A1, A2; reflexivity).
    unfold real_sigaction in Ek. rewrite avoid_eq in Ek. rewrite A1, A2 in Ek. cbn in Ek.
    destruct (k_reject (c_os c) g) eqn:Er; [discriminate|].
    destruct (op_act (t_op th)) eqn:Ea; [discriminate|]. injection Ek as <- <-.
    rewrite (F_unman _ _ _ F _ U).
    destruct (t_op th) as [x y z|x y|x y z|]; try discriminate; cbn in Hg, Ea; subst g; cbn. subst y.
    unfold spec_sigaction. rewrite avoid_eq, A2, Er. 
    replace ((1 <=? x) && (x <? 65)) with true; [reflexivity|]. unfold in_range, NSIG in A1. lia.
  - destruct (K2 eq_refl) as (A1 & A2 & A3).
    assert (U : managedb c g = false) by (rewrite managedb_unfold, A1, A2; reflexivity).
    unfold real_sigaction in Ek. rewrite avoid_eq in Ek. rewrite A1, A2 in Ek. cbn in Ek.
    destruct (t_op th) as [x y z|x y|x y z|]; try discriminate; cbn in Hg; subst g; cbn.
    + unfold spec_sigaction. rewrite avoid_eq, A2.
      replace ((1 <=? x) && (x <? 65)) with true by (unfold in_range, NSIG in A1; lia).
      destruct (k_reject (c_os c) x) eqn:Er; [reflexivity|]. cbn in Ek. destruct y; [reflexivity|discriminate].
    + unfold spec_signal. now rewrite U.
Qed.

Lemma inseq_reach c k0 g s : 0 <= c_rtmin c -> reached c k0 s -> apart (r_tr s) g -> inseq c k0 g s.
Proof.
  intros Hrt. revert s. apply (reached_ind c k0 (fun s => apart (r_tr s) g -> inseq c k0 g s)).
  - intros _. pose proof (boot_inv c k0 Hrt) as B. constructor; cbn [rstart r_tr]; try discriminate.
    + intros Hm _. apply (I_appl _ _ _ _ B g Hm).
    + exact I.
  - intros s t ch s' R IH E A'.
    pose proof (checked_reach c k0 s Hrt R t) as [K1 K2].
    pose proof (kind_reach c k0 s R t) as KD.
    pose proof (fixed_reach c k0 s Hrt R) as F.
    pose proof (linked_reach c k0 s R) as LK.
    pose proof (opened_reach c k0 s R t) as OP.
    apply rstep_view in E.
    destruct E as [o Hi Hm|st' th' Hn He|st' r Hn He]; cbn [r_tr r_st r_th] in *.
    + pose proof (apart_tail _ _ _ A') as A. destruct (IH A) as [Q1 Q2 Q3].
      constructor; cbn [r_tr r_st r_th]; [| |exact Q3].
      * intros Hg Hq. pose proof (Hq t) as Hqt. cbn in Hqt. rewrite Z.eqb_refl in Hqt. apply Z.eqb_neq in Hqt.
        cbn [calls]. rewrite last_app_snoc.
        destruct (app_request o g) eqn:Ea; [apply app_request_sig in Ea; contradiction|].
        apply Q1; [exact Hg|]. intros u. specialize (Hq u). cbn in Hq.
        destruct (Z.eqb_spec t u) as [Etu|]; [rewrite <- Etu|exact Hq]. now apply (proj1 (LK t) Hi).
      * intros Hg u. cbn. destruct (Z.eqb_spec t u) as [Etu|Hne]; [rewrite <- Etu; clear u Etu|].
        -- intros Eo. apply Z.eqb_eq in Eo. rewrite upd_same. cbn. cbn in A'. apply Q1; auto. now apply (proj1 A').
        -- rewrite upd_other by auto. intros Hin. now apply Q2.
    + destruct (IH A') as [Q1 Q2 Q3]. constructor; cbn [r_tr r_st r_th]; [| |exact Q3].
      * intros Hg Hq. assert (Hs : op_sig (t_op (r_th s t)) <> g).
        { specialize (Hq t). rewrite (proj2 (proj2 (proj2 (LK t) Hn))) in Hq. now apply Z.eqb_neq. }
        assert (tab st' g = tab (r_st s) g) as ->; [|now apply Q1].
        exec_cases He; cbn [tab set_tab set_kn]; auto; rewrite upd_other; auto.
      * intros Hg u Hin. destruct (Z.eqb_spec u t) as [->|Hne].
        -- rewrite upd_same. rewrite (exec_op _ _ _ _ _ He).
           apply (exec_stage c _ _ _ _ _ g He); [|exact KD|now apply Q2].
           rewrite (proj2 (proj2 (proj2 (LK t) Hn))) in Hin. now apply Z.eqb_eq.
        -- rewrite upd_other by exact Hne.
           assert (Hs : op_sig (t_op (r_th s t)) <> g).
           { intros Hs. apply Hne. apply (one_inside (r_tr s) g); auto.
             rewrite (proj2 (proj2 (proj2 (LK t) Hn))). now apply Z.eqb_eq. }
           assert (tab st' g = tab (r_st s) g) as ->; [|now apply Q2].
           exec_cases He; cbn [tab set_tab set_kn]; auto; rewrite upd_other; auto.
    + assert (A : apart (r_tr s) g) by exact A'. destruct (IH A) as [Q1 Q2 Q3].
      destruct (OP Hn) as (m & e0 & Et & W).
      destruct (proj2 (LK t) Hn) as (L1 & L2 & L3). set (th := r_th s t) in *.
      assert (T' : tab st' = tab (r_st s)) by (exec_cases He; reflexivity). 
      assert (B0 : before (r_tr s) t = e0) by (rewrite Et; now apply before_away).
      constructor; cbn [r_tr r_st r_th].
      * intros Hg Hq. rewrite T'. cbn [calls]. destruct (Z.eq_dec (op_sig (t_op th)) g) as [Eg|Eg].
        -- rewrite (last_app_window _ _ _ _ _ g (k_act k0 g) Et Eg A W).
           assert (Hin : inside (r_tr s) t g = true) by (rewrite L3; now apply Z.eqb_eq).
           specialize (Q2 Hg t Hin). fold th in Q2. rewrite B0 in Q2.
           assert (Hp : t_pc th = PRet).
           { assert (MG : in_range g = true /\ avoid (tab (r_st s) g) = false /\
                     invalid (tab (r_st s) g) = false /\ is_avoid g = false).
             { pose proof Hg as Hm'. rewrite managedb_unfold, !andb_true_iff, !negb_true_iff in Hm'.
               destruct Hm' as [[M1 M2] M3]. rewrite (F_avoid _ _ _ F _ M1), (F_invalid _ _ _ F _ M1), M2, M3. auto. }
             destruct MG as (M1 & M2 & M3 & M4). rewrite Eg in *.
             exec_cases He; rewrite ?Eg in *; try (rewrite M1, ?M2, M3 in *; discriminate); auto;
             destruct (K2 eq_refl) as (_ & X & _); congruence. }
           rewrite Hp in Q2. cbn in Q2. destruct Q2 as [-> _].
           destruct (t_op th) as [x [y|] z|x y|x y [z|]|]; cbn in *; try rewrite Eg; rewrite ?Z.eqb_refl; reflexivity.
        -- apply Q1; [exact Hg|]. intros u. specialize (Hq u). cbn in Hq.
           destruct (Z.eqb_spec t u) as [Etu|]; [rewrite <- Etu|exact Hq]. rewrite L3. now apply Z.eqb_neq.
      * intros Hg u. cbn. destruct (Z.eqb_spec t u) as [<-|Hne]; [discriminate|].
        rewrite upd_other by auto. rewrite T'. intros Hin. now apply Q2.
      * split; [|exact Q3]. intros Eg. rewrite B0.
        assert (PR : t_pc th = PRet \/ t_pc th <> PRet) by (destruct (t_pc th); auto; right; discriminate).
        destruct PR as [Hp|Hp]; [|exact (answer_turned c k0 s th st' r F KD K2 L2 He Hp (calls e0))].
        assert (Hg : managedb c g = true) by (rewrite <- Eg; apply K1; rewrite Hp; reflexivity).
        assert (Hin : inside (r_tr s) t g = true) by (rewrite L3; now apply Z.eqb_eq).
        specialize (Q2 Hg t Hin). fold th in Q2. rewrite B0, Hp in Q2. cbn in Q2. destruct Q2 as [_ Q2].
        unfold exec in He. rewrite Hp in He. injection He as <- <-.
        pose proof Hg as Hm'. rewrite managedb_unfold, !andb_true_iff, !negb_true_iff in Hm'.
        destruct Hm' as [[M1 M2] M3].
        destruct (t_op th) as [x y z|x y|x y z|]; try discriminate; cbn in *; subst x.
        -- unfold spec_sigaction. rewrite avoid_eq, M2, M3.
           replace ((1 <=? g) && (g <? 65)) with true by (unfold in_range, NSIG in M1; lia). cbn.
           destruct z; [rewrite Q2 by reflexivity|]; reflexivity.
        -- unfold spec_signal. rewrite Hg. now rewrite Q2.
        -- now rewrite Hg.
Qed.
