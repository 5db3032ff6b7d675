(** Proofs about signals that arrive while actions are changed. *)
From Verif Require Import SignalModel SignalSpec SignalProofs SignalProofs2.
From Verif Require Import SigRaceModel SigRaceSpec SigRaceProofs SigRaceSeq.
From Verif Require Import DelivModel DelivSpec.

(** ** The calls' own machine *)

(** What one step of a call can change of an entry. *)
Lemma exec_marks c st th st' w g : exec c st th = (st', w) ->
  noterm (tab st' g) = noterm (tab st g) /\ stop (tab st' g) = stop (tab st g).
Proof.
  intros He. exec_cases He; cbn [tab set_tab set_kn]; auto;
  unfold upd; destruct (Z.eqb_spec g (op_sig (t_op th))) as [->|]; auto.
Qed.

Lemma exec_handler c st th st' w g : exec c st th = (st', w) ->
  sa_handler (appl_act (tab st' g)) = sa_handler (appl_act (tab st g)) \/
  t_pc th = PWrH /\ op_sig (t_op th) = g /\
  sa_handler (appl_act (tab st' g)) = sa_handler (the_act (t_op th)).
Proof.
  intros He. exec_cases He; cbn [tab set_tab set_kn]; auto;
  unfold upd; destruct (Z.eqb_spec g (op_sig (t_op th))) as [->|]; cbn; auto.
Qed.

Lemma exec_client c st th st' w g : exec c st th = (st', w) ->
  client_handler (tab st' g) = client_handler (tab st g) \/
  t_pc th = PClient /\ op_sig (t_op th) = g /\
  client_handler (tab st' g) = match t_op th with OpClient _ h _ => h | _ => None end.
Proof.
  intros He. exec_cases He; cbn [tab set_tab set_kn]; auto;
  unfold upd; destruct (Z.eqb_spec g (op_sig (t_op th))) as [->|]; cbn; auto.
Qed.

Lemma exec_client_now c st th st' w : exec c st th = (st', w) -> t_pc th = PClient ->
  client_handler (tab st' (op_sig (t_op th))) = match t_op th with OpClient _ h _ => h | _ => None end.
Proof. unfold exec. intros He E. rewrite E in He. injection He as <- _. cbn. now rewrite upd_same. Qed.

Definition marks (s : rstate) : Prop := forall g, in_range g = true ->
  noterm (tab (r_st s) g) = is_noterm g /\ stop (tab (r_st s) g) = is_stop g.

Lemma marks_reach c k0 s : 0 <= c_rtmin c -> reached c k0 s -> marks s.
Proof.
  intros Hrt. revert s. apply reached_ind.
  - pose proof (boot_inv c k0 Hrt) as B. intros g Hg. split; [now apply (I_noterm _ _ _ _ B)|now apply (I_stop _ _ _ _ B)].
  - intros s t ch s' _ IH E. apply rstep_view in E.
    destruct E as [o Hi Hm|st' th' Hn He|st' r Hn He]; [exact IH| |]; intros g Hg; cbn [r_st];
    destruct (exec_marks _ _ _ _ _ g He) as [-> ->]; now apply IH.
Qed.

(** Client handlers in the table were registered. *)
Definition known (s : rstate) : Prop := forall g f, in_range g = true ->
  client_handler (tab (r_st s) g) = Some f -> exists a, In (OpClient g (Some f) a) (calls (r_tr s)).

Lemma known_reach c k0 s : 0 <= c_rtmin c -> reached c k0 s -> known s.
Proof.
  intros Hrt. revert s. apply reached_ind.
  - pose proof (boot_inv c k0 Hrt) as B. intros g f Hg E.
    change (r_st (rstart c k0)) with (boot c k0) in E.
    destruct (managedb c g) eqn:Em.
    + rewrite (I_client _ _ _ _ B g Em) in E. discriminate.
    + rewrite (I_clientx _ _ _ _ B g Hg Em) in E. discriminate.
  - intros s t ch s' R IH E. pose proof (linked_reach c k0 s R t) as [_ L].
    apply rstep_view in E. destruct E as [o Hi Hm|st' th' Hn He|st' r Hn He]; intros g f Hg; cbn [r_st r_tr calls].
    + intros E. destruct (IH g f Hg E) as [a Ha]. exists a. apply in_or_app. now left.
    + destruct (exec_client _ _ _ _ _ g He) as [->|(_ & Hs & ->)]; [now apply IH|].
      destruct (L Hn) as (L1 & _). destruct (t_op (r_th s t)) as [| |s' h a|]; try discriminate.
      intros ->. cbn in Hs. subst s'. eauto.
    + destruct (exec_client _ _ _ _ _ g He) as [->|(Hp & _)]; [now apply IH|].
      exfalso. unfold exec in He. rewrite Hp in He. discriminate.
Qed.

(** The client's handler between calls that do not overlap. *)
Definition pending (g : Z) (th : thread) : Prop :=
  op_sig (t_op th) = g /\ is_client (t_op th) = true /\
  match t_pc th with PEnter | POpen | PClient => True | _ => False end.
Definition handler_of (o : op) : option N := match o with OpClient _ h _ => h | _ => None end.

Lemma last_client_app h1 h2 g d : last_client (h1 ++ h2) g d = last_client h2 g (last_client h1 g d).
Proof. revert d. induction h1 as [|o h1 IH]; intros d; [reflexivity|]. destruct o; cbn; apply IH. Qed.

Lemma last_client_one o g d : last_client [o] g d =
  if is_client o && (op_sig o =? g) then handler_of o else d.
Proof. destruct o; cbn; auto. Qed.

Record client_ok (g : Z) (s : rstate) : Prop := {
  K_pend : forall t, pending g (r_th s t) -> last_client (calls (r_tr s)) g None = handler_of (t_op (r_th s t));
  K_now : (forall t, ~ pending g (r_th s t)) ->
          client_handler (tab (r_st s) g) = last_client (calls (r_tr s)) g None }.

Lemma pending_inside c k0 s t g : reached c k0 s -> pending g (r_th s t) -> inside (r_tr s) t g = true.
Proof.
  intros R (A & B & C). destruct (linked_reach c k0 s R t) as [_ L].
  rewrite (proj2 (proj2 (L ltac:(intros E; rewrite E in C; exact C)))). now apply Z.eqb_eq.
Qed.

Lemma client_reach c k0 g s : 0 <= c_rtmin c -> managedb c g = true -> reached c k0 s ->
  apart (r_tr s) g -> client_ok g s.
Proof.
  intros Hrt Hm. revert s.
  apply (reached_ind c k0 (fun s => apart (r_tr s) g -> client_ok g s)).
  - intros _. pose proof (boot_inv c k0 Hrt) as B. split.
    + intros t (_ & _ & []).
    + intros _. exact (I_client _ _ _ _ B g Hm).
  - intros s t ch s' R IH E. apply rstep_view in E.
    destruct E as [o Hi Hmk|st' th' Hn He|st' r Hn He]; cbn [r_tr]; intros A.
    + destruct A as [A1 A2]. specialize (IH A2). destruct IH as [K1 K2].
      assert (NP : op_sig o = g -> forall u, ~ pending g (r_th s u)).
      { intros Eo u P. apply (pending_inside c k0 s u g R) in P. rewrite (A1 Eo u) in P. discriminate. }
      split; cbn [r_th r_st r_tr calls].
      * intros u. destruct (Z.eq_dec u t) as [->|Hne].
        -- rewrite upd_same. intros (B1 & B2 & _). cbn in B1, B2 |- *.
           rewrite last_client_app, last_client_one, B2. cbn. subst g. now rewrite Z.eqb_refl.
        -- rewrite upd_other by exact Hne. intros P.
           rewrite last_client_app, last_client_one.
           destruct (Z.eqb_spec (op_sig o) g) as [Eo|Eo]; [exfalso; exact (NP Eo u P)|].
           rewrite andb_false_r. now apply K1.
      * intros N. rewrite last_client_app, last_client_one.
        destruct (is_client o && (op_sig o =? g)) eqn:Eb.
        -- exfalso. apply andb_prop in Eb as [B1 B2]. apply (N t). rewrite upd_same.
           split; [now apply Z.eqb_eq|]. split; [exact B1|exact I].
        -- apply K2. intros u P. destruct (Z.eq_dec u t) as [->|Hne].
           ++ destruct P as (_ & _ & P). rewrite Hi in P. exact P.
           ++ apply (N u). now rewrite upd_other by exact Hne.
    + specialize (IH A). destruct IH as [K1 K2]. pose proof (exec_op _ _ _ _ _ He) as Ho.
      assert (BK : pending g th' -> pending g (r_th s t)).
      { intros (B1 & B2 & B3). rewrite Ho in B1, B2. split; [exact B1|]. split; [exact B2|].
        exec_cases He; cbn in B3; try exact I; try contradiction;
          unfold after_read, after_client in B3; destruct (op_act (t_op (r_th s t))); try contradiction.
        all: destruct (op_want (t_op (r_th s t))) in B3; contradiction. }
      split; cbn [r_th r_st r_tr].
      * intros u. destruct (Z.eq_dec u t) as [->|Hne].
        -- rewrite upd_same, Ho. intros P. now apply K1, BK.
        -- rewrite upd_other by exact Hne. apply K1.
      * intros N. assert (NO : forall u, u <> t -> ~ pending g (r_th s u)).
        { intros u Hu P. apply (N u). now rewrite upd_other by exact Hu. }
        assert (CL : t_pc (r_th s t) = PClient -> is_client (t_op (r_th s t)) = true).
        { intros Hp. pose proof (kind_reach c k0 s R t) as KD. unfold kind_ok in KD. now rewrite Hp in KD. }
        destruct (exec_client _ _ _ _ _ g He) as [E|(Hp & Hs & E)].
        -- assert (Q : pending g (r_th s t) -> t_pc (r_th s t) = PClient \/ pending g th').
           { intros (B1 & B2 & B3). unfold pending. rewrite Ho.
             pose proof (fixed_reach c k0 s Hrt R) as F.
             pose proof Hm as M. rewrite managedb_unfold, !andb_true_iff, !negb_true_iff in M.
             destruct M as [[M1 M2] M3].
             unfold exec in He. destruct (t_pc (r_th s t)) eqn:Ep; try contradiction; [|right|now left].
             - rewrite B2, B1, M1, (F_avoid _ _ _ F g M1), (F_invalid _ _ _ F g M1), M2, M3 in He.
               cbn in He. injection He as <- <-. right. cbn. auto.
             - injection He as <- <-. cbn. auto. }
           destruct (is_client (t_op (r_th s t)) && (op_sig (t_op (r_th s t)) =? g)) eqn:Eb.
           ++ apply andb_prop in Eb as [B2 B1]. apply Z.eqb_eq in B1.
              destruct (t_pc (r_th s t)) eqn:Ep.
              5: { pose proof (exec_client_now _ _ _ _ _ He Ep) as X. rewrite B1 in X. rewrite X. symmetry.
                   apply K1. unfold pending. rewrite Ep. auto. }
              all: rewrite E; apply K2; intros u P; destruct (Z.eq_dec u t) as [->|Hne]; [|exact (NO u Hne P)].
              all: destruct (Q P) as [Q'|Q']; [discriminate|apply (N t); now rewrite upd_same].
           ++ rewrite E. apply K2. intros u P. destruct (Z.eq_dec u t) as [->|Hne]; [|exact (NO u Hne P)].
              destruct P as (B1 & B2 & _). rewrite B2, B1, Z.eqb_refl in Eb. discriminate.
        -- rewrite E. symmetry. apply K1. split; [exact Hs|]. rewrite Hp. split; [|exact I]. now apply CL.
    + specialize (IH A). destruct IH as [K1 K2].
      assert (NPt : ~ pending g (r_th s t)).
      { intros (B1 & B2 & B3).
        pose proof (fixed_reach c k0 s Hrt R) as F.
        pose proof Hm as M. rewrite managedb_unfold, !andb_true_iff, !negb_true_iff in M.
        destruct M as [[M1 M2] M3].
        unfold exec in He. destruct (t_pc (r_th s t)) eqn:Ep; try contradiction; try discriminate.
        rewrite B2, B1, M1, (F_avoid _ _ _ F g M1), (F_invalid _ _ _ F g M1), M2, M3 in He.
        cbn in He. discriminate. }
      assert (E : client_handler (tab st' g) = client_handler (tab (r_st s) g)).
      { destruct (exec_client _ _ _ _ _ g He) as [E|(Hp & _)]; [exact E|].
        exfalso. unfold exec in He. rewrite Hp in He. discriminate. }
      split; cbn [r_th r_st r_tr calls].
      * intros u. destruct (Z.eq_dec u t) as [->|Hne].
        -- rewrite upd_same. intros (_ & _ & []).
        -- rewrite upd_other by exact Hne. apply K1.
      * intros N. rewrite E. apply K2. intros u P. destruct (Z.eq_dec u t) as [->|Hne]; [exact (NPt P)|].
        apply (N u). now rewrite upd_other by exact Hne.
Qed.

(** ** Deliveries *)
Lemma dreached_ind c k0 (P : dstate -> Prop) :
  P (dstart c k0) ->
  (forall s t ch s', dreached c k0 s -> P s -> dstep c s t ch = Some s' -> P s') ->
  forall s, dreached c k0 s -> P s.
Proof.
  intros H0 HS s [l Hl].
  assert (G : forall l s0, dreached c k0 s0 -> P s0 -> forall s, drun c s0 l = Some s -> P s).
  { clear l s Hl. induction l as [|[t ch] l IH]; intros s0 R Hp s E; cbn in E; [now injection E as <-|].
    destruct (dstep c s0 t ch) as [s1|] eqn:E1; [|discriminate].
    apply (IH s1); auto; [|eapply HS; eauto].
    destruct R as [l0 R]. exists (l0 ++ [(t, ch)]). clear - R E1. revert R. generalize (dstart c k0).
    induction l0 as [|[u x] l0 IH0]; intros d R; cbn in *; [injection R as ->; now rewrite E1|].
    destruct (dstep c d u x); [now apply IH0|discriminate]. }
  apply (G l (dstart c k0)); auto. now exists [].
Qed.

Inductive dview (c : config) (s : dstate) (t : Z) : dstate -> Prop :=
| V_api a r' : d_pc s t = DNone -> rstep c (d_r s) t a = Some r' ->
    dview c s t (mkdstate r' (d_pc s) (api_event c (d_r s) t a ++ d_tr s))
| V_arr g : d_pc s t = DNone ->
    dview c s t (mkdstate (d_r s) (upd (d_pc s) t (DCheck g)) (DArrive t g :: d_tr s))
| V_go r p' ev : d_pc s t <> DNone -> handler_step (r_st (d_r s)) t r (d_pc s t) = (p', ev) ->
    dview c s t (mkdstate (d_r s) (upd (d_pc s) t p') (ev ++ d_tr s)).

Lemma dstep_view c s t ch s' : dstep c s t ch = Some s' -> dview c s t s'.
Proof.
  unfold dstep. destruct ch as [a|g|r].
  - destruct (d_pc s t) eqn:Ep; try discriminate. destruct (rstep c (d_r s) t a) as [r'|] eqn:E; [|discriminate].
    injection 1 as <-. now constructor.
  - destruct (d_pc s t) eqn:Ep; try discriminate.
    destruct (sa_handler (k_act (kn (r_st (d_r s))) g)); try discriminate. injection 1 as <-. now constructor.
  - destruct (handler_step (r_st (d_r s)) t r (d_pc s t)) as [p' ev] eqn:E. intros H.
    assert (N : d_pc s t <> DNone) by (intros X; rewrite X in H; discriminate).
    assert (S : s' = mkdstate (d_r s) (upd (d_pc s) t p') (ev ++ d_tr s)).
    { destruct (d_pc s t); try (now destruct N); rewrite E in H; now injection H as <-. }
    rewrite S. econstructor; eauto.
Qed.

Lemma api_app h1 h2 : api (h1 ++ h2) = api h1 ++ api h2.
Proof. induction h1 as [|[] h1 IH]; cbn; auto. now rewrite IH. Qed.

Lemma api_event_tr c s t a s' : rstep c s t a = Some s' -> r_tr s' = api (api_event c s t a) ++ r_tr s.
Proof.
  unfold rstep, api_event. destruct a as [o|].
  - destruct (idle (r_th s t) && negb (is_mask o)); [|discriminate]. now injection 1 as <-.
  - destruct (idle (r_th s t)); [discriminate|].
    destruct (exec c (r_st s) (r_th s t)) as [st' [th'|r]]; now injection 1 as <-.
Qed.

Lemma handler_api st t r p p' ev : handler_step st t r p = (p', ev) -> api ev = [].
Proof.
  destruct p; cbn; repeat match goal with |- context [match ?x with _ => _ end] => destruct x end;
  now injection 1 as <- <-.
Qed.

Lemma proj_reach c k0 s : dreached c k0 s -> reached c k0 (d_r s) /\ r_tr (d_r s) = api (d_tr s).
Proof.
  revert s. apply dreached_ind.
  - split; [now exists []|reflexivity].
  - intros s t ch s' _ [R T] E. apply dstep_view in E. destruct E as [a r' Hp E|g Hp|r p' ev Hp E]; cbn [d_r d_tr].
    + split; [|now rewrite api_app, (api_event_tr _ _ _ _ _ E), T].
      destruct R as [l0 R]. exists (l0 ++ [(t, a)]). clear - R E. revert R. generalize (rstart c k0).
      induction l0 as [|[u x] l0 IH0]; intros d R; cbn in *; [injection R as ->; now rewrite E|].
      destruct (rstep c d u x); [now apply IH0|discriminate].
    + now split.
    + split; [exact R|]. now rewrite api_app, (handler_api _ _ _ _ _ _ E), T.
Qed.

(** Nobody is inside a call for g during an undisturbed delivery. *)
Lemma undisturbed_quiet h t g : undisturbed h t g -> quiet (api h) g.
Proof.
  induction h as [|[[u o|u o r]|u x|u x f|u x|u x r] h IH]; cbn; intros U v; try (now apply IH); auto.
  - destruct U as [U1 U2]. cbn. destruct (u =? v); [now apply Z.eqb_neq|now apply IH].
  - cbn. destruct (u =? v); [reflexivity|now apply IH].
  - destruct (u =? t); [apply U|now apply IH].
Qed.

Lemma none_removed_now h t g : none_removed h t g -> forall v, removing (api h) v g = false.
Proof.
  induction h as [|[[u o|u o r]|u x|u x f|u x|u x r] h IH]; cbn; intros U v; try (now apply IH); auto.
  - destruct U as [U1 U2]. destruct (u =? v); [exact U1|now apply IH].
  - destruct (u =? v); [reflexivity|now apply IH].
  - destruct (u =? t); [apply U|now apply IH].
Qed.

Lemma removing_away tr t g m : away t m -> removing (m ++ tr) t g = removing tr t g.
Proof.
  induction m as [|e m IH]; intros A; [reflexivity|]. assert (A' : away t m) by (intros x Hx; apply A; now right).
  specialize (A e (or_introl eq_refl)). destruct e; cbn in *; rewrite A; auto.
Qed.

Lemma removing_now c k0 s t g : reached c k0 s -> t_pc (r_th s t) <> PIdle ->
  removing (r_tr s) t g = removes (t_op (r_th s t)) g.
Proof.
  intros R Hp. destruct (opened_reach c k0 s R t Hp) as (m & e0 & E & W).
  rewrite E, removing_away by exact W. cbn. now rewrite Z.eqb_refl.
Qed.

(** The signal and the positions of a delivery. *)
Definition dsig (p : dpc) : Z :=
  match p with
  | DNone => 0
  | DCheck g | DTest g | DLoad g | DClientRuns g | DIgn g | DDfl g | DFlags g | DCall g _ => g
  end.

Definition part_ok (C : option N) (t g : Z) (part : list devent) : Prop :=
  match C with
  | None => part = []
  | Some f => exists x, part = [DClientRet t x; DClient t g f] /\ x <> 0
  end.

Definition okp (C : option N) (L : act) (t : Z) (part : list devent) (p : dpc) : Prop :=
  match p with
  | DNone => True
  | DCheck g | DTest g => part = []
  | DLoad g => C <> None /\ part = []
  | DClientRuns g => exists f, C = Some f /\ part = [DClient t g f]
  | DIgn g => part_ok C t g part
  | DDfl g => part_ok C t g part /\ sa_handler L <> HIgn
  | DFlags g => part_ok C t g part /\ sa_handler L <> HIgn /\ sa_handler L <> HDfl
  | DCall g b => part_ok C t g part /\ sa_handler L <> HIgn /\ sa_handler L <> HDfl /\
                 b = N.testbit (sa_flags L) 2
  end.

Fixpoint hist_ok (c : config) (k0 : kern) (h : list devent) : Prop :=
  match h with
  | [] => True
  | DDone t g r :: o =>
      (managedb c g = true -> apart (api o) g -> undisturbed o t g ->
       proper (last_client (made o) g None) (last_app (made o) g (k_act k0 g)) t g (client_part o t) r) /\
      hist_ok c k0 o
  | _ :: o => hist_ok c k0 o
  end.

Definition deliv_ok (c : config) (k0 : kern) (s : dstate) : Prop :=
  (forall t, managedb c (dsig (d_pc s t)) = true -> apart (api (d_tr s)) (dsig (d_pc s t)) ->
     undisturbed (d_tr s) t (dsig (d_pc s t)) ->
     okp (last_client (made (d_tr s)) (dsig (d_pc s t)) None)
         (last_app (made (d_tr s)) (dsig (d_pc s t)) (k_act k0 (dsig (d_pc s t)))) t
         (client_part (d_tr s) t) (d_pc s t)) /\
  hist_ok c k0 (d_tr s).

Lemma last_client_other o h g d : op_sig o <> g -> last_client (h ++ [o]) g d = last_client h g d.
Proof.
  intros H. rewrite last_client_app, last_client_one.
  destruct (Z.eqb_spec (op_sig o) g); [contradiction|]. now rewrite andb_false_r.
Qed.
Lemma last_app_skip o h g d : op_sig o <> g -> last_app (h ++ [o]) g d = last_app h g d.
Proof. intros H. rewrite last_app_app. apply last_app_other. intros x [<-|[]]. exact H. Qed.

Lemma quiet_app_result c k0 s g : 0 <= c_rtmin c -> reached c k0 s -> managedb c g = true ->
  sa_handler (appl_act (tab (r_st s) g)) = HDfl ->
  (if noterm (tab (r_st s) g) then NoAction else if stop (tab (r_st s) g) then Stopped else Terminated) =
  app_result (appl_act (tab (r_st s) g)) g.
Proof.
  intros Hrt R Hm E. assert (Hr : in_range g = true).
  { rewrite managedb_unfold in Hm. destruct (in_range g); [reflexivity|discriminate]. }
  destruct (marks_reach c k0 s Hrt R g Hr) as [-> ->]. unfold app_result, disposition_of. rewrite E.
  unfold is_noterm, is_stop. repeat match goal with |- context [if ?b then _ else _] => destruct b end; reflexivity.
Qed.

Lemma deliv_reach c k0 s : 0 <= c_rtmin c -> dreached c k0 s -> deliv_ok c k0 s.
Proof.
  intros Hrt. revert s. apply dreached_ind.
  - split; [intros t _ _ _; exact I|exact I].
  - intros s t ch s' R [IH1 IH2] E. destruct (proj_reach c k0 s R) as [RR TT].
    apply dstep_view in E. destruct E as [a r' Hp E|g Hp|r p' ev Hp E].
    + (* a step of a call *)
      assert (X : api_event c (d_r s) t a = [] \/
                  (exists o, api_event c (d_r s) t a = [DEv (ECall t o)]) \/
                  (exists o x, api_event c (d_r s) t a = [DEv (ERet t o x)])).
      { unfold api_event. destruct a as [o|]; [right; left; eauto|].
        destruct (exec c (r_st (d_r s)) (r_th (d_r s) t)) as [st' [th'|x]]; [now left|right; right; eauto]. }
      destruct X as [->|[[o ->]|(o & x & ->)]]; unfold deliv_ok; cbn [d_pc d_tr app].
      * split; assumption.
      * split; [|exact IH2]. intros u Hm A U. cbn [api made undisturbed client_part calls] in *.
        destruct U as [U1 U2]. destruct A as [A1 A2]. unfold made in *. cbn [api calls].
        rewrite (last_client_other _ _ _ _ U1), (last_app_skip _ _ _ _ U1). now apply IH1.
      * split; [|exact IH2]. intros u Hm A U. cbn [api made undisturbed client_part calls] in *.
        unfold made in *. cbn [api calls]. now apply IH1.
    + (* a signal arrives *)
      unfold deliv_ok. cbn [d_pc d_tr]. split; [|exact IH2].
      intros u. destruct (Z.eq_dec u t) as [->|Hne].
      * rewrite upd_same. intros _ _ _. cbn. now rewrite Z.eqb_refl.
      * rewrite upd_other by exact Hne. cbn. destruct (Z.eqb_spec t u) as [->|_]; [now destruct Hne|]. apply IH1.
    + (* a step of the handler *)
      assert (OTH : forall u, u <> t -> undisturbed (ev ++ d_tr s) u (dsig (d_pc s u)) = undisturbed (d_tr s) u (dsig (d_pc s u)) /\
                       client_part (ev ++ d_tr s) u = client_part (d_tr s) u).
      { intros u Hne. assert (Hf : (t =? u) = false) by (apply Z.eqb_neq; congruence).
        destruct (d_pc s t); cbn in E; repeat match type of E with context [match ?x with _ => _ end] => destruct x end;
        injection E as <- <-; cbn; rewrite ?Hf; auto. }
      assert (MADE : made (ev ++ d_tr s) = made (d_tr s)).
      { unfold made. now rewrite api_app, (handler_api _ _ _ _ _ _ E). }
      assert (API : api (ev ++ d_tr s) = api (d_tr s)).
      { now rewrite api_app, (handler_api _ _ _ _ _ _ E). }
      unfold deliv_ok. cbn [d_pc d_tr]. rewrite MADE, API.
      assert (Now : forall g, managedb c g = true -> apart (api (d_tr s)) g -> undisturbed (d_tr s) t g ->
                client_handler (tab (r_st (d_r s)) g) = last_client (made (d_tr s)) g None /\
                appl_act (tab (r_st (d_r s)) g) = last_app (made (d_tr s)) g (k_act k0 g)).
      { intros g Hm A U. apply undisturbed_quiet in U. unfold made. rewrite <- TT in *. split.
        - apply (client_reach c k0 g (d_r s) Hrt Hm RR A). intros u P.
          apply (pending_inside c k0 _ u g RR) in P. rewrite (U u) in P. discriminate.
        - exact (Q_quiet _ _ _ _ (inseq_reach c k0 g _ Hrt RR A) Hm U). }
      assert (FX : forall g, managedb c g = true ->
                negb (in_range g) || avoid (tab (r_st (d_r s)) g) || invalid (tab (r_st (d_r s)) g) = false).
      { intros g Hm. pose proof (fixed_reach c k0 _ Hrt RR) as F.
        rewrite managedb_unfold, !andb_true_iff, !negb_true_iff in Hm. destruct Hm as [[M1 M2] M3].
        now rewrite M1, (F_avoid _ _ _ F g M1), (F_invalid _ _ _ F g M1), M2, M3. }
      pose proof (fun g Hm => quiet_app_result c k0 (d_r s) g Hrt RR Hm) as DF.
      specialize (IH1 t) as Me.
      assert (OWN : forall u, u <> t -> managedb c (dsig (upd (d_pc s) t p' u)) = true ->
                apart (api (d_tr s)) (dsig (upd (d_pc s) t p' u)) ->
                undisturbed (ev ++ d_tr s) u (dsig (upd (d_pc s) t p' u)) ->
                okp (last_client (made (d_tr s)) (dsig (upd (d_pc s) t p' u)) None)
                    (last_app (made (d_tr s)) (dsig (upd (d_pc s) t p' u)) (k_act k0 (dsig (upd (d_pc s) t p' u))))
                    u (client_part (ev ++ d_tr s) u) (upd (d_pc s) t p' u)).
      { intros u Hne. rewrite upd_other by exact Hne. destruct (OTH u Hne) as [-> ->]. apply IH1. }
      enough (MINE : (managedb c (dsig p') = true -> apart (api (d_tr s)) (dsig p') ->
                undisturbed (ev ++ d_tr s) t (dsig p') ->
                okp (last_client (made (d_tr s)) (dsig p') None)
                    (last_app (made (d_tr s)) (dsig p') (k_act k0 (dsig p')))
                    t (client_part (ev ++ d_tr s) t) p') /\ hist_ok c k0 (ev ++ d_tr s)).
      { destruct MINE as [M1 M2]. split; [|exact M2]. intros u. destruct (Z.eq_dec u t) as [->|Hne]; [|now apply OWN].
        rewrite upd_same. exact M1. }
      clear OWN OTH MADE API IH1 TT R ch.
      destruct (d_pc s t) as [|g|g|g|g|g|g|g|g b]; [now destruct Hp|..]; cbn [dsig handler_step] in *.
      * (* DCheck *)
        destruct (negb (in_range g) || avoid (tab (r_st (d_r s)) g) || invalid (tab (r_st (d_r s)) g)) eqn:Eb;
        injection E as <- <-; cbn.
        -- split; [auto|]. split; [|exact IH2]. intros Hm _ _. rewrite (FX g Hm) in Eb. discriminate.
        -- split; [exact Me|exact IH2].
      * (* DTest *)
        destruct (client_handler (tab (r_st (d_r s)) g)) as [f|] eqn:Ef; injection E as <- <-; cbn.
        -- split; [|exact IH2]. intros Hm A U. destruct (Now g Hm A U) as [N1 _].
           split; [rewrite <- N1; congruence|now apply Me].
        -- split; [|exact IH2]. intros Hm A U. destruct (Now g Hm A U) as [N1 _].
           unfold part_ok. rewrite <- N1, Ef. now apply Me.
      * (* DLoad *)
        destruct (client_handler (tab (r_st (d_r s)) g)) as [f|] eqn:Ef; injection E as <- <-; cbn.
        -- split; [|exact IH2]. intros Hm A U. destruct (Now g Hm A U) as [N1 _]. destruct (Me Hm A U) as [M1 M2].
           exists f. rewrite Z.eqb_refl, M2, <- N1. auto.
        -- split; [auto|]. split; [|exact IH2]. intros Hm A U. exfalso.
           destruct (Now g Hm A U) as [N1 _]. destruct (Me Hm A U) as [M1 M2]. congruence.
      * (* DClientRuns *)
        destruct (r =? 0) eqn:Er; injection E as <- <-; cbn.
        -- split; [auto|]. split; [|exact IH2]. intros Hm A U. destruct (Me Hm A U) as (f & M1 & M2).
           unfold made in *. cbn. unfold proper. rewrite M1. exists r. rewrite Z.eqb_refl, M2, Er. auto.
        -- split; [|exact IH2]. intros Hm A U. destruct (Me Hm A U) as (f & M1 & M2).
           unfold part_ok. rewrite M1. exists r. rewrite Z.eqb_refl, M2. split; [reflexivity|now apply Z.eqb_neq].
      * (* DIgn *)
        assert (G : managedb c g = true -> apart (api (d_tr s)) g -> undisturbed (d_tr s) t g ->
                    sa_handler (appl_act (tab (r_st (d_r s)) g)) = HIgn ->
                    proper (last_client (made (d_tr s)) g None) (last_app (made (d_tr s)) g (k_act k0 g)) t g
                      (client_part (d_tr s) t) Ignored).
        { intros Hm A U Eh. destruct (Now g Hm A U) as [_ N2]. specialize (Me Hm A U). cbn in Me.
          assert (AR : app_result (last_app (made (d_tr s)) g (k_act k0 g)) g = Ignored).
          { rewrite <- N2. unfold app_result, disposition_of. now rewrite Eh. }
          unfold part_ok in Me. unfold proper. rewrite AR.
          destruct (last_client (made (d_tr s)) g None) as [f|]; [|auto].
          destruct Me as (x & -> & Hx). exists x. apply Z.eqb_neq in Hx. rewrite Hx. auto. }
        assert (G2 : managedb c g = true -> apart (api (d_tr s)) g -> undisturbed (d_tr s) t g ->
                    sa_handler (appl_act (tab (r_st (d_r s)) g)) <> HIgn ->
                    part_ok (last_client (made (d_tr s)) g None) t g (client_part (d_tr s) t) /\
                    sa_handler (last_app (made (d_tr s)) g (k_act k0 g)) <> HIgn).
        { intros Hm A U Eh. destruct (Now g Hm A U) as [_ N2]. rewrite <- N2. split; [now apply Me|exact Eh]. }
        destruct (sa_handler (appl_act (tab (r_st (d_r s)) g))) eqn:Eh; injection E as <- <-; cbn;
          (split; [|first [exact IH2|split; [|exact IH2]]]); auto; intros Hm A U; try (now apply G); apply G2; auto; discriminate.
      * (* DDfl *)
        assert (G : managedb c g = true -> apart (api (d_tr s)) g -> undisturbed (d_tr s) t g ->
                    sa_handler (appl_act (tab (r_st (d_r s)) g)) = HDfl ->
                    proper (last_client (made (d_tr s)) g None) (last_app (made (d_tr s)) g (k_act k0 g)) t g
                      (client_part (d_tr s) t)
                      (if noterm (tab (r_st (d_r s)) g) then NoAction
                       else if stop (tab (r_st (d_r s)) g) then Stopped else Terminated)).
        { intros Hm A U Eh. destruct (Now g Hm A U) as [_ N2]. destruct (Me Hm A U) as [M1 _].
          rewrite (DF g Hm Eh), N2.
          unfold part_ok in M1. unfold proper.
          destruct (last_client (made (d_tr s)) g None) as [f|]; [|auto].
          destruct M1 as (x & -> & Hx). exists x. apply Z.eqb_neq in Hx. rewrite Hx. auto. }
        assert (G2 : managedb c g = true -> apart (api (d_tr s)) g -> undisturbed (d_tr s) t g ->
                    sa_handler (appl_act (tab (r_st (d_r s)) g)) <> HDfl ->
                    part_ok (last_client (made (d_tr s)) g None) t g (client_part (d_tr s) t) /\
                    sa_handler (last_app (made (d_tr s)) g (k_act k0 g)) <> HIgn /\
                    sa_handler (last_app (made (d_tr s)) g (k_act k0 g)) <> HDfl).
        { intros Hm A U Eh. destruct (Now g Hm A U) as [_ N2]. destruct (Me Hm A U) as [M1 M2].
          split; [exact M1|]. split; [exact M2|]. now rewrite <- N2. }
        clear DF.
        destruct (sa_handler (appl_act (tab (r_st (d_r s)) g))) eqn:Eh; injection E as <- <-; cbn;
          (split; [|first [exact IH2|split; [|exact IH2]]]); auto; intros Hm A U; try (now apply G); apply G2; auto; discriminate.
      * (* DFlags *)
        injection E as <- <-. cbn. split; [|exact IH2]. intros Hm A U. destruct (Now g Hm A U) as [_ N2].
        destruct (Me Hm A U) as (M1 & M2 & M3). rewrite <- N2 in *. auto.
      * (* DCall *)
        injection E as <- <-. cbn. split; [auto|]. split; [|exact IH2]. intros Hm A U.
        destruct (Now g Hm A U) as [_ N2]. destruct (Me Hm A U) as (M1 & M2 & M3 & M4).
        assert (AR : app_result (last_app (made (d_tr s)) g (k_act k0 g)) g =
                     match sa_handler (appl_act (tab (r_st (d_r s)) g)) with
                     | HDfl | HIgn => Crashed | h => Ran h b end).
        { rewrite N2. unfold app_result, disposition_of.
          destruct (sa_handler (last_app (made (d_tr s)) g (k_act k0 g))); try contradiction; now rewrite M4. }
        change (calls (api (d_tr s))) with (made (d_tr s)).
        rewrite <- AR. unfold part_ok in M1. unfold proper.
        destruct (last_client (made (d_tr s)) g None) as [f|]; [|auto].
        destruct M1 as (x & -> & Hx). exists x. apply Z.eqb_neq in Hx. rewrite Hx. auto.
Qed.

(** ** What holds for every schedule *)
Lemma made_in_mono h h' o : In o (made h) -> In o (made (h' ++ h)).
Proof.
  intros H. unfold made in *. rewrite api_app, calls_app. apply in_or_app. now left.
Qed.

Definition from (c : config) (k0 : kern) (h : list devent) (e : devent) : Prop :=
  match e with
  | DClient t g f => in_range g = true -> exists a, In (OpClient g (Some f) a) (made h)
  | DDone t g r => managedb c g = true ->
      match r with
      | Refused => False
      | Taken => exists f a, In (OpClient g (Some f) a) (made h)
      | Ignored | NoAction | Stopped | Terminated => exists a, asked k0 (made h) g a /\ r = app_result a g
      | Ran f b => (exists a, asked k0 (made h) g a /\ sa_handler a = f) /\
                   (exists a, asked k0 (made h) g a /\ N.testbit (sa_flags a) 2 = b) /\ f <> HDfl /\ f <> HIgn
      | Crashed => True
      end
  | _ => True
  end.
Fixpoint all_from (c : config) (k0 : kern) (h : list devent) : Prop :=
  match h with [] => True | e :: o => from c k0 o e /\ all_from c k0 o end.

Definition pre (c : config) (k0 : kern) (h : list op) (p : dpc) : Prop :=
  managedb c (dsig p) = true ->
  match p with
  | DClientRuns g => exists f a, In (OpClient g (Some f) a) h
  | DCall g b => exists a, asked k0 h g a /\ N.testbit (sa_flags a) 2 = b
  | _ => True
  end.

Definition src (c : config) (k0 : kern) (s : dstate) : Prop :=
  (forall t, pre c k0 (made (d_tr s)) (d_pc s t)) /\ all_from c k0 (d_tr s).

Lemma asked_mono k0 h h' g a : (forall o, In o h -> In o h') -> asked k0 h g a -> asked k0 h' g a.
Proof. intros H [->|(o & A & B)]; [now left|right; eauto]. Qed.

Lemma pre_mono c k0 h h' p : (forall o, In o h -> In o h') -> pre c k0 h p -> pre c k0 h' p.
Proof.
  intros H P Hm. specialize (P Hm). destruct p; auto.
  - destruct P as (f & a & P). eauto.
  - destruct P as (a & P & Q). exists a. split; [eapply asked_mono; eauto|exact Q].
Qed.

Lemma src_reach c k0 s : 0 <= c_rtmin c -> dreached c k0 s -> src c k0 s.
Proof.
  intros Hrt. revert s. apply dreached_ind.
  - split; [intros t _; exact I|exact I].
  - intros s t ch s' R [IH1 IH2] E. destruct (proj_reach c k0 s R) as [RR TT].
    apply dstep_view in E. destruct E as [a r' Hp E|g Hp|r p' ev Hp E].
    + unfold src. cbn [d_pc d_tr]. split.
      * intros u. eapply pre_mono; [|apply IH1]. intros o. apply made_in_mono.
      * unfold api_event. destruct a as [o|]; cbn; auto.
        destruct (exec c (r_st (d_r s)) (r_th (d_r s) t)) as [st' [th'|x]]; cbn; auto.
    + unfold src. cbn [d_pc d_tr]. split; [|cbn; auto].
      intros u. destruct (Z.eq_dec u t) as [->|Hne]; [rewrite upd_same; intros _; exact I|].
      rewrite upd_other by exact Hne. apply IH1.
    + pose proof (known_reach c k0 _ Hrt RR) as KN.
      assert (AP : forall g, managedb c g = true -> mixed k0 (made (d_tr s)) g (appl_act (tab (r_st (d_r s)) g))).
      { intros g Hm. unfold made. rewrite <- TT. exact (P_appl _ _ _ (parts_reach c k0 _ Hrt RR) g Hm). }
      assert (FX : forall g, managedb c g = true -> in_range g = true /\
                negb (in_range g) || avoid (tab (r_st (d_r s)) g) || invalid (tab (r_st (d_r s)) g) = false).
      { intros g Hm. pose proof (fixed_reach c k0 _ Hrt RR) as F.
        rewrite managedb_unfold, !andb_true_iff, !negb_true_iff in Hm. destruct Hm as [[M1 M2] M3].
        now rewrite M1, (F_avoid _ _ _ F g M1), (F_invalid _ _ _ F g M1), M2, M3. }
      pose proof (marks_reach c k0 _ Hrt RR) as MK.
      enough (MINE : pre c k0 (made (ev ++ d_tr s)) p' /\ all_from c k0 (ev ++ d_tr s)).
      { unfold src. cbn [d_pc d_tr]. split; [|apply MINE]. intros u.
        destruct (Z.eq_dec u t) as [->|Hne]; [rewrite upd_same; apply MINE|].
        rewrite upd_other by exact Hne. eapply pre_mono; [|apply IH1]. intros o. apply made_in_mono. }
      pose proof (IH1 t) as Me. clear IH1 R ch. unfold known, made in *. rewrite TT in KN.
      destruct (d_pc s t) as [|g|g|g|g|g|g|g|g b]; [now destruct Hp|..]; cbn [dsig handler_step] in *.
      * destruct (negb (in_range g) || avoid (tab (r_st (d_r s)) g) || invalid (tab (r_st (d_r s)) g)) eqn:Eb;
        injection E as <- <-; cbn; (split; [intros _; exact I|]); auto. split; [|exact IH2].
        intros Hm. destruct (FX g Hm) as [_ X]. congruence.
      * destruct (client_handler (tab (r_st (d_r s)) g)) as [f|]; injection E as <- <-; cbn; (split; [intros _; exact I|exact IH2]).
      * destruct (client_handler (tab (r_st (d_r s)) g)) as [f|] eqn:Ef; injection E as <- <-; cbn.
        -- split; [|split; [|exact IH2]].
           ++ intros Hm. exists f. now apply KN; [apply FX|].
           ++ intros Hr. now apply KN.
        -- split; [intros _; exact I|]. split; [auto|exact IH2].
      * destruct (r =? 0); injection E as <- <-; cbn.
        -- split; [intros _; exact I|]. split; [exact Me|]. split; [exact I|exact IH2].
        -- split; [intros _; exact I|]. split; [exact I|exact IH2].
      * assert (G : managedb c g = true -> sa_handler (appl_act (tab (r_st (d_r s)) g)) = HIgn ->
                    exists a, asked k0 (calls (api (d_tr s))) g a /\ Ignored = app_result a g).
        { intros Hm Eh. destruct (AP g Hm) as ((a & A1 & A2) & _). exists a. split; [exact A1|].
          unfold app_result, disposition_of. now rewrite <- A2, Eh. }
        destruct (sa_handler (appl_act (tab (r_st (d_r s)) g))) eqn:Eh; injection E as <- <-; cbn;
        (split; [intros _; exact I|]); auto.
      * assert (G : managedb c g = true -> sa_handler (appl_act (tab (r_st (d_r s)) g)) = HDfl ->
                    exists a, asked k0 (calls (api (d_tr s))) g a /\
                    (if noterm (tab (r_st (d_r s)) g) then NoAction
                     else if stop (tab (r_st (d_r s)) g) then Stopped else Terminated) = app_result a g).
        { intros Hm Eh. destruct (AP g Hm) as ((a & A1 & A2) & _). exists a. split; [exact A1|].
          destruct (MK g (proj1 (FX g Hm))) as [-> ->]. unfold app_result, disposition_of.
          rewrite <- A2, Eh. unfold is_noterm, is_stop.
          repeat match goal with |- context [if ?b then _ else _] => destruct b end; reflexivity. }
        destruct (sa_handler (appl_act (tab (r_st (d_r s)) g))) eqn:Eh; injection E as <- <-; cbn;
        (split; [intros _; exact I|]); auto. split; [|exact IH2].
        intros Hm. specialize (G Hm eq_refl). destruct (noterm (tab (r_st (d_r s)) g)); [exact G|].
        destruct (stop (tab (r_st (d_r s)) g)); exact G.
      * injection E as <- <-. cbn. split; [|exact IH2]. intros Hm.
        destruct (AP g Hm) as (_ & (a & A1 & A2) & _). exists a. split; [exact A1|]. now rewrite A2.
      * injection E as <- <-. cbn. split; [intros _; exact I|]. split; [|exact IH2]. intros Hm.
        destruct (AP g Hm) as ((a & A1 & A2) & _). specialize (Me Hm). cbn in Me.
        destruct (sa_handler (appl_act (tab (r_st (d_r s)) g))) eqn:Eh; auto;
        (split; [exists a; auto|split; [exact Me|split; discriminate]]).
Qed.

Lemma all_from_at c k0 h1 e h2 : all_from c k0 (h1 ++ e :: h2) -> from c k0 h2 e.
Proof. induction h1 as [|x h1 IH]; cbn; [tauto|intros [_ H]; auto]. Qed.

Lemma hist_ok_at c k0 h1 t g r o : hist_ok c k0 (h1 ++ DDone t g r :: o) ->
  managedb c g = true -> apart (api o) g -> undisturbed o t g ->
  proper (last_client (made o) g None) (last_app (made o) g (k_act k0 g)) t g (client_part o t) r.
Proof. induction h1 as [|x h1 IH]; cbn; [tauto|]. destruct x; tauto. Qed.

(** ** No crash *)
Definition safe_p (st : state) (p : dpc) : Prop :=
  match p with
  | DLoad g => client_handler (tab st g) <> None
  | DDfl g => sa_handler (appl_act (tab st g)) <> HIgn
  | DFlags g | DCall g _ => sa_handler (appl_act (tab st g)) <> HIgn /\ sa_handler (appl_act (tab st g)) <> HDfl
  | _ => True
  end.
Fixpoint no_crash (h : list devent) : Prop :=
  match h with
  | [] => True
  | DDone t g r :: o => (none_removed o t g -> r <> Crashed) /\ no_crash o
  | _ :: o => no_crash o
  end.
Definition safe (s : dstate) : Prop :=
  (forall t, none_removed (d_tr s) t (dsig (d_pc s t)) -> safe_p (r_st (d_r s)) (d_pc s t)) /\
  no_crash (d_tr s).

Lemma safe_exec c k0 s t st' w g : reached c k0 s -> exec c (r_st s) (r_th s t) = (st', w) ->
  t_pc (r_th s t) <> PIdle -> (forall v, removing (r_tr s) v g = false) ->
  (client_handler (tab (r_st s) g) <> None -> client_handler (tab st' g) <> None) /\
  (sa_handler (appl_act (tab (r_st s) g)) <> HIgn -> sa_handler (appl_act (tab st' g)) <> HIgn) /\
  (sa_handler (appl_act (tab (r_st s) g)) <> HDfl -> sa_handler (appl_act (tab st' g)) <> HDfl).
Proof.
  intros R He Hp NR. specialize (NR t). rewrite (removing_now c k0 s t g R Hp) in NR.
  pose proof (kind_reach c k0 s R t) as KD. unfold kind_ok in KD.
  split.
  - destruct (exec_client _ _ _ _ _ g He) as [->|(Hpc & Hs & ->)]; [auto|]. intros _. rewrite Hpc in KD.
    destruct (t_op (r_th s t)) as [| |s' [h|] a|]; try discriminate. cbn in *. subst. now rewrite Z.eqb_refl in NR.
  - destruct (exec_handler _ _ _ _ _ g He) as [->|(Hpc & Hs & ->)]; [auto|]. rewrite Hpc in KD. destruct KD as [K1 K2].
    destruct (t_op (r_th s t)) as [s' [a|] w'|s' h|s' h a|]; cbn in *; try discriminate; try contradiction;
    try (now destruct K2); subst; rewrite Z.eqb_refl in NR; cbn in NR.
    + destruct (sa_handler a); try discriminate; split; intros _; discriminate.
    + destruct h; try discriminate; split; intros _; discriminate.
Qed.

Lemma safe_reach c k0 s : dreached c k0 s -> safe s.
Proof.
  revert s. apply dreached_ind.
  - split; [intros t _; exact I|exact I].
  - intros s t ch s' R [IH1 IH2] E. destruct (proj_reach c k0 s R) as [RR TT].
    apply dstep_view in E. destruct E as [a r' Hp E|g Hp|r p' ev Hp E].
    + assert (NRM : forall u g, none_removed (api_event c (d_r s) t a ++ d_tr s) u g -> none_removed (d_tr s) u g).
      { intros u g. unfold api_event. destruct a as [o|]; cbn; [tauto|].
        destruct (exec c (r_st (d_r s)) (r_th (d_r s) t)) as [st' [th'|x]]; auto. }
      unfold safe. cbn [d_pc d_r d_tr]. split.
      2: { unfold api_event. destruct a as [o|]; cbn; auto.
           destruct (exec c (r_st (d_r s)) (r_th (d_r s) t)) as [st' [th'|x]]; auto. }
      intros u NR. apply NRM in NR. pose proof (IH1 u NR) as Me. pose proof (none_removed_now _ _ _ NR) as NW. rewrite <- TT in NW. clear NR. rename NW into NR.
      apply rstep_view in E.
      assert (G : forall st' w, exec c (r_st (d_r s)) (r_th (d_r s) t) = (st', w) ->
                    t_pc (r_th (d_r s) t) <> PIdle -> safe_p st' (d_pc s u)).
      { intros st' w He Hn. destruct (safe_exec c k0 _ t st' w _ RR He Hn NR) as (S1 & S2 & S3).
        destruct (d_pc s u); cbn in *; auto; destruct Me; split; auto. }
      destruct E as [o Hi Hm|st' th' Hn He|st' r Hn He]; cbn [r_st]; [exact Me|eapply G; eauto|eapply G; eauto].
    + unfold safe. cbn [d_pc d_r d_tr]. split; [|exact IH2]. intros u.
      destruct (Z.eq_dec u t) as [->|Hne]; [rewrite upd_same; intros _; exact I|].
      rewrite upd_other by exact Hne. cbn. destruct (Z.eqb_spec t u) as [->|_]; [now destruct Hne|]. apply IH1.
    + assert (NRM : forall u g, none_removed (ev ++ d_tr s) u g -> none_removed (d_tr s) u g).
      { intros u g. destruct (d_pc s t); cbn in E; repeat match type of E with context [match ?x with _ => _ end] => destruct x end;
        injection E as <- <-; auto. }
      enough (MINE : (none_removed (d_tr s) t (dsig p') -> safe_p (r_st (d_r s)) p') /\ no_crash (ev ++ d_tr s)).
      { unfold safe. cbn [d_pc d_r d_tr]. split; [|apply MINE]. intros u NR. apply NRM in NR.
        destruct (Z.eq_dec u t) as [->|Hne]; [rewrite upd_same in *; now apply MINE|].
        rewrite upd_other in * by exact Hne. now apply IH1. }
      pose proof (IH1 t) as Me. clear IH1 R ch TT.
      destruct (d_pc s t) as [|g|g|g|g|g|g|g|g b]; [now destruct Hp|..]; cbn [dsig handler_step safe_p] in *.
      * destruct (negb (in_range g) || avoid (tab (r_st (d_r s)) g) || invalid (tab (r_st (d_r s)) g));
        injection E as <- <-; cbn; auto. split; [auto|]. split; [discriminate|exact IH2].
      * destruct (client_handler (tab (r_st (d_r s)) g)) as [f|] eqn:Ef; injection E as <- <-; cbn; auto.
        split; [|exact IH2]. intros _. congruence.
      * destruct (client_handler (tab (r_st (d_r s)) g)) as [f|] eqn:Ef; injection E as <- <-; cbn; auto.
        split; [auto|]. split; [|exact IH2]. intros NR. now destruct (Me NR).
      * destruct (r =? 0); injection E as <- <-; cbn; auto. split; [auto|]. split; [discriminate|exact IH2].
      * destruct (sa_handler (appl_act (tab (r_st (d_r s)) g))) eqn:Eh; injection E as <- <-; cbn; auto;
        (split; [|first [exact IH2|split; [discriminate|exact IH2]]]); auto; intros _; congruence.
      * destruct (sa_handler (appl_act (tab (r_st (d_r s)) g))) eqn:Eh; injection E as <- <-; cbn; auto;
        try (split; [|exact IH2]; intros NR; rewrite Eh; split; [now apply Me|discriminate]).
        split; [auto|]. split; [|exact IH2]. intros _.
        destruct (noterm (tab (r_st (d_r s)) g)); [discriminate|]. destruct (stop (tab (r_st (d_r s)) g)); discriminate.
      * injection E as <- <-. cbn. split; [exact Me|exact IH2].
      * injection E as <- <-. cbn. split; [auto|]. split; [|exact IH2]. intros NR.
        destruct (Me NR) as [M1 M2]. destruct (sa_handler (appl_act (tab (r_st (d_r s)) g))); try discriminate; contradiction.
Qed.

Lemma no_crash_at h1 t g r o : no_crash (h1 ++ DDone t g r :: o) -> none_removed o t g -> r <> Crashed.
Proof. induction h1 as [|x h1 IH]; cbn; [tauto|]. destruct x; tauto. Qed.

(** ** The action before or after *)
Lemma inside_since h t g v o : quiet (api (at_arrival h t)) g -> op_sig o = g ->
  (exists m e0, api h = m ++ ECall v o :: e0 /\ away v m) -> In o (since h t).
Proof.
  intros Q Ho. induction h as [|e h IH]; intros (m & e0 & E & W); [destruct m; discriminate|].
  destruct e as [[u x|u x r]|u x|u x f|u x|u x r]; cbn in *; eauto.
  - destruct m as [|y m]; cbn in E; injection E as E1 E2.
    + left. congruence.
    + right. apply IH; [exact Q|]. exists m, e0. split; [exact E2|]. intros z Hz. apply W. now right.
  - destruct m as [|y m]; cbn in E; injection E as E1 E2; [discriminate|].
    apply IH; [exact Q|]. exists m, e0. split; [exact E2|]. intros z Hz. apply W. now right.
  - destruct (u =? t); [|eauto]. exfalso. specialize (Q v). rewrite E, inside_away in Q by exact W.
    cbn in Q. rewrite Z.eqb_refl in Q. apply Z.eqb_neq in Q. contradiction.
Qed.

(** Each part of the entry in force is from a candidate. *)
Record cand_ok (k0 : kern) (st : state) (h : list devent) (t g : Z) : Prop := {
  N_h : exists a, candidate k0 h t g a /\ sa_handler a = sa_handler (appl_act (tab st g));
  N_f : exists a, candidate k0 h t g a /\ sa_flags a = sa_flags (appl_act (tab st g));
  N_c : client_candidate h t g (client_handler (tab st g)) }.

Definition cand_p (k0 : kern) (h : list devent) (t : Z) (p : dpc) : Prop :=
  match p with
  | DClientRuns g => exists f, client_candidate h t g (Some f)
  | DCall g b => exists a, candidate k0 h t g a /\ N.testbit (sa_flags a) 2 = b
  | _ => True
  end.

Definition cand_e (c : config) (k0 : kern) (o : list devent) (e : devent) : Prop :=
  match e with
  | DClient t g f => managedb c g = true -> apart (api o) g -> quiet (api (at_arrival o t)) g ->
      client_candidate o t g (Some f)
  | DDone t g r => managedb c g = true -> apart (api o) g -> quiet (api (at_arrival o t)) g ->
      match r with
      | Refused => False
      | Taken => exists f, client_candidate o t g (Some f)
      | Ignored | NoAction | Stopped | Terminated => exists a, candidate k0 o t g a /\ r = app_result a g
      | Ran f b => (exists a, candidate k0 o t g a /\ sa_handler a = f) /\
                   (exists a, candidate k0 o t g a /\ N.testbit (sa_flags a) 2 = b) /\ f <> HDfl /\ f <> HIgn
      | Crashed => True
      end
  | _ => True
  end.
Fixpoint cand_h (c : config) (k0 : kern) (h : list devent) : Prop :=
  match h with [] => True | e :: o => cand_e c k0 o e /\ cand_h c k0 o end.

Definition cands (c : config) (k0 : kern) (s : dstate) : Prop :=
  (forall t, d_pc s t <> DNone -> let g := dsig (d_pc s t) in
     managedb c g = true -> apart (api (d_tr s)) g -> quiet (api (at_arrival (d_tr s) t)) g ->
     cand_ok k0 (r_st (d_r s)) (d_tr s) t g /\ cand_p k0 (d_tr s) t (d_pc s t)) /\
  cand_h c k0 (d_tr s).

Lemma exec_flags c st th st' w g : exec c st th = (st', w) ->
  sa_flags (appl_act (tab st' g)) = sa_flags (appl_act (tab st g)) \/
  t_pc th = PWrF /\ op_sig (t_op th) = g /\
  sa_flags (appl_act (tab st' g)) = sa_flags (the_act (t_op th)).
Proof.
  intros He. exec_cases He; cbn [tab set_tab set_kn]; auto;
  unfold upd; destruct (Z.eqb_spec g (op_sig (t_op th))) as [->|]; cbn; auto.
Qed.

Lemma apart_app m e g : apart (m ++ e) g -> apart e g.
Proof. induction m as [|[u o|u o r] m IH]; cbn; tauto. Qed.

Lemma candidate_mono k0 h h' t g a : (forall o, In o (since h t) -> In o (since h' t)) ->
  at_arrival h' t = at_arrival h t -> candidate k0 h t g a -> candidate k0 h' t g a.
Proof. intros A B [->|(o & C & D)]; [left; now rewrite B|right; eauto]. Qed.
Lemma client_candidate_mono h h' t g a : (forall o, In o (since h t) -> In o (since h' t)) ->
  at_arrival h' t = at_arrival h t -> client_candidate h t g a -> client_candidate h' t g a.
Proof. intros A B [->|(o & C)]; [left; now rewrite B|right; eauto]. Qed.
Lemma cand_p_mono k0 h h' t p : (forall o, In o (since h t) -> In o (since h' t)) ->
  at_arrival h' t = at_arrival h t -> cand_p k0 h t p -> cand_p k0 h' t p.
Proof.
  intros A B. destruct p; cbn; auto.
  - intros (f & C). exists f. eapply client_candidate_mono; eauto.
  - intros (a & C & D). exists a. split; [eapply candidate_mono; eauto|exact D].
Qed.

Lemma op_mask_idle c k0 s : reached c k0 s -> forall t, t_pc (r_th s t) <> PIdle -> is_mask (t_op (r_th s t)) = false.
Proof.
  revert s. apply (reached_ind c k0 (fun s => forall t, t_pc (r_th s t) <> PIdle -> is_mask (t_op (r_th s t)) = false)).
  - intros t H. now destruct H.
  - intros s t ch s' _ IH E t'. apply rstep_view in E. destruct E as [o Hi Hm|st' th' Hn He|st' r Hn He]; cbn [r_th];
    (destruct (Z.eq_dec t' t) as [->|Hne]; [rewrite upd_same|rewrite upd_other by exact Hne; apply IH]); cbn; auto.
    + rewrite (exec_op _ _ _ _ _ He). auto.
Qed.

Lemma cand_reach c k0 s : 0 <= c_rtmin c -> dreached c k0 s -> cands c k0 s.
Proof.
  intros Hrt. revert s. apply dreached_ind.
  - split; [intros t H; now destruct H|exact I].
  - intros s t ch s' R [IH1 IH2] E. destruct (proj_reach c k0 s R) as [RR TT].
    apply dstep_view in E. destruct E as [a r' Hp E|g Hp|r p' ev Hp E].
    + (* a step of a call *)
      assert (AT : forall u, at_arrival (api_event c (d_r s) t a ++ d_tr s) u = at_arrival (d_tr s) u /\
                (forall o, In o (since (d_tr s) u) -> In o (since (api_event c (d_r s) t a ++ d_tr s) u)) /\
                cand_h c k0 (api_event c (d_r s) t a ++ d_tr s)).
      { intros u. unfold api_event. destruct a as [o|]; cbn; [auto 6|].
        destruct (exec c (r_st (d_r s)) (r_th (d_r s) t)) as [st' [th'|x]]; cbn; auto 6. }
      unfold cands. cbn [d_pc d_r d_tr]. split; [|apply (AT 0)].
      intros u Hu Hm A Q. destruct (AT u) as (A1 & A2 & _). rewrite A1 in Q.
      rewrite api_app in A. apply apart_app in A.
      destruct (IH1 u Hu Hm A Q) as [[K1 K2 K3] K4].
      split; [|eapply cand_p_mono; eauto].
      set (g := dsig (d_pc s u)) in *.
      assert (OP : forall v, t_pc (r_th (d_r s) v) <> PIdle -> op_sig (t_op (r_th (d_r s) v)) = g ->
                     In (t_op (r_th (d_r s) v)) (since (d_tr s) u)).
      { intros v Hv Hs. apply (inside_since (d_tr s) u g v _ Q Hs). rewrite <- TT.
        exact (opened_reach c k0 _ RR v Hv). }
      assert (K : forall st' w, exec c (r_st (d_r s)) (r_th (d_r s) t) = (st', w) ->
                    t_pc (r_th (d_r s) t) <> PIdle ->
                    cand_ok k0 st' (d_tr s) u g).
      { intros st' w He Hn. pose proof (kind_reach c k0 _ RR t) as KD. unfold kind_ok in KD.
        pose proof (op_mask_idle c k0 _ RR t Hn) as NM.
        assert (RQ : op_sig (t_op (r_th (d_r s) t)) = g -> is_client (t_op (r_th (d_r s) t)) = false ->
                     op_act (t_op (r_th (d_r s) t)) <> None ->
                     candidate k0 (d_tr s) u g (the_act (t_op (r_th (d_r s) t)))).
        { intros Hs Hc Ha. right. exists (t_op (r_th (d_r s) t)). split; [now apply OP|].
          apply request_of; auto. unfold the_act. now destruct (op_act (t_op (r_th (d_r s) t))). }
        split.
        - destruct (exec_handler _ _ _ _ _ g He) as [->|(Hpc & Hs & ->)]; [exact K1|].
          rewrite Hpc in KD. exists (the_act (t_op (r_th (d_r s) t))). split; [now apply RQ|reflexivity].
        - destruct (exec_flags _ _ _ _ _ g He) as [->|(Hpc & Hs & ->)]; [exact K2|].
          rewrite Hpc in KD. exists (the_act (t_op (r_th (d_r s) t))). split; [now apply RQ|reflexivity].
        - destruct (exec_client _ _ _ _ _ g He) as [->|(Hpc & Hs & ->)]; [exact K3|].
          rewrite Hpc in KD. right. specialize (OP t Hn Hs).
          destruct (t_op (r_th (d_r s) t)) as [| |g' h a'|]; try discriminate. cbn in Hs. subst g'. eauto. }
      assert (K' : cand_ok k0 (r_st r') (d_tr s) u g).
      { apply rstep_view in E. destruct E as [o Hi Hmk|st' th' Hn He|st' r Hn He]; cbn [r_st];
        [split; assumption|eapply K; eauto|eapply K; eauto]. }
      destruct K' as [(a1 & X1 & Y1) (a2 & X2 & Y2) X3]. split.
      * exists a1. split; [eapply candidate_mono; eauto|exact Y1].
      * exists a2. split; [eapply candidate_mono; eauto|exact Y2].
      * eapply client_candidate_mono; eauto.
    + (* a signal arrives *)
      unfold cands. cbn [d_pc d_r d_tr]. split; [|cbn; auto].
      intros u. destruct (Z.eq_dec u t) as [->|Hne].
      * rewrite upd_same. cbn. rewrite Z.eqb_refl. intros _ Hm A Q. split; [|exact I].
        rewrite <- TT in A, Q.
        pose proof (Q_quiet _ _ _ _ (inseq_reach c k0 g _ Hrt RR A) Hm Q) as L.
        assert (CH : client_handler (tab (r_st (d_r s)) g) = last_client (made (d_tr s)) g None).
        { unfold made. rewrite <- TT.
          apply (client_reach c k0 g (d_r s) Hrt Hm RR A). intros u P.
          apply (pending_inside c k0 _ u g RR) in P. rewrite (Q u) in P. discriminate. }
        rewrite TT in L.
        split; unfold candidate, client_candidate; cbn; rewrite Z.eqb_refl.
        -- eexists. split; [left; reflexivity|]. unfold made. now rewrite L.
        -- eexists. split; [left; reflexivity|]. unfold made. now rewrite L.
        -- left. exact CH.
      * rewrite upd_other by exact Hne. unfold candidate, client_candidate. cbn.
        destruct (Z.eqb_spec t u) as [Etu|Htu]; [now destruct Hne|].
        intros Hu Hm A Q. destruct (IH1 u Hu Hm A Q) as [K1 K2].
        assert (AA : at_arrival (DArrive t g :: d_tr s) u = at_arrival (d_tr s) u).
        { cbn. apply Z.eqb_neq in Htu. now rewrite Htu. }
        assert (SS : since (DArrive t g :: d_tr s) u = since (d_tr s) u).
        { cbn. apply Z.eqb_neq in Htu. now rewrite Htu. }
        assert (S1 : forall o, In o (since (d_tr s) u) -> In o (since (DArrive t g :: d_tr s) u)) by (rewrite SS; auto).
        split; [|exact (cand_p_mono k0 (d_tr s) _ u _ S1 AA K2)].
        destruct K1 as [(a1 & X1 & Y1) (a2 & X2 & Y2) X3]. split.
        -- exists a1. split; [exact (candidate_mono k0 _ _ _ _ _ S1 AA X1)|exact Y1].
        -- exists a2. split; [exact (candidate_mono k0 _ _ _ _ _ S1 AA X2)|exact Y2].
        -- exact (client_candidate_mono _ _ _ _ _ S1 AA X3).
    + (* a step of the handler *)
      assert (AT : forall u, at_arrival (ev ++ d_tr s) u = at_arrival (d_tr s) u /\
                             since (ev ++ d_tr s) u = since (d_tr s) u).
      { intros u. destruct (d_pc s t); cbn in E; repeat match type of E with context [match ?x with _ => _ end] => destruct x end;
        injection E as <- <-; auto. }
      assert (CC : forall u g a, candidate k0 (ev ++ d_tr s) u g a = candidate k0 (d_tr s) u g a).
      { intros u g a. unfold candidate. now destruct (AT u) as [-> ->]. }
      assert (CL : forall u g a, client_candidate (ev ++ d_tr s) u g a = client_candidate (d_tr s) u g a).
      { intros u g a. unfold client_candidate. now destruct (AT u) as [-> ->]. }
      assert (API : api (ev ++ d_tr s) = api (d_tr s)) by now rewrite api_app, (handler_api _ _ _ _ _ _ E).
      assert (FX : forall g, managedb c g = true -> in_range g = true /\
                negb (in_range g) || avoid (tab (r_st (d_r s)) g) || invalid (tab (r_st (d_r s)) g) = false).
      { intros g Hm. pose proof (fixed_reach c k0 _ Hrt RR) as F.
        rewrite managedb_unfold, !andb_true_iff, !negb_true_iff in Hm. destruct Hm as [[M1 M2] M3].
        now rewrite M1, (F_avoid _ _ _ F g M1), (F_invalid _ _ _ F g M1), M2, M3. }
      pose proof (marks_reach c k0 _ Hrt RR) as MK.
      pose proof (IH1 t Hp) as Me. cbn zeta in Me.
      enough (MINE : (p' = DNone \/ (dsig p' = dsig (d_pc s t) /\
          (managedb c (dsig p') = true -> apart (api (d_tr s)) (dsig p') -> quiet (api (at_arrival (d_tr s) t)) (dsig p') ->
           cand_p k0 (d_tr s) t p'))) /\ cand_h c k0 (ev ++ d_tr s)).
      { destruct MINE as [M1 M2]. unfold cands. cbn [d_pc d_r d_tr]. split; [|exact M2]. intros u.
        rewrite API. destruct (AT u) as [AT1 AT2].
        rewrite AT1.
        destruct (Z.eq_dec u t) as [->|Hne].
        - rewrite upd_same. intros Hu Hm A Q. destruct M1 as [->|[Hs M1]]; [now destruct Hu|].
          split.
          + rewrite Hs in *. destruct (Me Hm A Q) as [[K1 K2 K3] _]. split.
            * destruct K1 as (a1 & X1 & Y1). exists a1. now rewrite CC.
            * destruct K2 as (a1 & X1 & Y1). exists a1. now rewrite CC.
            * now rewrite CL.
          + eapply cand_p_mono; [| |apply (M1 Hm A Q)]; [now rewrite AT2|exact AT1].
        - rewrite upd_other by exact Hne. intros Hu Hm A Q. destruct (IH1 u Hu Hm A Q) as [[K1 K2 K3] K4]. split.
          + split.
            * destruct K1 as (a1 & X1 & Y1). exists a1. now rewrite CC.
            * destruct K2 as (a1 & X1 & Y1). exists a1. now rewrite CC.
            * now rewrite CL.
          + eapply cand_p_mono; [| |exact K4]; [now rewrite AT2|exact AT1]. }
      clear IH1 R ch AT CC CL API.
      destruct (d_pc s t) as [|g|g|g|g|g|g|g|g b]; [now destruct Hp|..]; cbn [dsig handler_step] in *.
      * destruct (negb (in_range g) || avoid (tab (r_st (d_r s)) g) || invalid (tab (r_st (d_r s)) g)) eqn:Eb;
        injection E as <- <-; cbn; [|auto 6]. split; [now left|]. split; [|exact IH2].
        intros Hm. destruct (FX g Hm) as [_ X]. congruence.
      * destruct (client_handler (tab (r_st (d_r s)) g)) as [f|]; injection E as <- <-; cbn; auto 6.
      * destruct (client_handler (tab (r_st (d_r s)) g)) as [f|] eqn:Ef; injection E as <- <-; cbn.
        -- assert (G : managedb c g = true -> apart (api (d_tr s)) g -> quiet (api (at_arrival (d_tr s) t)) g ->
                       client_candidate (d_tr s) t g (Some f)).
           { intros Hm A Q. destruct (Me Hm A Q) as [[_ _ K3] _]. now rewrite Ef in K3. }
           split; [right; split; [reflexivity|]; intros Hm A Q; exists f; now apply G|]. split; [exact G|exact IH2].
        -- split; [now left|]. split; [auto|exact IH2].
      * destruct (r =? 0); injection E as <- <-; cbn; [|auto 6].
        split; [now left|]. split; [|split; [exact I|exact IH2]].
        intros Hm A Q. destruct (Me Hm A Q) as [_ (f & K4)]. exists f. exact K4.
      * assert (G : managedb c g = true -> apart (api (d_tr s)) g -> quiet (api (at_arrival (d_tr s) t)) g ->
                    sa_handler (appl_act (tab (r_st (d_r s)) g)) = HIgn ->
                    exists a, candidate k0 (d_tr s) t g a /\ Ignored = app_result a g).
        { intros Hm A Q Eh. destruct (Me Hm A Q) as [[(a & K1 & K2) _ _] _]. exists a. split; [exact K1|].
          unfold app_result, disposition_of. now rewrite K2, Eh. }
        destruct (sa_handler (appl_act (tab (r_st (d_r s)) g))) eqn:Eh; injection E as <- <-; cbn; auto 6.
      * assert (G : managedb c g = true -> apart (api (d_tr s)) g -> quiet (api (at_arrival (d_tr s) t)) g ->
                    sa_handler (appl_act (tab (r_st (d_r s)) g)) = HDfl ->
                    exists a, candidate k0 (d_tr s) t g a /\
                    (if noterm (tab (r_st (d_r s)) g) then NoAction
                     else if stop (tab (r_st (d_r s)) g) then Stopped else Terminated) = app_result a g).
        { intros Hm A Q Eh. destruct (Me Hm A Q) as [[(a & K1 & K2) _ _] _]. exists a. split; [exact K1|].
          destruct (MK g (proj1 (FX g Hm))) as [-> ->]. unfold app_result, disposition_of.
          rewrite K2, Eh. unfold is_noterm, is_stop.
          repeat match goal with |- context [if ?b then _ else _] => destruct b end; reflexivity. }
        destruct (sa_handler (appl_act (tab (r_st (d_r s)) g))) eqn:Eh; injection E as <- <-; cbn; auto 6.
        split; [now left|]. split; [|exact IH2].
        intros Hm A Q. specialize (G Hm A Q eq_refl). destruct (noterm (tab (r_st (d_r s)) g)); [exact G|].
        destruct (stop (tab (r_st (d_r s)) g)); exact G.
      * injection E as <- <-. cbn. split; [|exact IH2]. right. split; [reflexivity|]. intros Hm A Q.
        destruct (Me Hm A Q) as [[_ (a & K1 & K2) _] _]. exists a. split; [exact K1|]. now rewrite K2.
      * injection E as <- <-. cbn. split; [now left|]. split; [|exact IH2]. intros Hm A Q.
        destruct (Me Hm A Q) as [[(a & K1 & K2) _ _] K4]. cbn in K4.
        destruct (sa_handler (appl_act (tab (r_st (d_r s)) g))) eqn:Eh; auto;
        (split; [exists a; auto|split; [exact K4|split; discriminate]]).
Qed.

Lemma cand_at c k0 h1 e h2 : cand_h c k0 (h1 ++ e :: h2) -> cand_e c k0 h2 e.
Proof. induction h1 as [|x h1 IH]; cbn; [tauto|intros [_ H]; auto]. Qed.
