(** monitor_disable_new_threads and monitor_enable_new_threads. *)
From Verif Require Export LifeInfo3 LifeIgnoreSpec.

Local Open Scope nat_scope.

(** ** The flag of a node *)

Lemma ign_local dyn t u g tsd nc f c e n : frame_step dyn t u g tsd nc f c = Some e ->
  n_ignore (nd (e_g e) n) = n_ignore (nd g n) \/
  (exists b, f = FIgnore b /\ get_tn g tsd = Some n /\ n_ignore (nd (e_g e) n) = b) \/
  (n_ignore (nd (e_g e) n) = false /\
   (f = FClean CLZero n \/ (exists q my d, f = FPCZero q my d n) \/
    (resetting f = true /\ ~ (tsd = None \/ tsd = Some MAIN_TN)))).
Proof.
  intros H.
  assert (T' : forall n, nd (reset_list tsd g) n = nd g n \/
     (~ (tsd = None \/ tsd = Some MAIN_TN) /\ n = MAIN_TN /\ n_ignore (nd (reset_list tsd g) n) = false)).
  { intros m. destruct tsd as [k|]; [destruct (Z.eq_dec k MAIN_TN) as [->|NK]|];
      try (left; apply reset_main; auto; fail).
    unfold reset_list, get_tn. destruct (g_used g); [|now left]. destruct (n_magic (nd g k)); [|now left].
    destruct (Z.eqb_spec k MAIN_TN); [congruence|]. unfold nd, set_node. cbn. rewrite upd_if.
    destruct (Z.eqb_spec m MAIN_TN); [right|now left]. repeat split; auto. intros [X|X]; congruence. }
  specialize (T' n).
  fs_cases H; brk H; inversion H; subst; clear H; cbn [e_g]; auto;
    try (destruct T' as [T'|(A & -> & B)];
         [left|right; right; split; [|right; right; split; [reflexivity|exact A]]];
         unfold nd in *; cbn in *; rewrite ?upd_if; try destruct (Z.eqb_spec n MAIN_TN); subst; cbn; rewrite ?T', ?B; reflexivity);
    clear T';
    unfold nd; cbn; try g_brk; cbn; rewrite ?upd_if; auto;
    repeat match goal with |- context [Z.eqb ?a ?b] => destruct (Z.eqb_spec a b); subst end;
    cbn; auto; eauto 10.
Qed.

Lemma ign_ev dyn t u g tsd nc f c e t' b : frame_step dyn t u g tsd nc f c = Some e -> In (EIgnore t' b) (e_ev e) ->
  t' = t /\ f = FIgnore b /\ e_ev e = [EIgnore t b].
Proof.
  intros H I. fs_cases H; brk H; inversion H; subst; clear H; cbn in I;
    repeat match type of I with context [if ?b then _ else _] => destruct b; cbn in I end;
    repeat (destruct I as [I|I]; [try discriminate I; inversion I; subst; cbn; auto 8|]); try (destruct I; fail).
Qed.

Lemma ign_ev_of dyn t u g tsd nc b c e : frame_step dyn t u g tsd nc (FIgnore b) c = Some e -> e_ev e = [EIgnore t b].
Proof. intros H. destruct c; try discriminate H. cbn in H. inversion H; subst. reflexivity. Qed.

Lemma kdis_app t ev tr : known_disabled t (ev ++ tr) ->
  (known_disabled t tr /\ ~ In (EIgnore t false) ev) \/ (exists e1 e2, ev = e1 ++ EIgnore t true :: e2 /\ known t (e2 ++ tr)).
Proof.
  intros (m & b & E & N & K). revert m E N. induction ev as [|x ev IH]; intros m E N.
  - left. split; [|intros []]. exists m, b. auto.
  - destruct m as [|y m]; cbn in E; inversion E; subst.
    + right. exists [], ev. auto.
    + destruct (IH m H1) as [(A & B)|(e1 & e2 & A & B)].
      * intros X. apply N. now right.
      * left. split; [exact A|]. intros [X|X]; [apply N; now left|auto].
      * right. exists (y :: e1), e2. split; [cbn; now rewrite A|exact B].
Qed.

Lemma dis_keep t ev tr : disabled t tr -> ~ In (EIgnore t false) ev -> disabled t (ev ++ tr).
Proof.
  intros (m & b & -> & N) M. exists (ev ++ m), b. split; [now rewrite app_assoc|]. rewrite in_app_iff. tauto.
Qed.

Definition flag_inv (s : state) : Prop := forall t n, own_node s t n ->
  (known_disabled t (s_tr s) -> n_ignore (nd (s_g s) n) = true) /\
  (n_ignore (nd (s_g s) n) = true ->
   disabled t (s_tr s) /\ (t <> MAIN -> th_live (s_th s t) = true -> exists m, th_tsd (s_th s t) = Some m)).

Lemma flag_reach dyn s : reach dyn orderly s -> flag_inv s.
Proof.
  apply (reach_invariant dyn orderly flag_inv).
  - intros t n _. split.
    + intros (m & b & E & _). cbn in E. destruct m; discriminate E.
    + intros E. unfold nd, init, glob0 in E. cbn in E. rewrite ?upd_if in E. destruct (Z.eqb n MAIN_TN); discriminate E.
  - clear s. intros s t c s' RO HI HO HS v n O.
    pose proof (orderly_clean _ _ RO) as RC. pose proof (orderly_any _ _ RO) as RA. pose proof (born_reach _ _ RA) as BO.
    assert (ON : own_node s v n \/ (v = s_next s /\ s_g s' = s_g s /\ blank (nd (s_g s) n))).
    { destruct O as [X|[NM B]]; [left; now left|].
      destruct (belongs_new _ _ _ _ _ _ _ RC (proj1 HO) HS B) as [X|(-> & -> & q & my & r & Hst)]; [left; now right|right].
      split; [reflexivity|]. pose proof HS as HS0. apply step_view in HS. destruct HS as (_ & LV & V).
      inversion V as [| | | | | | |f r' e Hst' Hun Hbar Hfs Es']; subst; try discriminate.
      rewrite Hst in Hst'. inversion Hst'; subst. cbn in Hfs. inversion Hfs; subst. split; [reflexivity|].
      pose proof (blank_reach _ _ RO t (FPCReal q my n)) as Q. rewrite Hst in Q. apply Q. now left. }
    assert (TSD : (exists m, th_tsd (s_th s v) = Some m) -> v <> MAIN -> th_live (s_th s' v) = true -> exists m, th_tsd (s_th s' v) = Some m).
    { intros (m & T) NM L. exists m. destruct (tsd_step _ _ _ _ _ _ _ RC (proj1 HO) HS NM T) as [X|(_ & X)]; [exact X|].
      rewrite X in L. discriminate L. }
    assert (LIV : v <> s_next s -> th_live (s_th s' v) = true -> th_live (s_th s v) = true).
    { intros NX L. apply step_view in HS. destruct HS as (_ & LV & V). destruct (Z.eq_dec v t) as [->|NE]; [exact LV|].
      destruct V as [| | | | | | |f r e Hst Hun Hbar Hfs Es']; subst; unfold add_ev in *; cbn [set_th s_th] in L;
        try (rewrite upd_other in L by auto; exact L).
      destruct (e_child e) eqn:HC.
      - unfold apply_eff in L. rewrite HC in L. destruct (child_shape _ _ _ _ _ _ _ _ _ Hfs HC) as (_ & _ & _ & _ & _ & N & K & _).
        rewrite N, K in L. cbn in L. rewrite upd_other in L by auto. discriminate L.
      - rewrite apply_live in L by auto. rewrite (proj2 (Z.eqb_neq v t) NE) in L.
        destruct (e_new e); [|congruence]. rewrite (proj2 (Z.eqb_neq v (s_next s))) in L by auto. exact L. }
    assert (NXT : own_node s v n -> v <> s_next s \/ n_ignore (nd (s_g s) n) = false).
    { intros O0. destruct (n_ignore (nd (s_g s) n)) eqn:X; [left|now right]. intros ->.
      destruct (proj2 (HI _ _ O0) X) as ((m & b & E & _) & _).
      destruct (born_fresh _ BO (s_next s) (Z.le_refl _)) as (_ & _ & F).
      apply (F (EIgnore (s_next s) true)); [rewrite E; apply in_or_app; right; now left|reflexivity]. }
    assert (KEEP : own_node s v n -> n_ignore (nd (s_g s) n) = true ->
       v <> MAIN -> th_live (s_th s' v) = true -> exists m, th_tsd (s_th s' v) = Some m).
    { intros O0 X NM L. destruct (NXT O0) as [NX|]; [|congruence]. apply TSD; auto. apply (proj2 (proj2 (HI _ _ O0) X)); auto. }
    assert (NEWB : ~ known_disabled (s_next s) (s_tr s)).
    { intros (m & b & E & _). destruct (born_fresh _ BO (s_next s) (Z.le_refl _)) as (_ & _ & F).
      apply (F (EIgnore (s_next s) true)); [rewrite E; apply in_or_app; right; now left|reflexivity]. }
    apply step_view in HS. destruct HS as (_ & LV & V).
    assert (NT : t <> s_next s).
    { intros ->. destruct (born_fresh _ BO (s_next s) (Z.le_refl _)) as (_ & F & _). congruence. }
    assert (SIMPLE : forall ev, s_g s' = s_g s -> s_tr s' = ev ++ s_tr s ->
       (forall e, In e ev -> e = EDeliver t \/ e = EEnd t) ->
       (known_disabled v (s_tr s') -> n_ignore (nd (s_g s') n) = true) /\
       (n_ignore (nd (s_g s') n) = true -> disabled v (s_tr s') /\
         (v <> MAIN -> th_live (s_th s' v) = true -> exists m, th_tsd (s_th s' v) = Some m))).
    { intros ev EG ET EV. rewrite EG, ET. destruct ON as [O0|(-> & _ & B)].
      - destruct (HI v n O0) as [A C]. split.
        + intros X. apply kdis_app in X. destruct X as [[X _]|(e1 & e2 & X & _)]; [auto|].
          destruct (EV (EIgnore v true)) as [Y|Y]; [rewrite X; apply in_or_app; right; now left|discriminate Y..].
        + intros X. split; [|auto]. apply dis_keep; [now apply C|]. intros Y. destruct (EV _ Y) as [Z|Z]; discriminate Z.
      - unfold blank in B. split; [|intros X; decompose [and] B; congruence].
        intros X. apply kdis_app in X. destruct X as [[X _]|(e1 & e2 & X & _)]; [contradiction|].
        destruct (EV (EIgnore (s_next s) true)) as [Y|Y]; [rewrite X; apply in_or_app; right; now left|discriminate Y..]. }
    destruct V as [| | | | | | |f r e Hst Hun Hbar Hfs Es'];
      try (apply (SIMPLE []); subst; cbn; auto; intros ? []; fail);
      try (match goal with H : s' = add_ev ?l _ |- _ => apply (SIMPLE l); subst; cbn; auto; intros ? [<-|[]]; auto; fail end).
    all: try (apply (SIMPLE [EDeliver t]); subst; cbn; auto; intros ? [<-|[]]; auto; fail).
    all: try (apply (SIMPLE [EEnd t]); subst; cbn; auto; intros ? [<-|[]]; auto; fail).
    subst s'. rewrite apply_g, apply_tr in *. clear SIMPLE. assert (IN : In f (th_stack (s_th s t))) by (rewrite Hst; now left).
    destruct ON as [O0|(-> & EG & B)].
    2: { unfold blank in B. split.
         - intros X. exfalso. apply kdis_app in X. destruct X as [[X _]|(e1 & e2 & X & _)]; [contradiction|].
           destruct (ign_ev _ _ _ _ _ _ _ _ _ (s_next s) true Hfs) as (Y & _); [rewrite X; apply in_or_app; right; now left|congruence].
         - intros X. rewrite EG in X. decompose [and] B. congruence. }
    destruct (HI v n O0) as [A C].
    assert (KE : n_ignore (nd (e_g e) n) = n_ignore (nd (s_g s) n) \/
      (v = t /\ exists b, f = FIgnore b /\ e_ev e = [EIgnore t b] /\ n_ignore (nd (e_g e) n) = b)).
    { destruct (ign_local _ _ _ _ _ _ _ _ _ n Hfs) as [X|[(b & -> & G & X)|(X & [->|[(q & my & d & ->)|(RS & T)]])]]; [now left|right|exfalso..].
      - pose proof (tn_node _ _ _ _ _ RO LV IN eq_refl G) as O2.
        assert (v = t) by (eapply own_node_who; eauto). subst v. split; [reflexivity|].
        exists b. repeat split; auto. eapply ign_ev_of; eauto.
      - pose proof (who_reach _ _ RC) as W. pose proof (nodes_reach _ _ RC) as (N & _ & _).
        assert (NMT : t <> MAIN) by (intros ->; pose proof (who_bt _ W _ IN) as Y; discriminate Y).
        assert (O2 : own_node s t n). { right. split; [exact NMT|]. left. eexists. split; [exact IN|]. cbn. rewrite Z.eqb_refl. auto. }
        assert (v = t) by (eapply own_node_who; eauto). subst v.
        pose proof (bt_top _ _ _ _ _ RA Hst eq_refl) as ->.
        assert (NL : ~ In n (g_list (s_g s))) by exact (ni_q _ N t _ IN).
        destruct c; try discriminate Hfs. cbn in Hfs. inversion Hfs; subst; clear Hfs.
        destruct O as [[Y _]|[_ [(b & IB & OB & _)|(_ & L & _)]]]; [contradiction| |].
        + rewrite apply_stack in IB by auto. cbn in IB. rewrite Z.eqb_refl in IB. cbn in IB.
          destruct IB as [<-|[<-|[]]]; discriminate OB.
        + rewrite apply_g in L. exact (NL L).
      - destruct O0 as [[-> ->]|[NM B]].
        + pose proof (hold_main _ _ _ _ RC IN) as Y. discriminate Y.
        + eapply (belongs_not_making dyn s v n t (FPCZero q my d n)); eauto. unfold making. cbn. now rewrite Z.eqb_refl.
      - elim T. eapply reset_tsd; eauto. }
    destruct KE as [X|(-> & b & -> & EV & X)]; rewrite ?X.
    + split.
      * intros D. apply kdis_app in D. destruct D as [[D _]|(e1 & e2 & D & K)]; [auto|].
        destruct (ign_ev _ _ _ _ _ _ _ _ _ v true Hfs) as (-> & -> & EV); [rewrite D; apply in_or_app; right; now left|].
        rewrite EV in D. destruct e1 as [|y e1]; [|destruct e1; discriminate D]. inversion D; subst e2. cbn in K.
        destruct (get_tn (s_g s) (th_tsd (s_th s t))) as [m|] eqn:G.
        -- pose proof (tn_node _ _ _ _ _ RO LV IN eq_refl G) as O2.
           rewrite (own_node_one _ _ _ _ _ RO LV O0 O2) in *.
           destruct c; try discriminate Hfs. cbn in Hfs. rewrite G in Hfs. inversion Hfs; subst. cbn in X.
           unfold nd in X |- *. cbn in X. rewrite upd_same in X. cbn in X. congruence.
        -- elim (tn_known _ _ _ _ RO LV IN eq_refl eq_refl K G).
      * intros D. split; [|auto]. apply dis_keep; [now apply C|]. intros Y.
        destruct (ign_ev _ _ _ _ _ _ _ _ _ v false Hfs Y) as (-> & -> & EV).
        destruct (get_tn (s_g s) (th_tsd (s_th s t))) as [m|] eqn:G.
        -- pose proof (tn_node _ _ _ _ _ RO LV IN eq_refl G) as O2.
           rewrite (own_node_one _ _ _ _ _ RO LV O0 O2) in *.
           destruct c; try discriminate Hfs. cbn in Hfs. rewrite G in Hfs. inversion Hfs; subst. cbn in X.
           unfold nd in X, D. cbn in X. rewrite upd_same in X. cbn in X. congruence.
        -- destruct (tn_none _ _ _ _ RO LV IN eq_refl eq_refl G) as (NM & T).
           destruct (proj2 (C D) NM LV) as (m & Z). congruence.
    + rewrite EV. split.
      * intros D. apply kdis_app in D. destruct D as [[_ D]|(e1 & e2 & D & K)].
        -- destruct b; [reflexivity|]. elim D. now left.
        -- destruct e1 as [|y e1]; [|destruct e1; discriminate D]. now inversion D.
      * intros ->. split; [exists [], (s_tr s); split; [reflexivity|intros []]|]. intros NM L. apply TSD; auto.
        destruct (ign_local _ _ _ _ _ _ _ _ _ n Hfs) as [Y|[(b & _ & G & _)|(Y & _)]]; [| |congruence].
        -- rewrite X in Y. symmetry in Y. exact (proj2 (C Y) NM LV).
        -- unfold get_tn in G. destruct (g_used (s_g s)) eqn:U.
           ++ destruct (th_tsd (s_th s t)) as [m|]; [eauto|discriminate G].
           ++ rewrite (who_alone _ (who_reach _ _ RC) U t NM) in LV. discriminate LV.
Qed.

(** ** What a call of pthread_create decides *)

(** Frames of a call whose thread will be monitored. *)
Definition chosen (f : frame) : option creq :=
  match f with
  | FPCSup q _ | FPCSupSet q _ | FPCPre q _ | FPCGot q _ _
  | FPCLock q _ _ | FPCPick q _ _ | FPCTake q _ _ _ | FPCArray q _ _
  | FPCInc q _ _ _ | FPCZero q _ _ _ | FPCUnlock q _ _ _ | FPCFill q _ _ _ | FPCReal q _ _
  | FPCPost q _ _ => Some q
  | FCb _ (KPreCreate q _) => Some q
  | _ => None
  end.

Lemma during_app P t q ev tr : during P t q tr -> during P t q (ev ++ tr).
Proof. intros (x & b & -> & A & B). exists (ev ++ x), b. now rewrite app_assoc. Qed.
Lemma during_now (P : list event -> Prop) t q tr : In (ECreateCall t q) tr -> P tr -> during P t q tr.
Proof. intros A B. exists [], tr. auto. Qed.

Definition Qdis (g : glob) (tr : list event) (t : Z) (f : frame) : Prop :=
  match chosen f with
  | Some q => during (fun b => ~ known_disabled t b) t q tr
  | None => match f with
            | FPCIgn q None => during (fun b => ~ known t b) t q tr
            | FPCReal0 q => In (ERet t (CbPreCreate (q_id q)) IGNORE_NEW_THREAD) tr \/
                            during (disabled t) t q tr \/ during (fun b => ~ known t b) t q tr
            | _ => True
            end
  end.

Lemma Qdis_app g g' tr ev t f : Qdis g tr t f -> Qdis g' (ev ++ tr) t f.
Proof.
  unfold Qdis. destruct (chosen f); [apply during_app|]. destruct f; auto.
  - destruct my; [auto|apply during_app].
  - intros [A|[A|A]]; [left; apply in_or_app; now right|right; left; now apply during_app|right; right; now apply during_app].
Qed.

Lemma dis_reach dyn s : reach dyn orderly s -> fr_inv Qdis s.
Proof.
  apply fr_reach.
  - intros t f I. cbn in I. rewrite upd_if in I. destruct (Z.eqb t MAIN); [|destruct I].
    cbn in I. repeat (destruct I as [<-|I]; [exact Logic.I|]). destruct I.
  - intros g tr t f e t' _ Q. exact (Qdis_app g g tr [e] t f Q).
  - intros g tr t f I. cbn in I. repeat (destruct I as [<-|I]; [exact Logic.I|]). destruct I.
  - intros. exact I.
  - clear s. intros s t c f r e R FI HO Hst LV Hfs. pose proof (orderly_clean _ _ R) as RC. pose proof (orderly_any _ _ R) as RA.
    assert (IN : In f (th_stack (s_th s t))) by (rewrite Hst; now left).
    pose proof (FI t f IN) as Q. pose proof (call_frames _ _ RA t f IN) as QC.
    split; [|split].
    + intros f' I'.
      assert (D : (chosen f' = None /\ (forall q, f' <> FPCIgn q None) /\ (forall q, f' <> FPCReal0 q)) \/
                  (chosen f' <> None /\ chosen f' = chosen f) \/ (f' = f) \/
                  (exists q, f = FPCInfo q /\ f' = FPCIgn q None /\ get_tn (s_g s) (th_tsd (s_th s t)) = None) \/
                  (exists q n, f = FPCIgn q (Some n) /\
                     ((n_ignore (nd (s_g s) n) = true /\ f' = FPCReal0 q) \/
                      (n_ignore (nd (s_g s) n) = false /\ f' = FPCSup q (Some n)))) \/
                  (exists q, f = FPCIgn q None /\ f' = FPCReal0 q) \/
                  (exists q my, f = FPCGot q my IGNORE_NEW_THREAD /\ f' = FPCReal0 q)).
      { clear - Hfs I'. fs_cases Hfs; brk Hfs; inversion Hfs; subst; clear Hfs; cbn in I';
          repeat match type of I' with context [if ?b then _ else _] => destruct b eqn:?; cbn in I' end;
          repeat (destruct I' as [<-|I']; [
            first [left; split; [reflexivity|split; intros ? X; discriminate X]
                  |right; left; split; [discriminate|reflexivity]
                  |right; right; left; reflexivity
                  |idtac]|]); try (destruct I'; fail).
        all: try (do 3 right; left; eexists; repeat split; eauto; fail).
        all: try (do 4 right; left; do 2 eexists; split; [reflexivity|]; auto; fail).
        all: try (do 5 right; left; eexists; split; reflexivity).
        all: try (do 6 right; do 2 eexists; split; [|reflexivity]; f_equal; apply Z.eqb_eq; assumption). }
      destruct D as [(D1 & D2 & D3)|[(D1 & D2)|[->|[(q & -> & -> & G)|[(q & n & -> & D)|[(q & -> & ->)|(q & my & -> & ->)]]]]]].
      * unfold Qdis. rewrite D1. destruct f'; try exact I; [|elim (D3 q eq_refl)]. destruct my; [exact I|elim (D2 q eq_refl)].
      * apply (Qdis_app (s_g s) (e_g e) (s_tr s) (e_ev e)). unfold Qdis in Q |- *. rewrite D2.
        destruct (chosen f); [exact Q|congruence].
      * apply (Qdis_app (s_g s) (e_g e) (s_tr s) (e_ev e)). exact Q.
      * apply (Qdis_app (s_g s) (e_g e) (s_tr s) (e_ev e)). cbn. apply during_now; [exact QC|].
        intros K. exact (tn_known _ _ _ _ R LV IN eq_refl eq_refl K G).
      * destruct (my_node _ _ t _ q n R IN eq_refl) as (_ & O). destruct (flag_reach _ _ R t n O) as [F1 F2].
        apply (Qdis_app (s_g s) (e_g e) (s_tr s) (e_ev e)). destruct D as [(D & ->)|(D & ->)]; cbn.
        -- right. left. apply during_now; [exact QC|]. now apply F2.
        -- apply during_now; [exact QC|]. intros K. rewrite (F1 K) in D. discriminate D.
      * apply (Qdis_app (s_g s) (e_g e) (s_tr s) (e_ev e)). cbn in Q |- *. auto.
      * apply (Qdis_app (s_g s) (e_g e) (s_tr s) (e_ev e)). cbn. left.
        pose proof (data_reach _ _ RC t _ IN) as X. exact X.
    + intros t' f' _ X. now apply Qdis_app with (g := s_g s).
    + intros st f' EN I'.
      assert (X : chosen f' = None /\ (forall q, f' <> FPCIgn q None) /\ (forall q, f' <> FPCReal0 q)).
      { clear - Hfs EN I'. fs_cases Hfs; brk Hfs; inversion Hfs; subst; clear Hfs; cbn in EN; try discriminate EN; inversion EN; subst;
          cbn in I'; repeat (destruct I' as [<-|I']; [split; [reflexivity|split; intros ? X; discriminate X]|]); destruct I'. }
      destruct X as (D1 & D2 & D3). unfold Qdis. rewrite D1. destruct f'; try exact I; [|elim (D3 q eq_refl)]. destruct my; [exact I|elim (D2 q eq_refl)].
Qed.

(** ** In the history *)

(** Call numbers are not reused, so a moment of the call comes after it. *)
Lemma call_suffix p m (x : event) l ev b : m ++ x :: l = ev ++ b -> In x b -> p x = true -> count p (m ++ x :: l) <= 1 ->
  exists m', b = m' ++ x :: l /\ m = ev ++ m'.
Proof.
  revert m. induction ev as [|y ev IH]; intros m E I P C; cbn in E.
  - exists m. auto.
  - destruct m as [|z m]; cbn in E; inversion E; subst.
    + exfalso. cbn in C. rewrite P in C. pose proof (count_in p _ _ (in_or_app ev b y (or_intror I)) P). lia.
    + destruct (IH m H1 I P) as (m' & -> & ->); [|exists m'; auto].
      cbn in C. destruct (p y); lia.
Qed.

Lemma not_disabled dyn s t q : reach dyn any s -> during (fun b => ~ known_disabled t b) t q (s_tr s) ->
  ~ disabled_call t q (s_tr s).
Proof.
  intros R (ev & b & E & I & N) (m & m' & b' & E' & A & B & K).
  destruct (ids_reach _ _ R) as (_ & O). specialize (O (q_id q)).
  destruct (call_suffix (call_id (q_id q)) m (ECreateCall t q) (m' ++ EIgnore t true :: b') ev b) as (m2 & -> & ->).
  - congruence.
  - exact I.
  - cbn. apply Z.eqb_refl.
  - rewrite <- E'. destruct (Z.ltb _ _); lia.
  - apply N. exists (m2 ++ ECreateCall t q :: m'), b'. split; [now rewrite <- app_assoc|]. split; [|exact K].
    rewrite !in_app_iff in *. cbn. intros [X|[X|X]]; [auto|discriminate X|auto].
Qed.

Definition Jdis (tr : list event) (e : event) : Prop :=
  match e with
  | ECreate t q _ true | ECreateFail t q true => ~ disabled_call t q tr
  | ECreate t q _ false | ECreateFail t q false =>
      In (ERet t (CbPreCreate (q_id q)) IGNORE_NEW_THREAD) tr \/
      during (disabled t) t q tr \/ during (fun b => ~ known t b) t q tr
  | ECall t (CbPreCreate i) | ECall t (CbPostCreate i _) => forall q, q_id q = i -> ~ disabled_call t q tr
  | _ => True
  end.

Lemma dis_hist dyn s : reach dyn orderly s -> hist Jdis (s_tr s).
Proof.
  apply hist_reach; try (intros; exact I).
  clear s. intros s t c f r e R HI HO Hst LV Hfs. pose proof (orderly_any _ _ R) as RA.
  assert (IN : In f (th_stack (s_th s t))) by (rewrite Hst; now left).
  pose proof (dis_reach _ _ R t f IN) as Q. pose proof (call_frames _ _ RA t f IN) as QC.
  assert (ID : forall q q', In (ECreateCall t q) (s_tr s) -> q_id q' = q_id q ->
     during (fun b => ~ known_disabled t b) t q (s_tr s) -> ~ disabled_call t q' (s_tr s)).
  { intros q q' I E D X. assert (q = q').
    { destruct X as (m & m' & b & X & _). eapply (one_call dyn s t q t q' RA); auto.
      rewrite X. apply in_or_app. right. now left. }
    subst q'. exact (not_disabled _ _ _ _ RA D X). }
  pose proof (fun q => not_disabled dyn s t q RA) as ND. unfold Qdis in Q. unfold Qcall in QC.
  fs_cases Hfs; brk Hfs; inversion Hfs; subst; clear Hfs; cbn [e_ev justified];
    repeat match goal with |- context [if ?b then _ else _] => destruct b end;
    cbn [justified app]; repeat split; cbn [Jdis]; auto; cbn in Q, QC; eauto.
  all: try (destruct p; exact I).
  all: try (destruct c0; exact I).
  all: intros q' E; eapply ID; eauto.
Qed.
