(** The fini_thread of the thread that runs the exit callbacks. *)
From Verif Require Export LifeWaitEnd LifeWaitSpec.

Local Open Scope nat_scope.

Lemma prompt_orderly dyn s : reach dyn prompt s -> reach dyn orderly s.
Proof. apply reach_weaken. intros x t c [A _]. exact A. Qed.

(** ** A thread that has begun its fini_thread has issued it, or is about to *)

Lemma fstart_local dyn t u g tsd nc f c e n : frame_step dyn t u g tsd nc f c = Some e ->
  n_fstart (nd (e_g e) n) = true -> n_fstart (nd g n) = true \/
  (exists f', e_fr e = [f'] /\ pend_call f' = true) \/ (f = FClean CLMark1 n).
Proof.
  intros H W. fs_cases H; brk H; inversion H; subst; clear H; cbn [e_g e_fr] in W |- *; auto;
    revert W; unfold nd; cbn; g_brk; cbn; rewrite ?upd_if; auto;
    repeat match goal with |- context [Z.eqb ?a ?b] => destruct (Z.eqb_spec a b); subst end;
    cbn; auto; try congruence; eauto 10; try discriminate.
Qed.

Definition fini_issued (u : Z) (tr : list event) : Prop := exists d, In (ECall u (CbFiniThread d)) tr.

Lemma pend_issue dyn t u g tsd nc f e : frame_step dyn t u g tsd nc f CStep = Some e -> pend_call f = true ->
  exists d, e_ev e = [ECall t (CbFiniThread d)].
Proof.
  intros H P. destruct f; try discriminate P; try (destruct p; try discriminate P); cbn in H; inversion H; subst; cbn; eauto.
Qed.

(** The node of an old thread: the next thread to be created has none. *)
Lemma belongs_old dyn s t c f r e u n : reach dyn clean_forks s -> clean_forks s t c -> th_live (s_th s t) = true ->
  th_stack (s_th s t) = f :: r ->
  frame_step dyn t (s_next s) (s_g s) (th_tsd (s_th s t)) (th_nc (s_th s t)) f c = Some e ->
  e_new e <> None -> belongs s u n -> u <> s_next s.
Proof.
  intros RC HO LV Hst Hfs EN B ->. pose proof (born_reach _ _ (clean_any _ _ RC)) as BO.
  destruct (born_fresh _ BO (s_next s) (Z.le_refl _)) as (E1 & _ & E3).
  destruct B as [(b & I & _)|(NM & L & S)]; [rewrite E1 in I; destruct I|].
  assert (RS : existsb resetting (th_stack (s_th s MAIN)) = false).
  { destruct (existsb resetting (th_stack (s_th s MAIN))) eqn:X; [|reflexivity].
    destruct (who_reset _ (who_reach _ _ RC) MAIN X) as (_ & _ & D).
    destruct (Z.eq_dec t MAIN) as [->|NE]; [|rewrite (D t NE) in LV; discriminate].
    pose proof (proj2 HO X) as CS. exfalso. apply EN. clear - Hfs CS.
    fs_cases Hfs; brk Hfs; inversion Hfs; try reflexivity; discriminate CS. }
  destruct (li_fact _ (listed_reach _ _ RC) RS n L NM) as ((c0 & q & d & _ & _ & _ & _ & _ & _ & J & _) & _).
  rewrite S in J. exact (E3 _ J eq_refl).
Qed.

Lemma issued_reach dyn s : reach dyn prompt s -> forall u n, belongs s u n -> th_live (s_th s u) = true ->
  n_fstart (nd (s_g s) n) = true ->
  fini_issued u (s_tr s) \/ exists f r, th_stack (s_th s u) = f :: r /\ pend_call f = true.
Proof.
  apply (belongs_reach dyn prompt (fun s u n => th_live (s_th s u) = true -> n_fstart (nd (s_g s) n) = true ->
    fini_issued u (s_tr s) \/ exists f r, th_stack (s_th s u) = f :: r /\ pend_call f = true)).
  - intros. now apply prompt_orderly.
  - intros s0 t c [A _]. exact A.
  - clear s. intros s t c s' u n RP HI [HO HP] HS B HB LV' W. pose proof (prompt_orderly _ _ RP) as R.
    pose proof HS as HS0. apply step_view in HS. destruct HS as (_ & LV & V).
    assert (MONO : fini_issued u (s_tr s) -> fini_issued u (s_tr s')).
    { intros (d & I). exists d. eapply tr_step; eauto. }
    destruct (Z.eq_dec u t) as [->|NE].
    + specialize (HB LV). unfold call_at_once in HP.
      destruct V as [| | | | | | |f r e Hst Hun Hbar Hfs Es']; subst.
      1-7: cbn [s_g set_th add_ev] in W; destruct (HB W) as [X|(f1 & r1 & E & P)]; [left; now apply MONO|];
        exfalso; rewrite ?E in *; specialize (HP P); try discriminate HP; try congruence.
      { match goal with Q : _ = FUnwind :: _ |- _ => inversion Q; subst; discriminate P end. }
      rewrite apply_g in W. rewrite Hst in HP.
      destruct (n_fstart (nd (s_g s) n)) eqn:W0.
      * destruct (HB eq_refl) as [X|(f1 & r1 & E & P)]; [left; now apply MONO|].
        rewrite Hst in E. inversion E; subst f1 r1. specialize (HP P). subst c.
        destruct (pend_issue _ _ _ _ _ _ _ _ Hfs P) as (d & EV). left. exists d. rewrite apply_tr, EV. now left.
      * assert (IN : In f (th_stack (s_th s t))) by (rewrite Hst; now left).
        destruct (fstart_local _ _ _ _ _ _ _ _ _ n Hfs W) as [X|[(f' & E & P)| ->]]; [congruence| |].
        -- right. exists f', r. split; [|exact P].
           destruct (e_child e) eqn:HC.
           { destruct (child_shape _ _ _ _ _ _ _ _ _ Hfs HC) as (_ & _ & _ & _ & _ & _ & _ & [(d & _ & X)|(_ & X)]);
               rewrite E in X; [discriminate X|inversion X; subst; discriminate P]. }
           rewrite apply_stack by auto. rewrite Z.eqb_refl, E.
           destruct (e_new e); [|reflexivity]. destruct (Z.eqb_spec t (s_next s)) as [X|]; [|reflexivity].
           destruct (born_fresh _ (born_reach _ _ (orderly_any _ _ R)) t) as (_ & Y & _); [lia|congruence].
        -- left. apply MONO. pose proof (ret_frames _ _ (orderly_any _ _ R) t _ IN) as (d & v & J).
           destruct (in_split _ _ J) as (x & y & E). exists d. rewrite E. apply in_or_app. right. right.
           exact (ret_after_call _ _ (orderly_any _ _ R) _ _ _ E).
    + assert (SAME : th_live (s_th s' u) = true -> th_live (s_th s u) = true /\
               (forall f r, th_stack (s_th s u) = f :: r -> th_stack (s_th s' u) = f :: r)).
      { destruct V as [| | | | | | |f r e Hst Hun Hbar Hfs Es']; subst; cbn [set_th add_ev s_th];
          try (rewrite upd_other by auto; auto).
        destruct (e_child e) eqn:HC.
        { unfold apply_eff. destruct (child_shape _ _ _ _ _ _ _ _ _ Hfs HC) as (_ & _ & _ & _ & _ & NN & KK & _).
          rewrite NN, KK, HC. cbn. rewrite upd_other by auto. discriminate. }
        rewrite apply_live, apply_stack by auto. destruct (Z.eqb_spec u t); [contradiction|].
        destruct (e_new e) as [st|] eqn:EN; [|auto].
        destruct (Z.eqb_spec u (s_next s)) as [X|]; [|auto].
        exfalso. revert X. eapply (belongs_old dyn s t c f r e u n); eauto using orderly_clean; [exact (proj1 HO)|congruence]. }
      destruct (SAME LV') as [L S].
      assert (W0 : n_fstart (nd (s_g s) n) = true).
      { destruct V as [| | | | | | |f r e Hst Hun Hbar Hfs Es']; subst; try exact W. rewrite apply_g in W.
        destruct (writer _ _ _ _ _ _ _ n R LV Hst Hfs) as [X|[X|[X Y]]].
        - eapply belongs_main; eauto using orderly_clean.
        - now rewrite X in W.
        - destruct NE. eapply belongs_unique; eauto using orderly_clean.
        - exfalso. eapply belongs_not_making; eauto using orderly_clean. rewrite Hst. now left. unfold making. now rewrite X, Y. }
      destruct (HB L W0) as [X|(f1 & r1 & E & P)]; [left; auto|right; eauto].
  - intros s0 t s' q my n r _ _ _ E X _ W. rewrite E in W. unfold blank in X. decompose [and] X. congruence.
Qed.

(** ** The scan finds the scanning thread's own node *)

Definition Qmy (g : glob) (_ : list event) (t : Z) (f : frame) : Prop :=
  t <> MAIN -> forall n, keptg g t n ->
  match f with
  | FSNode l r => In n r \/ sc_my l = Some n
  | FSStarted l _ r | FSDone l _ r => In n r \/ sc_my l = Some n
  | FSEnd l | FSOwn l => sc_my l = Some n
  | _ => True
  end.

Lemma kept_back dyn s t c f r e u n : reach dyn orderly s -> orderly s t c -> th_stack (s_th s t) = f :: r ->
  frame_step dyn t (s_next s) (s_g s) (th_tsd (s_th s t)) (th_nc (s_th s t)) f c = Some e ->
  g_inexit (s_g s) = true -> (forall o, f <> FSMain o) -> keptg (e_g e) u n -> keptg (s_g s) u n.
Proof.
  intros R HO Hst Hfs IE NF (A & B & C & D). rewrite (scan_fixed _ _ _ _ _ _ _ R HO Hst Hfs IE NF) in B.
  split; [exact A|]. split; [exact B|]. split; [|exact IE].
  rewrite <- C. symmetry. eapply self_fixed; eauto.
Qed.

Lemma my_reach dyn s : reach dyn orderly s -> fr_inv Qmy s.
Proof.
  apply fr_reach.
  - intros t f I NM n K. cbn in I. rewrite upd_if in I. destruct (Z.eqb t MAIN); [|destruct I].
    cbn in I. repeat (destruct I as [<-|I]; [exact Logic.I|]). destruct I.
  - intros g tr t f e t' _ H. exact H.
  - intros g tr t f I NM n K. cbn in I. repeat (destruct I as [<-|I]; [exact Logic.I|]). destruct I.
  - intros. intros NM m K. exact I.
  - clear s. intros s t c f r e R FI HO Hst LV Hfs. pose proof (orderly_any _ _ R) as RA.
    assert (IN : In f (th_stack (s_th s t))) by (rewrite Hst; now left).
    pose proof (FI t f IN) as Q. pose proof (exit_frames _ _ RA t f IN) as [_ EF].
    assert (ONE : forall n m, t <> MAIN -> keptg (s_g s) t n -> keptg (s_g s) t m -> n = m).
    { intros n m NM (A1 & A2 & A3 & _) (B1 & B2 & B3 & _). eapply belongs_one; eauto; right; auto. }
    assert (KB : forall n, after_freeze f = true -> (forall o, f <> FSMain o) -> keptg (e_g e) t n -> keptg (s_g s) t n).
    { intros n AF NF K. eapply kept_back; eauto. }
    pose proof (scan_reach _ _ R t f IN) as QS.
    assert (MS : g_inexit (s_g s) = true -> n_self (nd (s_g s) MAIN_TN) = MAIN).
    { intros IE. apply (mi_self _ (main_reach _ _ (orderly_clean _ _ R))). left. apply (frozen_reach _ _ R IE). }
    split; [|split].
    + intros f' I' NM n K. specialize (fun n => Q NM n). clear FI Hst LV HO R RA IN.
      q_step; cbn in I';
        repeat match type of I' with context [if ?b then _ else _] => destruct b eqn:?; cbn in I' end;
        repeat (destruct I' as [<-|I']; [try exact Logic.I|]); try (destruct I'; fail); cbn [e_g e_fr] in *.
      all: try (pose proof (KB n eq_refl ltac:(discriminate) K) as K0; clear KB).
      all: cbn [sc_my]; try (specialize (Q n K0); cbn in Q |- *; tauto).
      * left. apply K0.
      * right. f_equal. symmetry. apply ONE; [exact NM|exact K0|]. apply Z.eqb_eq in E0.
        split; [intros ->; rewrite (MS (EF eq_refl)) in E0; congruence|]. split; [apply QS; now left|]. split; [exact E0|now apply EF].
      * destruct (Q n K0) as [[->|X]|X]; auto. destruct K0 as (_ & _ & X & _). rewrite X, Z.eqb_refl in E0. discriminate.
      * destruct (Q n K0) as [[->|X]|X]; auto. destruct K0 as (_ & _ & X & _). rewrite X, Z.eqb_refl in E0. discriminate.
    + intros t' f' D P NM n K.
      assert (I' : In f' (th_stack (s_th s t'))).
      { destruct D as [[-> D]|(_ & _ & D)]; [rewrite Hst; now right|exact D]. }
      assert (D' : (t' = t /\ In f' r) \/ (t' <> t /\ In f' (th_stack (s_th s t')))) by tauto.
      assert (ACT : w_sd f' = 1 /\ after_freeze f' = true -> keptg (s_g s) t' n).
      { intros [W AF]. apply (kept_back _ _ _ _ _ _ _ _ _ R HO Hst Hfs); [|intros o ->|exact K].
        - apply (exit_frames _ _ RA t' f' I'). exact AF.
        - rewrite (sd_one _ _ _ _ _ _ _ RA Hst eq_refl D') in W. discriminate. }
      destruct f'; try exact Logic.I; apply (P NM n); apply ACT; split; reflexivity.
    + clear - Hfs. intros st f' EN I' NM n K. q_step; cbn in EN; try discriminate EN; inversion EN; subst; cbn in I';
        repeat (destruct I' as [<-|I']; [exact Logic.I|]); destruct I'.
Qed.

(** ** Its fini_thread is issued before the scan ends *)

Definition Qown (g : glob) (tr : list event) (t : Z) (f : frame) : Prop :=
  match f with
  | FCb _ (KFiniOwn _ _) | FSOwnDone _ _ | FSRestore _ => t <> MAIN -> registered t (image tr) -> fini_issued t tr
  | _ => True
  end.

Lemma issued_mono u tr ev : fini_issued u tr -> fini_issued u (ev ++ tr).
Proof. intros (d & I). exists d. apply in_or_app. auto. Qed.

Lemma returned_issued dyn s u : reach dyn any s -> fini_returned u (s_tr s) -> fini_issued u (s_tr s).
Proof.
  intros R (d & v & J). destruct (in_split _ _ J) as (x & y & E). exists d. rewrite E. apply in_or_app. right. right.
  exact (ret_after_call _ _ R _ _ _ E).
Qed.

Lemma no_late_reg dyn s t c f r e u k : reach dyn orderly s -> orderly s t c -> th_stack (s_th s t) = f :: r ->
  frame_step dyn t (s_next s) (s_g s) (th_tsd (s_th s t)) (th_nc (s_th s t)) f c = Some e ->
  g_inexit (s_g s) = true -> In (EReg u k) (image (e_ev e ++ s_tr s)) -> In (EReg u k) (image (s_tr s)).
Proof.
  intros R HO Hst Hfs IE I. destruct (exit_grow _ _ _ _ _ _ _ R HO Hst Hfs IE) as (_ & _ & HC).
  rewrite image_app in I by (eapply no_fork_ev; eauto). apply in_app_or in I. destruct I as [I|I]; [|exact I].
  assert (IN : In f (th_stack (s_th s t))) by (rewrite Hst; now left).
  destruct (exit_frames _ _ (orderly_any _ _ R) t f IN) as [EF _]. exfalso. clear - Hfs I EF IE.
  fs_cases Hfs; brk Hfs; inversion Hfs; subst; clear Hfs; cbn in I, EF;
    repeat match type of I with context [if ?b then _ else _] => destruct b; cbn in I end;
    repeat (destruct I as [I|I]; [try discriminate I|]); try (destruct I; fail).
  rewrite EF in IE by reflexivity. discriminate.
Qed.

Lemma own_fini_reach dyn s : reach dyn prompt s -> fr_inv Qown s.
Proof.
  apply fr_reach.
  - intros t f I. cbn in I. rewrite upd_if in I. destruct (Z.eqb t MAIN); [|destruct I].
    cbn in I. repeat (destruct I as [<-|I]; [exact Logic.I|]). destruct I.
  - intros g tr t f e t' D H.
    assert (X : image (e :: tr) = e :: image tr) by (destruct D as [->| ->]; reflexivity).
    assert (M : (t <> MAIN -> registered t (image tr) -> fini_issued t tr) ->
                t <> MAIN -> registered t (image (e :: tr)) -> fini_issued t (e :: tr)).
    { intros P NM (k & I). rewrite X in I. destruct I as [I|I]; [destruct D as [->| ->]; discriminate I|].
      apply (issued_mono t tr [e]). apply P; [exact NM|]. now exists k. }
    destruct f; try exact H; try exact (M H). destruct k; try exact H. exact (M H).
  - intros g tr t f I. cbn in I. repeat (destruct I as [<-|I]; [exact Logic.I|]). destruct I.
  - intros. exact I.
  - clear s. intros s t c f r e RP FI [HO HP] Hst LV Hfs. pose proof (prompt_orderly _ _ RP) as R.
    pose proof (orderly_any _ _ R) as RA.
    assert (IN : In f (th_stack (s_th s t))) by (rewrite Hst; now left).
    pose proof (FI t f IN) as Q. pose proof (exit_frames _ _ RA t f IN) as [_ EF].
    pose proof (my_reach _ _ R t f IN) as QM. pose proof (sc_reach _ _ R t f IN) as QS.
    assert (NL : forall u k, g_inexit (s_g s) = true -> In (EReg u k) (image (e_ev e ++ s_tr s)) -> In (EReg u k) (image (s_tr s))).
    { intros u k IE. eapply no_late_reg; eauto. }
    assert (RG : g_inexit (s_g s) = true -> registered t (image (s_tr s)) -> (exists n, keptg (s_g s) t n) \/ fini_issued t (s_tr s)).
    { intros IE (k & I). destruct (reg2_reach _ _ (orderly_clean _ _ R) t k I) as [(n & A & B & C)|[(n & B)|X]].
      - left. exists n. split; [exact B|]. auto.
      - destruct (exit_frames _ _ RA t _ B) as [Y _]. rewrite (Y eq_refl) in IE. discriminate.
      - right. now apply (returned_issued dyn). }
    assert (FS : forall n l, f = FSOwn l -> sc_my l = Some n -> n_fstart (nd (s_g s) n) = true -> t <> MAIN -> fini_issued t (s_tr s)).
    { intros n l -> M F NM. destruct (QS n M) as [(A & B & C & _)|[X _]]; [|contradiction].
      destruct (issued_reach _ _ RP t n) as [X|(f1 & r1 & E & P)]; auto; [right; auto|].
      rewrite Hst in E. inversion E; subst. discriminate P. }
    split; [|split].
    + intros f' I'. clear FI Hst LV HO HP R RP RA IN. q_step; cbn in I';
        repeat match type of I' with context [if ?b then _ else _] => destruct b eqn:?; cbn in I' end;
        repeat (destruct I' as [<-|I']; [try exact Logic.I|]); try (destruct I'; fail); cbn [e_g e_fr e_ev app Qown] in *;
        auto.
      * intros NM RR. eapply FS; eauto.
      * intros NM RR. destruct (RG (EF eq_refl) RR) as [(n & K)|X]; [|exact X].
        pose proof (QM NM n K) as Y. cbn in Y. congruence.
      * intros _ _. exists (n_data (nd (s_g s) n)). now left.
      * destruct k; try exact Logic.I. intros NM (k & I). apply (issued_mono t (s_tr s) [_]). apply Q; [exact NM|].
        exists k. destruct I as [I|I]; [discriminate I|exact I].
      * intros NM (k & I). apply (issued_mono t (s_tr s) [_]). apply Q; [exact NM|].
        exists k. destruct I as [I|I]; [discriminate I|exact I].
    + intros t' f' D P.
      assert (I' : In f' (th_stack (s_th s t'))).
      { destruct D as [[-> D]|(_ & _ & D)]; [rewrite Hst; now right|exact D]. }
      assert (M : after_freeze f' = true -> (t' <> MAIN -> registered t' (image (s_tr s)) -> fini_issued t' (s_tr s)) ->
                t' <> MAIN -> registered t' (image (e_ev e ++ s_tr s)) -> fini_issued t' (e_ev e ++ s_tr s)).
      { intros AF P0 NM (k & I). apply issued_mono. apply P0; [exact NM|]. exists k. apply NL; [|exact I].
        apply (exit_frames _ _ RA t' f' I'). exact AF. }
      destruct f'; try exact P; try exact (M eq_refl P).
      destruct k; try exact P. exact (M eq_refl P).
    + clear - Hfs. intros st f' EN I'. q_step; cbn in EN; try discriminate EN; inversion EN; subst; cbn in I';
        repeat (destruct I' as [<-|I']; [exact Logic.I|]); destruct I'.
Qed.

Definition Cown (g : glob) (tr : list event) (t : Z) : Prop :=
  In (EFreeze t) (image tr) -> t <> MAIN -> registered t (image tr) -> fini_issued t tr.

Lemma own_uncovered dyn s : reach dyn prompt s -> uncovered_inv in_sd at_fini Cown s.
Proof.
  apply uncovered_reach.
  - intros t L. cbn in L. rewrite upd_if in L. destruct (Z.eqb t MAIN); discriminate L.
  - intros g tr t e t' D C F NM (k & G). assert (X : image (e :: tr) = e :: image tr) by (destruct D as [->| ->]; reflexivity).
    rewrite X in F, G. apply (issued_mono t tr [e]). apply C; [|exact NM|exists k].
    + destruct F as [F|F]; [destruct D as [->| ->]; discriminate F|exact F].
    + destruct G as [F'|F']; [destruct D as [->| ->]; discriminate F'|exact F'].
  - discriminate.
  - discriminate.
  - discriminate.
  - discriminate.
  - split; reflexivity.
  - clear s. intros s t c f r e RP NI [HO HP] Hst LV Hfs HC. pose proof (prompt_orderly _ _ RP) as R. pose proof (orderly_any _ _ R) as RA.
    assert (IN : In f (th_stack (s_th s t))) by (rewrite Hst; now left).
    pose proof (no_fork_ev _ _ _ _ _ _ _ _ _ Hfs HC) as NF.
    destruct (look_local _ _ _ _ _ _ _ _ _ Hfs) as (L1 & L2 & L3).
    assert (KEEP : forall t', ~ In (EFreeze t') (e_ev e) ->
       Cown (s_g s) (s_tr s) t' -> Cown (e_g e) (e_ev e ++ s_tr s) t').
    { intros t' N2 C F NM (k & G). rewrite image_app in F by exact NF. apply in_app_or in F. destruct F as [F|F]; [contradiction|].
      apply issued_mono. apply C; [exact F|exact NM|]. exists k. eapply no_late_reg; eauto.
      eapply freeze_flag; [exact RA|]. eapply image_in; eauto. }
    split; [|split; [|split; [|split]]].
    + intros t' NE. apply KEEP. intros J. destruct (freeze_ev _ _ _ _ _ _ _ _ _ _ Hfs J). contradiction.
    + intros CV _. apply KEEP. intros J. destruct (freeze_ev _ _ _ _ _ _ _ _ _ _ Hfs J) as (_ & l & ->). discriminate CV.
    + intros L. contradiction.
    + intros LN CV. destruct (L3 LN CV) as [[-> EV]|(o & -> & EV)]; rewrite EV; cbn [app].
      * intros F. exfalso. eapply frz_none; eauto.
      * intros _. exact (own_fini_reach _ _ RP t _ IN).
    + exact L2.
  - clear s. intros s t c f r e R NI HO Hst Hfs HC L F.
    destruct (child_shape _ _ _ _ _ _ _ _ _ Hfs HC) as (_ & _ & _ & _ & EV & _). rewrite EV in F. destruct F.
Qed.

Definition Jown (tr : list event) (e : event) : Prop :=
  match e with
  | ECall w (CbFiniProcess _ _) => In (EFreeze w) (image tr) -> w <> MAIN -> registered w (image tr) -> fini_issued w tr
  | _ => True
  end.

Lemma own_hist dyn s : reach dyn prompt s -> hist Jown (s_tr s).
Proof.
  apply hist_reach; try (intros; exact I).
  clear s. intros s t c f r e R _ _ Hst LV Hfs.
  pose proof (own_uncovered _ _ R t) as Q. rewrite Hst in Q. cbn [look] in Q.
  clear R Hst LV. q_step; cbn [e_ev justified app] in *; repeat split; cbn in *; auto.
  all: repeat match goal with |- context [if ?x then _ else _] => destruct x end; cbn; repeat split; auto.
  all: try (apply Q; reflexivity).
Qed.
