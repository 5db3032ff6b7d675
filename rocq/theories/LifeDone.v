(** When the exit callbacks are over, and what comes after them. *)
From Verif Require Export LifeExit.

Local Open Scope nat_scope.

Lemma tr_step dyn s t c s' e : step dyn s t c = Some s' -> In e (s_tr s) -> In e (s_tr s').
Proof.
  intros HS I. apply step_view in HS. destruct HS as (_ & LV & V).
  destruct V as [| | | | | | |f r e' Hst Hun Hbar Hfs Es']; subst; cbn; auto.
  rewrite apply_tr. apply in_or_app. auto.
Qed.

(** ** tn_exit_win marks the winner *)

Lemma own_win dyn s : reach dyn orderly s -> forall u n, belongs s u n -> n_win (nd (s_g s) n) = true -> In (EWin u) (s_tr s).
Proof.
  apply (belongs_reach dyn orderly (fun s u n => n_win (nd (s_g s) n) = true -> In (EWin u) (s_tr s))); auto.
  - clear s. intros s t c s' u n R HI HO HS B HB W. pose proof (orderly_clean _ _ R) as RC.
    destruct (n_win (nd (s_g s) n)) eqn:W0; [eapply tr_step; eauto|].
    pose proof HS as HS0. apply step_view in HS. destruct HS as (_ & LV & V).
    destruct V as [| | | | | | |f r e Hst Hun Hbar Hfs Es']; subst; try (cbn in W; congruence).
    rewrite apply_g in W. destruct (nwin_local _ _ _ _ _ _ _ _ _ n Hfs W) as [X|(h & ->)]; [congruence|].
    assert (IN : In (FEPWin h (Some n)) (th_stack (s_th s t))) by (rewrite Hst; now left).
    assert (E : u = t); [|subst u].
    { pose proof (mine_reach _ _ RC t _ IN n eq_refl) as M.
      destruct (mine_belongs _ _ _ _ _ R IN eq_refl M) as [[-> ->]|[_ X]].
      - exfalso. eapply belongs_main; eauto.
      - eapply belongs_unique; eauto. }
    eapply tr_step; [exact HS0|]. destruct (win_reach _ _ (orderly_any _ _ R) t _ IN) as [X _]. auto.
  - intros s0 t s' q my n r _ _ _ E (X & _) W. rewrite E, X in W. discriminate.
Qed.

Lemma main_win dyn s : reach dyn orderly s -> n_win (nd (s_g s) MAIN_TN) = true -> In (EWin MAIN) (s_tr s).
Proof.
  apply (reach_invariant dyn orderly (fun s => n_win (nd (s_g s) MAIN_TN) = true -> In (EWin MAIN) (s_tr s))); [discriminate|].
  clear s. intros s t c s' R HI HO HS W. pose proof (orderly_clean _ _ R) as RC.
  destruct (n_win (nd (s_g s) MAIN_TN)) eqn:W0; [eapply tr_step; eauto|].
  pose proof HS as HS0. apply step_view in HS. destruct HS as (_ & LV & V).
  destruct V as [| | | | | | |f r e Hst Hun Hbar Hfs Es']; subst; try (cbn in W; congruence).
  rewrite apply_g in W. destruct (nwin_local _ _ _ _ _ _ _ _ _ MAIN_TN Hfs W) as [X|(h & ->)]; [congruence|].
  assert (IN : In (FEPWin h (Some MAIN_TN)) (th_stack (s_th s t))) by (rewrite Hst; now left).
  pose proof (mine_reach _ _ RC t _ IN MAIN_TN eq_refl) as M.
  destruct (mine_belongs _ _ _ _ _ R IN eq_refl M) as [[-> _]|[_ X]].
  - eapply tr_step; [exact HS0|]. destruct (win_reach _ _ (orderly_any _ _ R) MAIN _ IN) as [X _]. auto.
  - exfalso. eapply belongs_main; eauto.
Qed.

(** ** The exit callbacks are over *)

Lemma finished_mono tr ev : finished tr -> finished (ev ++ tr).
Proof.
  intros [(w & h & d & v & I)|(w & I & C)].
  - left. exists w, h, d, v. apply in_or_app. auto.
  - right. exists w. split; [apply in_or_app; auto|]. rewrite count_app. lia.
Qed.

Lemma lose_local dyn t u g tsd nc f c e : frame_step dyn t u g tsd nc f c = Some e ->
  (g_pdone (e_g e) = true -> g_pdone g = true \/ f = FEPDone) /\
  (In FEPDone (e_fr e) -> (exists n, f = FEPLose (Some n) /\ n_win (nd g n) = true) \/ (f = FEPWait /\ g_pdone g = true) \/
     (exists c' v, f = FCb c' KFiniProcess /\ e_ev e = [ERet t c' v])) /\
  (forall st, e_new e = Some st -> ~ In FEPDone st).
Proof.
  intros H. split; [|split].
  - intros P. fs_cases H; brk H; inversion H; subst; clear H; cbn in P |- *; auto; try discriminate P;
      revert P; unfold reset_list; g_brk; cbn; auto.
  - intros I. fs_cases H; brk H; inversion H; subst; clear H; cbn in I |- *;
      repeat match type of I with context [if ?b then _ else _] => destruct b eqn:?; cbn in I end;
      repeat (destruct I as [I|I]; [try discriminate I; eauto 8|]); try (destruct I; fail).
  - intros st E I. fs_cases H; brk H; inversion H; subst; clear H; cbn in E; try discriminate; inversion E; subst; cbn in I;
      repeat (destruct I as [I|I]; [discriminate I|]); destruct I.
Qed.

Lemma lose_mine dyn s t n : reach dyn orderly s -> In (FEPLose (Some n)) (th_stack (s_th s t)) ->
  n_win (nd (s_g s) n) = true -> In (EWin t) (s_tr s).
Proof.
  intros R IN W. pose proof (orderly_clean _ _ R) as RC.
  pose proof (mine_reach _ _ RC t _ IN n eq_refl) as M.
  destruct (mine_belongs _ _ _ _ _ R IN eq_refl M) as [[-> ->]|[_ X]].
  - eapply main_win; eauto.
  - eapply own_win; eauto.
Qed.

Lemma in_win_count t tr : In (EWin t) tr -> 1 <= count (win_of t) tr.
Proof.
  induction tr as [|e r IH]; [intros []|]. intros [->|I]; cbn.
  - rewrite Z.eqb_refl. lia.
  - specialize (IH I). destruct (win_of t e); lia.
Qed.

Definition done_inv (s : state) : Prop :=
  (g_pdone (s_g s) = true -> finished (s_tr s)) /\
  (forall t, In FEPDone (th_stack (s_th s t)) -> finished (s_tr s)).

Lemma done_reach dyn s : reach dyn orderly s -> done_inv s.
Proof.
  apply (reach_invariant dyn orderly done_inv).
  - split; [discriminate|]. intros t I. cbn in I. rewrite upd_if in I. destruct (Z.eqb t MAIN); cbn in I;
      repeat (destruct I as [I|I]; [discriminate I|]); destruct I.
  - clear s. intros s t c s' R [HP HD] HO HS. apply step_view in HS. destruct HS as (_ & LV & V).
    assert (FM : forall e, finished (s_tr s) -> finished (e :: s_tr s)) by (intros; now apply (finished_mono _ [e])).
    assert (UW : forall st t', In FEPDone (th_stack (upd (s_th s) t (with_stack (s_th s t) (unwind st)) t')) -> finished (s_tr s)).
    { intros st t' I. rewrite upd_if in I. destruct (Z.eqb t' t); [cbn in I|eauto].
      destruct (unwind_shape st) as [U|(n & p & U & _)]; rewrite U in I; cbn in I; repeat (destruct I as [I|I]; [discriminate I|]); destruct I. }
    destruct V as [| | | | | | |f r e Hst Hun Hbar Hfs Es']; subst; try (split; [cbn; auto|]; intros t' I; cbn in I |- *;
      try (rewrite upd_if in I; destruct (Z.eqb t' t); cbn in I; repeat (destruct I as [I|I]; [discriminate I|]); eauto; fail); eauto; fail).
    destruct (lose_local _ _ _ _ _ _ _ _ _ Hfs) as (A & B & C). unfold done_inv. rewrite apply_g, apply_tr.
    assert (TOP : In FEPDone (e_fr e) -> finished (e_ev e ++ s_tr s)).
    { intros I. assert (IN : In f (th_stack (s_th s t))) by (rewrite Hst; now left).
      destruct (B I) as [(n & E & W)|[(E & P)|(c' & v & E & EV)]]; [subst f|apply finished_mono; auto|subst f].
      - apply finished_mono. right. exists t. pose proof (lose_mine _ _ _ _ R IN W) as EW. split; [exact EW|].
        pose proof (exits_reach _ _ (orderly_any _ _ R) t) as X. rewrite Hst in X. cbn [wsum w_cas] in X.
        pose proof (in_win_count _ _ EW). lia.
      - left. destruct (win_reach _ _ (orderly_any _ _ R) t _ IN) as [_ X]. destruct (X _ eq_refl) as (h & d & ->).
        exists t, h, d, v. rewrite EV. now left. }
    split.
    * intros P. apply finished_mono. destruct (A P) as [X|X]; [auto|]. subst f. apply (HD t). rewrite Hst. now left.
    * intros t' I. destruct (e_child e) eqn:HC.
      -- destruct (child_shape _ _ _ _ _ _ _ _ _ Hfs HC) as (_ & _ & _ & _ & EV & NN & KK & _).
         rewrite apply_stack_child in I by auto. destruct (Z.eqb_spec t' t); [subst t'|destruct I].
         apply in_app_iff in I. destruct I as [I|I]; [auto|]. apply finished_mono, (HD t). rewrite Hst. now right.
      -- destruct (stack_after s t f r e t' FEPDone Hst HC I) as [(E & [D|D])|[(NE & D)|(st & EN & E & D)]].
         ++ auto.
         ++ apply finished_mono, (HD t). rewrite Hst. now right.
         ++ apply finished_mono, (HD t' D).
         ++ destruct (C st EN D).
Qed.

(** ** What comes after *)

Definition ending (f : frame) : bool :=
  match f with
  | FEPGet _ | FEPCas _ _ | FEPWin _ _ | FEPBegin _ | FEPFini _ | FEPLose _ | FEPWait | FEPDone => true
  | FCb _ (KBeginExit _) | FCb _ KFiniProcess => true
  | _ => false
  end.
Definition past (f : frame) : bool :=
  match f with
  | FRealExit | FUExit | FSigEnd | FExec true | FEndLibDyn | FEndLib | FFiniLib | FDtor | FCb _ KFiniLibrary => true
  | _ => false
  end.

Lemma past_local dyn t u g tsd nc f c e : frame_step dyn t u g tsd nc f c = Some e ->
  (look ending past (e_fr e) = Some true -> past f = true) /\
  (look ending past (e_fr e) = None -> ending f = true -> f = FEPDone) /\
  (forall st, e_new e = Some st -> look ending past st = None).
Proof.
  intros H. split; [|split].
  - intros L. fs_cases H; brk H; inversion H; subst; clear H; cbn in L |- *; try discriminate L; try reflexivity;
      repeat match type of L with context [if ?b then _ else _] => destruct b; cbn in L end; try discriminate L; try reflexivity.
  - intros L E. fs_cases H; brk H; inversion H; subst; clear H; cbn in L, E |- *; try discriminate L; try discriminate E; try reflexivity;
      repeat match type of L with context [if ?b then _ else _] => destruct b; cbn in L end; try discriminate L; try discriminate E; try reflexivity.
  - intros st E. fs_cases H; brk H; inversion H; subst; clear H; cbn in E; try discriminate; inversion E; reflexivity.
Qed.

Lemma past_naked dyn s : reach dyn orderly s -> naked_inv ending past (fun _ tr _ => finished tr) s.
Proof.
  apply naked_reach; try (intros; discriminate).
  - nk_init.
  - intros g tr t e t' _ F. now apply (finished_mono _ [e]).
  - split; reflexivity.
  - clear s. intros s t c f r e R NI _ Hst LV Hfs HC.
    destruct (past_local _ _ _ _ _ _ _ _ _ Hfs) as (A & B & C). destruct (done_reach _ _ R) as [_ D].
    split; [intros; now apply finished_mono|]. split; [|split].
    + intros L. apply finished_mono. apply (NI t). rewrite Hst. cbn.
      specialize (A L). destruct f; try discriminate A; try reflexivity. destruct k; try discriminate A; reflexivity.
      destruct expected; [reflexivity|discriminate A].
    + intros L E. apply finished_mono. apply (D t). rewrite Hst, (B L E). now left.
    + exact C.
  - clear s. intros s t c f r e R NI _ Hst Hfs HC L.
    destruct (child_shape _ _ _ _ _ _ _ _ _ Hfs HC) as (_ & _ & _ & _ & EV & _ & _ & SH).
    apply finished_mono. apply (NI t). rewrite Hst. destruct SH as [(d & -> & EF)|(-> & EF)]; rewrite EF in L; exact L.
Qed.

Definition Jpast (tr : list event) (e : event) : Prop :=
  match e with
  | EPast _ | ECall _ CbFiniLibrary => finished tr
  | _ => True
  end.

Lemma past_hist dyn s : reach dyn orderly s -> hist Jpast (s_tr s).
Proof.
  apply hist_reach; try (intros; exact I).
  clear s. intros s t c f r e R _ _ Hst LV Hfs.
  pose proof (past_naked _ _ R t) as N. rewrite Hst in N. cbn in N.
  pose proof (fun e => finished_mono (s_tr s) [e]) as M. cbn in M.
  clear R Hst LV. q_step; cbn [e_ev justified app] in *; repeat split; cbn; auto.
  all: repeat match goal with |- context [if ?x then _ else _] => destruct x end; cbn; repeat split; auto.
Qed.
