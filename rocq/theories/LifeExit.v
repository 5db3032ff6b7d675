(** The exit protocol: who wins, when the exit callbacks are over, and what comes
    after them. *)
From Verif Require Export LifeBelong.

Local Open Scope nat_scope.

(** ** Every win is an entry of end_process *)

Definition w_cas (f : frame) : nat :=
  match f with FEPCas _ _ | FEPLose _ => 1 | _ => 0 end.

Lemma cas_local dyn t u g tsd nc f c e : frame_step dyn t u g tsd nc f c = Some e ->
  wsum w_cas (e_fr e) + count (win_of t) (e_ev e) <= w_cas f + count (exit_of t) (e_ev e) /\
  (forall t', t' <> t -> count (win_of t') (e_ev e) = 0) /\
  (forall st, e_new e = Some st -> wsum w_cas st = 0).
Proof.
  intros H. split; [|split].
  - fs_cases H; brk H; inversion H; subst; clear H; cbn; rewrite ?Z.eqb_refl; cbn; try lia.
  - intros t' N. fs_cases H; brk H; inversion H; subst; clear H; cbn; try reflexivity.
    destruct (Z.eqb_spec t t'); [congruence|reflexivity].
  - intros st E. fs_cases H; brk H; inversion H; subst; clear H; cbn in E; try discriminate; inversion E; reflexivity.
Qed.

Lemma cas_unwind st : wsum w_cas (unwind st) = 0.
Proof. destruct (unwind_shape st) as [U|(n & p & U & _)]; rewrite U; reflexivity. Qed.

Lemma exits_reach dyn s : reach dyn any s -> forall t,
  wsum w_cas (th_stack (s_th s t)) + count (win_of t) (s_tr s) <= count (exit_of t) (s_tr s).
Proof.
  apply (reach_invariant dyn any (fun s => forall t,
    wsum w_cas (th_stack (s_th s t)) + count (win_of t) (s_tr s) <= count (exit_of t) (s_tr s))).
  - intros t. cbn. rewrite upd_if. destruct (Z.eqb t MAIN); cbn; lia.
  - clear s. intros s t c s' R HI _ HS. apply step_view in HS. destruct HS as (_ & LV & V).
    destruct V as [| | | | | | |f r e Hst Hun Hbar Hfs Es']; subst; intros t'; specialize (HI t');
      cbn [add_ev set_th s_th s_tr app count exit_of win_of];
      try (rewrite upd_if; destruct (Z.eqb_spec t' t); [subst t'; cbn; rewrite ?cas_unwind; lia|exact HI]).
    rewrite apply_tr, !count_app. destruct (cas_local _ _ _ _ _ _ _ _ _ Hfs) as (A & B & C).
    destruct (e_child e) eqn:HC.
    + destruct (child_shape _ _ _ _ _ _ _ _ _ Hfs HC) as (_ & _ & _ & _ & EV & NN & KK & _).
      rewrite apply_stack_child by auto. destruct (Z.eqb_spec t' t) as [E|E].
      * subst t'. rewrite Hst in HI. cbn [wsum] in HI. rewrite wsum_app. lia.
      * rewrite (B t' E). cbn. lia.
    + rewrite apply_stack by auto. specialize (HI).
      assert (STK : wsum w_cas (if (t' =? t)%Z then e_fr e ++ r else th_stack (s_th s t')) +
                    (count (win_of t') (e_ev e) + count (win_of t') (s_tr s)) <=
                    count (exit_of t') (e_ev e) + count (exit_of t') (s_tr s)).
      { destruct (Z.eqb_spec t' t) as [E|E].
        - subst t'. rewrite Hst in HI. cbn [wsum] in HI. rewrite wsum_app. lia.
        - rewrite (B t' E). lia. }
      destruct (e_new e) as [st|] eqn:EN; [|exact STK].
      destruct (Z.eqb_spec t' (s_next s)) as [E|E]; [|exact STK].
      rewrite (C st eq_refl). lia.
Qed.

(** ** The winner's frames *)

Definition winning (f : frame) : bool :=
  match f with
  | FEPWin _ _ | FEPBegin _ | FEPFini _
  | FSUsed | FSLock _ | FSSet _ | FSUnlock _ | FSInstall _ | FSMain _ | FSPass _ | FSNode _ _
  | FSStarted _ _ _ | FSDone _ _ _ | FSEnd _ | FSOwn _ | FSOwnCall _ _ | FSOwnDone _ _ | FSRestore _ => true
  | FCb _ (KBeginExit _) | FCb _ KFiniProcess | FCb _ (KFiniOwn _ _) => true
  | _ => false
  end.

Definition Qwin (g : glob) (tr : list event) (t : Z) (f : frame) : Prop :=
  (winning f = true -> In (EWin t) tr) /\
  (forall c, f = FCb c KFiniProcess -> exists h d, c = CbFiniProcess h d).

Lemma win_local dyn t u g tsd nc f c e : frame_step dyn t u g tsd nc f c = Some e ->
  (forall f', In f' (e_fr e) -> winning f' = true -> winning f = true \/ In (EWin t) (e_ev e)) /\
  (forall f' c', In f' (e_fr e) -> f' = FCb c' KFiniProcess -> f' = f \/ exists h d, c' = CbFiniProcess h d) /\
  (forall st f', e_new e = Some st -> In f' st -> winning f' = false /\ open f' = true \/ winning f' = false /\ bt_frame f' = true \/ exists a b, f' = FRun a b).
Proof.
  intros H. split; [|split].
  - intros f' I W. fs_cases H; brk H; inversion H; subst; clear H; cbn in I;
      repeat match type of I with context [if ?b then _ else _] => destruct b; cbn in I end;
      repeat (destruct I as [I|I]; [subst f'; try discriminate W; cbn; auto|]); try (destruct I; fail).
  - intros f' c' I W. fs_cases H; brk H; inversion H; subst; clear H; cbn in I;
      repeat match type of I with context [if ?b then _ else _] => destruct b; cbn in I end;
      repeat (destruct I as [I|I]; [try discriminate I; inversion I; subst; eauto|]); try (destruct I; fail); auto.
  - intros st f' E I. fs_cases H; brk H; inversion H; subst; clear H; cbn in E; try discriminate; inversion E; subst; cbn in I;
      repeat (destruct I as [<-|I]; [cbn; eauto|]); destruct I.
Qed.

Lemma win_reach dyn s : reach dyn any s -> fr_inv Qwin s.
Proof.
  apply fr_reach.
  - intros t f I. cbn in I. rewrite upd_if in I. destruct (Z.eqb t MAIN); [|destruct I].
    cbn in I. unfold Qwin. repeat (destruct I as [<-|I]; [split; intros; discriminate|]). destruct I.
  - intros g tr t f e t' _ [A B]. split; [|exact B]. intros W. right. auto.
  - intros g tr t f I. cbn in I. unfold Qwin. repeat (destruct I as [<-|I]; [split; intros; discriminate|]). destruct I.
  - intros. split; intros; discriminate.
  - intros s0 t c f r e R FI _ Hst LV Hfs.
    assert (QF : Qwin (s_g s0) (s_tr s0) t f) by (apply FI; rewrite Hst; now left).
    destruct (win_local _ _ _ _ _ _ _ _ _ Hfs) as (A & B & C). destruct QF as [Q1 Q2].
    split; [|split].
    + intros f' I'. split.
      * intros W. apply in_or_app. destruct (A f' I' W); auto.
      * intros c' E. destruct (B f' c' I' E) as [X|X]; [apply Q2; congruence|exact X].
    + intros t' f' _ [A' B']. split; [|exact B']. intros W. apply in_or_app. auto.
    + intros st f' EN I'. split.
      * intros W. destruct (C st f' EN I') as [[X _]|[[X _]|(a & b & ->)]]; try congruence; discriminate.
      * intros c' ->. exfalso. clear A B C FI. fs_cases Hfs; brk Hfs; inversion Hfs; subst; clear Hfs; cbn in EN; try discriminate;
          inversion EN; subst; cbn in I'; repeat (destruct I' as [X|I']; [discriminate X|]); destruct I'.
Qed.

(** ** The flag tn_exit_win *)

Lemma nwin_local dyn t u g tsd nc f c e n : frame_step dyn t u g tsd nc f c = Some e ->
  n_win (nd (e_g e) n) = true -> n_win (nd g n) = true \/ exists h, f = FEPWin h (Some n).
Proof.
  intros H W. fs_cases H; brk H; inversion H; subst; clear H; cbn [e_g] in W; auto;
    revert W; unfold nd, node_made; cbn; g_brk; rewrite ?upd_if; auto;
    repeat match goal with |- context [Z.eqb ?a ?b] => destruct (Z.eqb_spec a b); subst end;
    cbn; rewrite ?upd_if; auto; try discriminate; eauto.
Qed.

Lemma wsum_two (w : frame -> nat) a b st : In a st -> In b st -> a <> b -> w a + w b <= wsum w st.
Proof.
  induction st as [|x r IH]; [intros []|]. cbn [wsum]. intros [->|A] [->|B] N; try congruence.
  - pose proof (wsum_in w r b B). lia.
  - pose proof (wsum_in w r a A). lia.
  - specialize (IH A B N). lia.
Qed.

(** ** A node being made *)

Definition making (n : Z) (f : frame) : bool := creating f && holds n f.

Lemma belongs_not_making dyn s t n t' f : reach dyn clean_forks s -> belongs s t n ->
  In f (th_stack (s_th s t')) -> making n f = true -> False.
Proof.
  intros R B I M. unfold making in M. apply andb_true_iff in M. destruct M as [C H].
  pose proof (nodes_reach _ _ R) as (N & _ & _). pose proof (belongs_holder _ _ _ _ _ _ R B I H) as ->.
  destruct B as [(b & IB & OB & HB)|(NM & L & S)].
  - destruct (ni_own _ N) as (ow & A & _). specialize (A t n).
    assert (NE : f <> b) by (intros ->; pose proof (owner_bt _ OB) as X; destruct b; try discriminate; destruct k; discriminate).
    pose proof (wsum_two (own n) f b _ I IB NE) as W. unfold own at 1 2 in W. rewrite H, HB in W. cbn [b2n] in W.
    destruct (ow n) as [h|]; [destruct (Z.eqb h t)|]; lia.
  - pose proof (ni_q _ N t f I) as Q. destruct f; try discriminate C; try discriminate H; cbn in H;
      try (apply Z.eqb_eq in H; subst; cbn in Q; contradiction).
    destruct k; discriminate.
Qed.

Definition blank (x : node) : Prop :=
  n_win x = false /\ n_fstart x = false /\ n_fdone x = false /\ n_block x = false /\ n_appl x = false /\
  n_ignore x = false /\ n_info x = None.

Definition Qblank (g : glob) (tr : list event) (t : Z) (f : frame) : Prop :=
  match f with
  | FPCUnlock _ _ _ n | FPCFill _ _ _ n | FPCReal _ _ n => blank (nd g n)
  | _ => True
  end.

Lemma blank_reach dyn s : reach dyn orderly s -> fr_inv Qblank s.
Proof.
  apply fr_reach.
  - intros t f I. cbn in I. rewrite upd_if in I. destruct (Z.eqb t MAIN); [|destruct I].
    cbn in I. repeat (destruct I as [<-|I]; [exact I || (cbn; trivial)|]). destruct I.
  - auto.
  - intros g tr t f I. cbn in I. repeat (destruct I as [<-|I]; [cbn; trivial|]). destruct I.
  - intros. exact I.
  - clear s. intros s t c f r e R FI HO Hst LV Hfs. pose proof (orderly_clean _ _ R) as RC.
    pose proof (nodes_reach _ _ RC) as (N & _ & _).
    assert (QF : Qblank (s_g s) (s_tr s) t f) by (apply FI; rewrite Hst; now left).
    split; [|split].
    + clear FI. intros f' I'. clear R HO RC N Hst LV. q_step; cbn in I';
        repeat match type of I' with context [if ?b then _ else _] => destruct b; cbn in I' end;
        repeat (destruct I' as [I'|I']; [subst f'; cbn in QF |- *; trivial|]); try (destruct I'; fail).
      * unfold nd, set_node; cbn. rewrite upd_same. repeat split.
      * unfold nd, set_node; cbn. rewrite upd_same. exact QF.
    + intros t' f' D Q.
      assert (E : forall n, making n f' = true -> nd (e_g e) n = nd (s_g s) n).
      { intros n M. assert (I' : In f' (th_stack (s_th s t'))).
        { destruct D as [[-> D]|(_ & _ & D)]; [rewrite Hst; now right|exact D]. }
        pose proof M as M0. unfold making in M. apply andb_true_iff in M. destruct M as [C H].
        destruct (writer _ _ _ _ _ _ _ n R LV Hst Hfs) as [X|[X|[X Y]]]; [| exact X| |].
        - intros ->. rewrite (hold_main _ _ _ _ RC I') in H. discriminate.
        - exfalso. eapply belongs_not_making; eauto.
        - exfalso. assert (Z : holds n f' = false) by (apply (own_unique s t f r n t' f' N Hst Y); clear - D; tauto). congruence. }
      destruct f'; cbn in Q |- *; trivial; (rewrite E; [exact Q|]); cbn; rewrite Z.eqb_refl; reflexivity.
    + clear FI. intros st f' EN I'. q_step; cbn in EN; try discriminate; inversion EN; subst; cbn in I';
        repeat (destruct I' as [<-|I']; [cbn; trivial|]); destruct I'.
Qed.

(** ** Properties of the node of a thread *)

Lemma belongs_reach dyn ok (B : state -> Z -> Z -> Prop) :
  (forall s, reach dyn ok s -> reach dyn orderly s) -> (forall s t c, ok s t c -> orderly s t c) ->
  (forall s t c s' u n, reach dyn ok s -> (forall u n, belongs s u n -> B s u n) -> ok s t c ->
     step dyn s t c = Some s' -> belongs s u n -> B s u n -> B s' u n) ->
  (forall s t s' q my n r, reach dyn ok s -> step dyn s t COk = Some s' ->
     th_stack (s_th s t) = FPCReal q my n :: r -> nd (s_g s') n = nd (s_g s) n -> blank (nd (s_g s) n) -> B s' (s_next s) n) ->
  forall s, reach dyn ok s -> forall u n, belongs s u n -> B s u n.
Proof.
  intros OR OK HS HN s. apply (reach_invariant dyn ok (fun s => forall u n, belongs s u n -> B s u n)).
  - intros u n [(b & I & O & _)|(_ & [] & _)]. cbn in I. rewrite upd_if in I. destruct (Z.eqb u MAIN); [|destruct I].
    cbn in I. repeat (destruct I as [<-|I]; [discriminate O|]). destruct I.
  - clear s. intros s t c s' R HI HO ST u n B'. pose proof (OR _ R) as RO.
    destruct (belongs_new _ _ _ _ _ _ _ (orderly_clean _ _ RO) (proj1 (OK _ _ _ HO)) ST B') as [X|(-> & -> & q & my & r & Hst)].
    + eauto.
    + eapply HN; eauto.
      * assert (NM : n <> MAIN_TN) by (intros ->; assert (X : holds MAIN_TN (FPCReal q my MAIN_TN) = false)
          by (eapply hold_main; [exact (orderly_clean _ _ RO)|rewrite Hst; now left]); discriminate X).
        apply step_view in ST. destruct ST as (_ & LV & V).
        inversion V as [| | | | | | |f r' e Hst' Hun Hbar Hfs Es']; subst; try discriminate.
        rewrite Hst in Hst'. inversion Hst'; subst. cbn in Hfs. inversion Hfs; subst. reflexivity.
      * pose proof (blank_reach _ _ RO t (FPCReal q my n)) as Q. rewrite Hst in Q. apply Q. now left.
Qed.
