(** monitor_broadcast_signal run to its end from any reachable state. *)
From Verif Require Export LifeBlock LifeBcastSpec.

Local Open Scope nat_scope.

(** ** Shootdown signals are sent and handled only after the freeze, in every schedule *)

Lemma hs_local dyn t u g tsd nc f c e : frame_step dyn t u g tsd nc f c = Some e ->
  (g_shoot (e_g e) = true -> g_shoot g = true \/ after_freeze f = true) /\
  (forall v, e_kill e = Some v -> after_freeze f = true) /\
  (forall f', In f' (e_fr e) -> in_shoot f' = true -> in_shoot f = true) /\
  (forall st f', e_new e = Some st -> In f' st -> in_shoot f' = false).
Proof.
  intros H. split; [|split; [|split]].
  - fs_cases H; brk H; inversion H; subst; clear H; cbn; auto; g_brk; auto.
  - intros v E. fs_cases H; brk H; inversion H; subst; clear H; cbn in E |- *; try discriminate E; auto.
  - intros f' I X. fs_cases H; brk H; inversion H; subst; clear H; cbn in I;
      repeat (destruct I as [<-|I]; [try discriminate X; try reflexivity; auto|]); try (destruct I; fail).
  - intros st f' E I. fs_cases H; brk H; inversion H; subst; clear H; cbn in E; try discriminate E; inversion E; subst;
      cbn in I; repeat (destruct I as [<-|I]; [reflexivity|]); destruct I.
Qed.

Record shoot_inv (s : state) : Prop := mkshootinv {
  si_flag : g_shoot (s_g s) = true -> g_inexit (s_g s) = true;
  si_pend : forall t, th_pend (s_th s t) = true -> g_inexit (s_g s) = true;
  si_fr : forall t f, In f (th_stack (s_th s t)) -> in_shoot f = true -> g_inexit (s_g s) = true
}.

Lemma shoot_reach dyn s : reach dyn any s -> shoot_inv s.
Proof.
  apply (reach_invariant dyn any shoot_inv).
  - split; cbn; try discriminate.
    + intros t. rewrite upd_if. destruct (Z.eqb t MAIN); discriminate.
    + intros t f I. rewrite upd_if in I. destruct (Z.eqb t MAIN); [|destruct I].
      cbn in I. repeat (destruct I as [<-|I]; [discriminate|]). destruct I.
  - clear s. intros s t c s' R HI _ HS. apply step_view in HS. destruct HS as (_ & LV & V).
    assert (PUT : forall st b ev, (b = true -> g_inexit (s_g s) = true) ->
       (forall f, In f st -> in_shoot f = true -> g_inexit (s_g s) = true) -> forall tsd l nc,
       shoot_inv (mkst (s_g s) (upd (s_th s) t (mkth st tsd l nc b)) (s_next s) ev)).
    { intros st b ev B S tsd l nc. split; cbn.
      - apply (si_flag _ HI).
      - intros t'. rewrite upd_if. destruct (Z.eqb t' t); [exact B|apply (si_pend _ HI)].
      - intros t' f I. rewrite upd_if in I. destruct (Z.eqb t' t); [now apply S|now apply (si_fr _ HI t')]. }
    assert (UW : forall st f, In f (unwind st) -> in_shoot f = true -> g_inexit (s_g s) = true).
    { intros st f I X. destruct (unwind_shape st) as [U|(n & p & U & _)]; rewrite U in I; cbn in I;
        repeat (destruct I as [<-|I]; [discriminate X|]); destruct I. }
    pose proof (si_pend _ HI t) as SP. pose proof (si_fr _ HI t) as SF.
    destruct V as [| |_ P|f0 r0 Ec Est P| | | |f r e Hst Hun Hbar Hfs Es']; subst; unfold set_th, add_ev, with_stack; cbn [s_g s_th s_next s_tr].
    + apply PUT; auto. intros ff [<-|I] X; [discriminate|eauto].
    + apply PUT; auto. intros ff I X. repeat (destruct I as [<-|I]; [discriminate|]). eauto.
    + apply PUT; auto.
    + apply PUT; auto.
    + apply PUT; auto. intros ff I. now apply UW with (st := th_stack (s_th s t)).
    + apply PUT; auto. intros ff I. now apply UW with (st := r).
    + apply PUT; auto.
    + destruct (hs_local _ _ _ _ _ _ _ _ _ Hfs) as (L1 & L2 & L3 & L4).
      assert (IN : In f (th_stack (s_th s t))) by (rewrite Hst; now left).
      assert (MO : g_inexit (s_g s) = true -> g_inexit (e_g e) = true).
      { destruct (exit_local _ _ _ _ _ _ _ _ _ Hfs) as ([X|(X & _)] & _); congruence. }
      destruct (exit_frames _ _ R t f IN) as [_ AF].
      split.
      * rewrite apply_g. intros X. apply MO. destruct (L1 X); auto. now apply (si_flag _ HI).
      * intros t' P. rewrite apply_g. apply MO. unfold apply_eff in P.
        destruct (e_kill e) as [v|] eqn:K; [apply AF; eauto|].
        assert (Q : th_pend (upd (if e_child e then fun _ => th0 else s_th s) t
             (mkth (e_fr e ++ r) (e_tsd e) true (e_nc e) (if e_child e then false else th_pend (s_th s t))) t') = true -> g_inexit (s_g s) = true).
        { rewrite upd_if. destruct (Z.eqb t' t); cbn; destruct (e_child e); cbn; try discriminate; [apply (si_pend _ HI)|apply (si_pend _ HI)]. }
        destruct (e_new e) as [st|]; cbn [s_th] in P.
        -- rewrite upd_if in P. destruct (Z.eqb t' (s_next s)); [discriminate P|auto].
        -- auto.
      * intros t' f' I X. rewrite apply_g. apply MO.
        assert (OLD : In f' (e_fr e ++ r) -> g_inexit (s_g s) = true).
        { intros J. apply in_app_or in J. destruct J as [J|J]; [apply (SF f IN); eauto|].
          apply (SF f'); [rewrite Hst; now right|exact X]. }
        destruct (e_child e) eqn:HC.
        -- destruct (child_shape _ _ _ _ _ _ _ _ _ Hfs HC) as (_ & _ & _ & _ & _ & HN & HK & _).
           rewrite apply_stack_child in I by auto. destruct (Z.eqb t' t); [auto|destruct I].
        -- rewrite apply_stack in I by auto.
           destruct (e_new e) as [st|].
           ++ destruct (Z.eqb t' (s_next s)); [rewrite (L4 st f' eq_refl I) in X; discriminate|].
              destruct (Z.eqb t' t); [auto|now apply (si_fr _ HI t' f')].
           ++ destruct (Z.eqb t' t); [auto|now apply (si_fr _ HI t' f')].
Qed.

(** ** A thread that runs its start routine has not begun its fini_thread before the freeze *)

Definition Qfs (g : glob) (tr : list event) (t : Z) (f : frame) : Prop :=
  match f with
  | FBT _ n | FCb _ (KInitThread n) => n_fstart (nd g n) = false \/ g_inexit g = true
  | _ => True
  end.

Lemma reset_fs tsd g n : n_fstart (nd (reset_list tsd g) n) = true -> n_fstart (nd g n) = true.
Proof.
  assert (E : forall g1, nd (set_g_used false (set_g_pos 0 (set_g_free [] (set_g_list [] g1)))) n = nd g1 n) by reflexivity.
  unfold reset_list. destruct (g_used g); [|auto]. cbv zeta. rewrite E. clear E. destruct (get_tn g tsd) as [m|]; [|auto].
  destruct (Z.eqb m MAIN_TN); [auto|]. destruct (Z.eq_dec n MAIN_TN) as [->|X].
  - rewrite nd_set_same. discriminate.
  - rewrite nd_set_other by exact X. auto.
Qed.

Lemma fs_set dyn t u g tsd nc f c e n : frame_step dyn t u g tsd nc f c = Some e ->
  n_fstart (nd (e_g e) n) = true -> n_fstart (nd g n) = true \/ in_shoot f = true \/ after_freeze f = true \/ f = FClean CLSet n.
Proof.
  intros H W. fs_cases H; brk H; inversion H; subst; clear H; cbn [e_g] in W; auto;
    unfold nd in *; cbn in W |- *; g_brk; rewrite ?upd_if in *; auto;
    repeat match goal with H : context [Z.eqb ?a ?b] |- _ => destruct (Z.eqb_spec a b); subst; cbn in H end; auto;
    rewrite ?upd_if in *; auto;
    repeat match goal with H : context [Z.eqb ?a ?b] |- _ => destruct (Z.eqb_spec a b); subst; cbn in H end; auto; try discriminate W.
  all: left; apply (reset_fs tsd); exact W.
Qed.

Definition young (f : frame) : option Z :=
  match f with FBT _ n | FCb _ (KInitThread n) => Some n | _ => None end.

Lemma young_local dyn t u g tsd nc f c e : frame_step dyn t u g tsd nc f c = Some e ->
  (forall f' n, In f' (e_fr e) -> young f' = Some n -> young f = Some n /\ bt_frame f = true) /\
  (forall st f' n, e_new e = Some st -> In f' st -> young f' = Some n ->
     e_g e = g /\ exists q my, f = FPCReal q my n).
Proof.
  intros H. split.
  - intros f' n I Y. fs_cases H; brk H; inversion H; subst; clear H; cbn in I;
      repeat (destruct I as [<-|I]; [try discriminate Y; auto|]); try (destruct I; fail).
    all: destruct k; discriminate Y || auto.
  - intros st f' n E I Y. fs_cases H; brk H; inversion H; subst; clear H; cbn in E; try discriminate E; inversion E; subst; cbn in I;
      repeat (destruct I as [<-|I]; [try discriminate Y; cbn in Y; inversion Y; subst; eauto|]); destruct I.
Qed.

Lemma Qfs_young g tr t f : Qfs g tr t f <-> forall n, young f = Some n -> n_fstart (nd g n) = false \/ g_inexit g = true.
Proof.
  split.
  - intros Q n Y. destruct f; try discriminate Y; [destruct k; try discriminate Y|]; inversion Y; subst; exact Q.
  - intros Q. destruct f; try exact I; [destruct k; try exact I|]; apply Q; reflexivity.
Qed.

Lemma fs_reach dyn s : reach dyn orderly s -> fr_inv Qfs s.
Proof.
  apply fr_reach.
  - intros t f I. cbn in I. rewrite upd_if in I. destruct (Z.eqb t MAIN); [|destruct I].
    cbn in I. repeat (destruct I as [<-|I]; [exact Logic.I|]). destruct I.
  - intros g tr t f e t' _ H. exact H.
  - intros g tr t f I. cbn in I. repeat (destruct I as [<-|I]; [exact Logic.I|]). destruct I.
  - intros. exact I.
  - clear s. intros s t c f r e R FI HO Hst LV Hfs. pose proof (orderly_any _ _ R) as RA. pose proof (orderly_clean _ _ R) as RC.
    pose proof (nodes_reach _ _ RC) as (N & _ & _).
    assert (IN : In f (th_stack (s_th s t))) by (rewrite Hst; now left).
    pose proof (FI t f IN) as QF.
    assert (MO : g_inexit (s_g s) = true -> g_inexit (e_g e) = true).
    { destruct (exit_local _ _ _ _ _ _ _ _ _ Hfs) as ([X|(X & _)] & _); congruence. }
    assert (ST : forall n, f <> FClean CLSet n -> n_fstart (nd (s_g s) n) = false \/ g_inexit (s_g s) = true ->
       n_fstart (nd (e_g e) n) = false \/ g_inexit (e_g e) = true).
    { intros n NC [X|X]; [|auto]. destruct (n_fstart (nd (e_g e) n)) eqn:Y; [|auto]. right. apply MO.
      destruct (fs_set _ _ _ _ _ _ _ _ _ n Hfs Y) as [Z|[Z|[Z|Z]]]; [congruence| | |contradiction].
      - eapply (si_fr _ (shoot_reach _ _ RA)); eauto.
      - now apply (exit_frames _ _ RA t f IN). }
    split; [|split].
    + intros f' I'. apply Qfs_young. intros n Y.
      destruct (proj1 (young_local _ _ _ _ _ _ _ _ _ Hfs) f' n I' Y) as [YF _].
      apply ST; [intros ->; discriminate YF|]. now apply (proj1 (Qfs_young _ _ _ _) QF).
    + intros t' f' D P. apply Qfs_young. intros n Y. apply ST; [|now apply (proj1 (Qfs_young _ _ _ _) P)].
      intros ->. assert (HH : holds n f' = false).
      { apply (own_unique s t (FClean CLSet n) r n t' f' N Hst); [cbn; apply Z.eqb_refl|].
        destruct D as [D|(A & _ & B)]; auto. }
      destruct f'; try discriminate Y; [destruct k; try discriminate Y|]; inversion Y; subst; cbn in HH;
        rewrite Z.eqb_refl in HH; discriminate.
    + intros st f' EN I'. apply Qfs_young. intros n Y.
      destruct (proj2 (young_local _ _ _ _ _ _ _ _ _ Hfs) st f' n EN I' Y) as [EG (q & my & ->)]. rewrite EG.
      pose proof (blank_reach _ _ R t _ IN) as B. cbn in B. left. apply B.
Qed.

(** ** The main thread is on the list only after the freeze *)

Lemma main_listed dyn s : reach dyn clean_forks s -> In MAIN_TN (g_list (s_g s)) -> g_inexit (s_g s) = true.
Proof.
  apply (reach_invariant dyn clean_forks (fun s => In MAIN_TN (g_list (s_g s)) -> g_inexit (s_g s) = true)); [intros []|].
  clear s. intros s t c s' R HI HO HS. apply step_view in HS. destruct HS as (_ & LV & V).
  destruct V as [| | | | | | |f r e Hst Hun Hbar Hfs Es']; subst; try exact HI.
  rewrite apply_g. assert (IN : In f (th_stack (s_th s t))) by (rewrite Hst; now left).
  assert (MO : g_inexit (s_g s) = true -> g_inexit (e_g e) = true).
  { destruct (exit_local _ _ _ _ _ _ _ _ _ Hfs) as ([X|(X & _)] & _); congruence. }
  intros I. apply MO. destruct (list_local _ _ _ _ _ _ _ _ _ Hfs) as (_ & [E|[(n & -> & E)|[(n & -> & E)|[(old & -> & _ & E)|E]]]] & _);
    rewrite E in I.
  - auto.
  - destruct I as [->|I]; [|auto]. pose proof (hold_main _ _ _ _ R IN) as X. discriminate X.
  - apply without_in in I. apply HI, I.
  - now apply (exit_frames _ _ (clean_any _ _ R) t _ IN).
  - destruct I.
Qed.

(** ** Running a thread alone *)

Lemma tick dyn s t f r g fr ev : g_dead (s_g s) = false -> th_live (s_th s t) = true -> th_stack (s_th s t) = f :: r ->
  is_unwind f = false ->
  frame_step dyn t (s_next s) (s_g s) (th_tsd (s_th s t)) (th_nc (s_th s t)) f CStep =
    Some (mkeff g fr (th_tsd (s_th s t)) (th_nc (s_th s t)) ev None None false) ->
  exists s', step dyn s t CStep = Some s' /\ th_stack (s_th s' t) = fr ++ r /\ s_g s' = g /\
    s_tr s' = ev ++ s_tr s /\ th_live (s_th s' t) = true /\
    (forall u, u <> t -> th_stack (s_th s' u) = th_stack (s_th s u)).
Proof.
  intros D L ST U F. unfold step. rewrite D, L, ST, U, F. cbn [orb negb barred option_map]. eexists. split; [reflexivity|].
  unfold apply_eff. cbn. rewrite upd_same. repeat split; auto.
  intros u X. now rewrite upd_other.
Qed.

Lemma run_cons dyn s t c l s1 s2 : step dyn s t c = Some s1 -> run dyn s1 l = Some s2 -> run dyn s ((t, c) :: l) = Some s2.
Proof. intros A B. cbn. now rewrite A. Qed.

Lemma ticks_app t a b : ticks t (a + b) = ticks t a ++ ticks t b.
Proof. unfold ticks. apply repeat_app. Qed.

Definition kill1 (g : glob) (t sig n : Z) : list event :=
  if negb (n_self (nd g n) =? t)%Z && n_appl (nd g n) && negb (n_fstart (nd g n))
  then [EKill t (n_self (nd g n)) sig] else [].
Fixpoint kills (g : glob) (t sig : Z) (l : list Z) : list event :=
  match l with [] => [] | n :: r => kills g t sig r ++ kill1 g t sig n end.

Lemma walk dyn t sig r : forall l s, g_dead (s_g s) = false -> th_live (s_th s t) = true ->
  th_stack (s_th s t) = FBcNode sig l :: r ->
  exists s', run dyn s (ticks t (length l)) = Some s' /\ th_stack (s_th s' t) = FBcNode sig [] :: r /\
    s_g s' = s_g s /\ s_tr s' = kills (s_g s) t sig l ++ s_tr s /\ th_live (s_th s' t) = true.
Proof.
  induction l as [|n l IH]; intros s D L ST.
  - exists s. cbn. auto.
  - destruct (tick dyn s t (FBcNode sig (n :: l)) r (s_g s) [FBcNode sig l] (kill1 (s_g s) t sig n) D L ST eq_refl eq_refl)
      as (s1 & H1 & S1 & G1 & T1 & L1 & _).
    destruct (IH s1) as (s2 & H2 & S2 & G2 & T2 & L2); [congruence|auto|auto|].
    exists s2. split; [cbn; now rewrite H1|]. split; [exact S2|]. split; [congruence|]. split; [|exact L2].
    rewrite T2, T1, G1. cbn. now rewrite app_assoc.
Qed.

(** The whole call. *)
Lemma bc_call dyn s t sig s1 : step dyn s t (CCall (ABroadcast sig)) = Some s1 ->
  s_g s1 = s_g s /\ s_tr s1 = s_tr s /\ g_dead (s_g s) = false /\ th_live (s_th s t) = true /\ th_live (s_th s1 t) = true /\
  th_stack (s_th s1 t) = FBc sig :: th_stack (s_th s t) /\ exists f r, th_stack (s_th s t) = f :: r /\ open f = true.
Proof.
  intros H. pose proof H as H0. apply step_view in H. destruct H as (D & L & V).
  inversion V as [| | | | | | |f r e Hst Hun Hbar Hfs Es']; subst; try discriminate.
  rewrite apply_g, apply_tr. unfold frame_step in Hfs.
  destruct f; cbn in Hfs; try discriminate Hfs; inversion Hfs; subst; cbn;
    rewrite ?upd_same; cbn; repeat split; auto; try congruence; rewrite Hst; eauto.
Qed.

Lemma bc_done dyn s t sig r : g_dead (s_g s) = false -> th_live (s_th s t) = true -> th_stack (s_th s t) = FBc sig :: r ->
  exists k s' v m, run dyn s (ticks t k) = Some s' /\ th_stack (s_th s' t) = r /\
    s_tr s' = EBcastRet t v :: m ++ EBcast t sig :: s_tr s /\
    ((v = -1 /\ m = [] /\ g_used (s_g s) = true /\ exists h, g_lock (s_g s) = Some h)%Z \/
     (v = 0 /\ ((m = [] /\ g_used (s_g s) = false) \/
       (g_used (s_g s) = true /\ g_lock (s_g s) = None /\
        m = (if n_self (nd (s_g s) MAIN_TN) =? t then [] else [EKill t (n_self (nd (s_g s) MAIN_TN)) sig]) ++
            kills (s_g s) t sig (g_list (s_g s)))))%Z).
Proof.
  intros D L ST. destruct (g_used (s_g s)) eqn:US.
  2:{ destruct (tick dyn s t (FBc sig) r (s_g s) [] [EBcastRet t 0; EBcast t sig] D L ST eq_refl) as (s1 & H1 & S1 & G1 & T1 & L1 & _).
      { cbn. now rewrite US. }
      exists 1, s1, 0%Z, []. cbn. rewrite H1. split; [reflexivity|]. split; [exact S1|]. split; [exact T1|].
      right. split; [reflexivity|]. now left. }
  destruct (tick dyn s t (FBc sig) r (s_g s) [FBcTry sig] [EBcast t sig] D L ST eq_refl) as (s1 & H1 & S1 & G1 & T1 & L1 & _).
  { cbn. now rewrite US. }
  cbn in S1. assert (D1 : g_dead (s_g s1) = false) by congruence.
  destruct (g_lock (s_g s)) as [h|] eqn:LK.
  - destruct (tick dyn s1 t (FBcTry sig) r (s_g s) [] [EBcastRet t (-1)] D1 L1 S1 eq_refl) as (s2 & H2 & S2 & G2 & T2 & L2 & _).
    { cbn. now rewrite G1, LK. }
    exists 2, s2, (-1)%Z, []. split; [cbn; now rewrite H1, H2|]. split; [exact S2|]. split; [now rewrite T2, T1|].
    left. split; [reflexivity|]. split; [reflexivity|]. eauto.
  - destruct (tick dyn s1 t (FBcTry sig) r (set_g_lock (Some t) (s_g s)) [FBcFirst sig] [] D1 L1 S1 eq_refl) as (s2 & H2 & S2 & G2 & T2 & L2 & _).
    { cbn. now rewrite G1, LK. }
    cbn in S2, T2. assert (D2 : g_dead (s_g s2) = false) by (rewrite G2; exact D).
    destruct (tick dyn s2 t (FBcFirst sig) r (s_g s2) [FBcNode sig (g_list (s_g s2))] [] D2 L2 S2 eq_refl eq_refl) as (s3 & H3 & S3 & G3 & T3 & L3 & _).
    cbn in S3, T3. destruct (walk dyn t sig r (g_list (s_g s2)) s3) as (s4 & H4 & S4 & G4 & T4 & L4); [congruence|auto|auto|].
    assert (D4 : g_dead (s_g s4) = false) by congruence.
    destruct (tick dyn s4 t (FBcNode sig []) r (s_g s4) [FBcMain sig] [] D4 L4 S4 eq_refl eq_refl) as (s5 & H5 & S5 & G5 & T5 & L5 & _).
    cbn in S5, T5. assert (D5 : g_dead (s_g s5) = false) by congruence.
    destruct (tick dyn s5 t (FBcMain sig) r (s_g s5) [FBcUnlock]
       (if n_self (nd (s_g s5) MAIN_TN) =? t then [] else [EKill t (n_self (nd (s_g s5) MAIN_TN)) sig])%Z D5 L5 S5 eq_refl eq_refl) as (s6 & H6 & S6 & G6 & T6 & L6 & _).
    cbn in S6. assert (D6 : g_dead (s_g s6) = false) by congruence.
    destruct (tick dyn s6 t FBcUnlock r (set_g_lock None (s_g s6)) [] [EBcastRet t 0] D6 L6 S6 eq_refl eq_refl) as (s7 & H7 & S7 & G7 & T7 & L7 & _).
    assert (EG : s_g s5 = set_g_lock (Some t) (s_g s)) by congruence.
    exists (3 + (length (g_list (s_g s2)) + 3)), s7, 0%Z,
      ((if n_self (nd (s_g s) MAIN_TN) =? t then [] else [EKill t (n_self (nd (s_g s) MAIN_TN)) sig])%Z ++
            kills (s_g s) t sig (g_list (s_g s))).
    split.
    { rewrite !ticks_app, !run_app. cbn [ticks repeat run]. rewrite H1, H2, H3, run_app, H4. cbn [run]. rewrite H5, H6, H7. reflexivity. }
    split; [exact S7|]. split; [|right; split; [reflexivity|right; auto]].
    rewrite T7, T6, T5, T4, T3, T2, T1, G3, G2, EG. cbn [app]. rewrite <- app_assoc.
    assert (KE : forall l, kills (set_g_lock (Some t) (s_g s)) t sig l = kills (s_g s) t sig l) by (induction l as [|x l IH]; [reflexivity|]; cbn [kills]; rewrite IH; reflexivity).
    change (g_list (set_g_lock (Some t) (s_g s))) with (g_list (s_g s)). rewrite KE. reflexivity.
Qed.

(** ** Who is sent the signal *)

Lemma kills_in g t sig l e : In e (kills g t sig l) -> exists n, In n l /\ e = EKill t (n_self (nd g n)) sig /\
  n_self (nd g n) <> t /\ n_appl (nd g n) = true /\ n_fstart (nd g n) = false.
Proof.
  induction l as [|n l IH]; cbn; [intros []|]. intros I. apply in_app_or in I. destruct I as [I|I].
  - destruct (IH I) as (m & A & B). exists m. auto.
  - unfold kill1 in I. destruct (negb _ && _ && _) eqn:C; [|destruct I].
    apply andb_true_iff in C. destruct C as [C C3]. apply andb_true_iff in C. destruct C as [C1 C2].
    destruct I as [<-|[]]. exists n. apply negb_true_iff in C1, C3. apply Z.eqb_neq in C1. auto.
Qed.

Lemma kills_hit g t sig l n : In n l -> n_self (nd g n) <> t -> n_appl (nd g n) = true -> n_fstart (nd g n) = false ->
  In (EKill t (n_self (nd g n)) sig) (kills g t sig l).
Proof.
  intros I A B C. induction l as [|m l IH]; [destruct I|]. cbn. apply in_or_app. destruct I as [->|I]; [right|left; auto].
  unfold kill1. apply Z.eqb_neq in A. rewrite A, B, C. now left.
Qed.

Lemma count_none p tr : (forall e, In e tr -> p e = false) -> count p tr = 0.
Proof.
  induction tr as [|x tr IH]; intros H; [reflexivity|]. cbn. rewrite (H x) by now left. apply IH. intros; apply H; now right.
Qed.

Lemma kills_once g t sig u l : NoDup l -> (forall n m, In n l -> In m l -> n_self (nd g n) = u -> n_self (nd g m) = u -> n = m) ->
  count (kill_of t u sig) (kills g t sig l) <= 1.
Proof.
  induction l as [|n l IH]; intros ND U; [cbn; lia|]. inversion ND; subst. cbn. rewrite count_app.
  assert (IHL : count (kill_of t u sig) (kills g t sig l) <= 1) by (apply IH; auto; intros; apply U; auto; now right).
  destruct (Z.eq_dec (n_self (nd g n)) u) as [E|E].
  - assert (Z0 : count (kill_of t u sig) (kills g t sig l) = 0).
    { apply count_none. intros e I. destruct (kills_in _ _ _ _ _ I) as (m & IM & -> & _). cbn.
      destruct (Z.eqb_spec (n_self (nd g m)) u) as [X|X]; [|now rewrite andb_false_r].
      exfalso. assert (n = m) by (apply U; auto; [now left|now right]). now subst. }
    rewrite Z0. unfold kill1. destruct (negb _ && _ && _); cbn; [destruct (_ && _ && _)|]; lia.
  - unfold kill1. destruct (negb _ && _ && _); cbn; [|lia]. apply Z.eqb_neq in E. rewrite E, andb_false_r. cbn. lia.
Qed.

Lemma kill_of_self t u sig : kill_of t u sig (EKill t u sig) = true.
Proof. cbn. now rewrite !Z.eqb_refl. Qed.

Lemma freeze_none dyn s : reach dyn orderly s -> (forall w, ~ In (EFreeze w) (image (s_tr s))) -> g_inexit (s_g s) = false.
Proof.
  intros R F. destruct (g_inexit (s_g s)) eqn:X; [|reflexivity].
  destruct (inexit_freeze _ _ R X) as (w & I). now apply F in I.
Qed.

Lemma no_reset dyn s t f r : reach dyn clean_forks s -> th_live (s_th s t) = true -> th_stack (s_th s t) = f :: r -> resetting f = false ->
  existsb resetting (th_stack (s_th s MAIN)) = false.
Proof.
  intros R LV ST NF. destruct (existsb resetting (th_stack (s_th s MAIN))) eqn:RS; [|reflexivity].
  destruct (who_reset _ (who_reach _ _ R) MAIN RS) as (_ & (f' & r' & E & RF & _) & D).
  destruct (Z.eq_dec t MAIN) as [->|X]; [|rewrite (D t X) in LV; discriminate]. rewrite ST in E. inversion E; subst. congruence.
Qed.

Lemma start_node dyn s u n : reach dyn orderly s -> In (FBT BTPop n) (th_stack (s_th s u)) ->
  g_inexit (s_g s) = false ->
  In n (g_list (s_g s)) /\ n_self (nd (s_g s) n) = u /\ n_appl (nd (s_g s) n) = true /\ n_fstart (nd (s_g s) n) = false.
Proof.
  intros R I X. pose proof (orderly_clean _ _ R) as RC. pose proof (nodes_reach _ _ RC) as (N & _ & _).
  pose proof (ni_q _ N u _ I) as A. cbn in A.
  pose proof (data_reach _ _ RC u _ I) as ((c & q & d & _ & _ & _ & _ & B & _ & C & _) & _).
  pose proof (fs_reach _ _ R u _ I) as [F|F]; [|congruence].
  destruct (B eq_refl). auto.
Qed.

Lemma bc_spec dyn s t sig s1 : reach dyn orderly s -> step dyn s t (CCall (ABroadcast sig)) = Some s1 ->
  exists k s' v m, run dyn s1 (ticks t k) = Some s' /\ th_stack (s_th s' t) = th_stack (s_th s t) /\
    s_tr s' = EBcastRet t v :: m ++ EBcast t sig :: s_tr s /\
    ((v = -1 /\ m = [] /\ exists h, g_lock (s_g s) = Some h)%Z \/
     (v = 0%Z /\
      (forall e, In e m -> exists u, e = EKill t u sig /\ u <> t /\ (u = MAIN \/ initiated u (s_tr s))) /\
      (forall u, u <> MAIN -> count (kill_of t u sig) m <= 1) /\
      ((forall w, ~ In (EFreeze w) (image (s_tr s))) ->
        (forall u, u <> t -> in_start s u -> count (kill_of t u sig) m = 1) /\
        (t <> MAIN -> count (kill_of t MAIN sig) m = 1)))).
Proof.
  intros R H. destruct (bc_call _ _ _ _ _ H) as (G1 & T1 & D & L & L1 & S1 & f & r & ST & OP).
  rewrite <- G1 in D. destruct (bc_done dyn s1 t sig _ D L1 S1) as (k & s' & v & m & A1 & A2 & A3 & A4).
  exists k, s', v, m. rewrite T1 in A3. rewrite G1 in A4. split; [exact A1|]. split; [exact A2|]. split; [exact A3|].
  pose proof (orderly_clean _ _ R) as RC. pose proof (who_reach _ _ RC) as W. pose proof (nodes_reach _ _ RC) as (N & _ & _).
  assert (NR : existsb resetting (th_stack (s_th s MAIN)) = false).
  { eapply no_reset; eauto. destruct f; try discriminate OP; reflexivity. }
  destruct A4 as [(-> & -> & _ & LK)|(-> & [(-> & US)|(US & LK & ->)])]; [now left|right; split; [reflexivity|]..].
  - split; [intros e []|]. split; [cbn; lia|]. intros _. split.
    + intros u NE (n & I). exfalso. pose proof (live_in _ _ _ _ (orderly_any _ _ R) I) as LU.
      destruct (Z.eq_dec u MAIN) as [->|X]; [|rewrite (who_alone _ W US u X) in LU; discriminate].
      pose proof (who_bt _ W _ I). discriminate.
    + intros NE. rewrite (who_alone _ W US t NE) in L. discriminate.
  - assert (MS : n_self (nd (s_g s) MAIN_TN) = MAIN) by (apply (mi_self _ (main_reach _ _ RC)); now left).
    rewrite MS. pose proof (listed_reach _ _ RC) as LR.
    split; [|split].
    + intros e I. apply in_app_or in I. destruct I as [I|I].
      * destruct (Z.eqb_spec MAIN t) as [|NE]; [destruct I|]. destruct I as [<-|[]]. exists MAIN. auto.
      * destruct (kills_in _ _ _ _ _ I) as (n & IN & -> & A & B & _). eexists. split; [reflexivity|]. split; [exact A|].
        destruct (Z.eq_dec n MAIN_TN) as [->|X]; [now left|right].
        destruct (li_fact _ LR NR n IN X) as [(c & q & d & _ & _ & _ & _ & _ & _ & _ & IV & _) _].
        exists (n_num (nd (s_g s) n)), d, (n_data (nd (s_g s) n)). now apply IV.
    + intros u NU. rewrite count_app. rewrite count_none.
      * apply kills_once; [apply (ni_ndl _ N)|]. intros n n' I I' E E'.
        assert (X : forall x, n_self (nd (s_g s) x) = u -> x <> MAIN_TN) by (intros x ? ->; congruence).
        destruct (li_fact _ LR NR n I (X _ E)) as [_ Y]. destruct (li_fact _ LR NR n' I' (X _ E')) as [_ Y'].
        rewrite E in Y. rewrite E' in Y'. congruence.
      * intros e I. destruct (Z.eqb MAIN t); [destruct I|]. destruct I as [<-|[]]. cbn [kill_of].
        destruct (Z.eqb_spec MAIN u); [congruence|]. now rewrite andb_false_r.
    + intros NF. pose proof (freeze_none _ _ R NF) as NX. split.
      * intros u NE (n & I). destruct (start_node _ _ _ _ R I NX) as (IL & SE & AP & FS).
        assert (NU : u <> MAIN) by (intros ->; pose proof (who_bt _ W _ I); discriminate).
        apply Nat.le_antisymm.
        -- rewrite count_app. rewrite count_none.
           ++ apply kills_once; [apply (ni_ndl _ N)|]. intros x x' I1 I2 E E'.
              assert (X : forall x, n_self (nd (s_g s) x) = u -> x <> MAIN_TN) by (intros y ? ->; congruence).
              destruct (li_fact _ LR NR x I1 (X _ E)) as [_ Y]. destruct (li_fact _ LR NR x' I2 (X _ E')) as [_ Y'].
              rewrite E in Y. rewrite E' in Y'. congruence.
           ++ intros e J. destruct (Z.eqb MAIN t); [destruct J|]. destruct J as [<-|[]]. cbn [kill_of].
              destruct (Z.eqb_spec MAIN u); [congruence|]. now rewrite andb_false_r.
        -- eapply count_in; [apply in_or_app; right; apply (kills_hit _ t sig _ n IL); congruence|]. rewrite SE. apply kill_of_self.
      * intros NM. destruct (Z.eqb_spec MAIN t) as [E|_]; [congruence|]. rewrite count_app.
        rewrite (count_none _ (kills _ _ _ _)).
        -- cbn [count]. now rewrite kill_of_self.
        -- intros e I. destruct (kills_in _ _ _ _ _ I) as (n & IN & -> & A & _). cbn [kill_of].
           destruct (Z.eqb_spec (n_self (nd (s_g s) n)) MAIN) as [E|_]; [exfalso|now rewrite andb_false_r].
           destruct (Z.eq_dec n MAIN_TN) as [->|X]; [rewrite (main_listed _ _ RC IN) in NX; discriminate|].
           now apply (self_heap _ _ RC n X).
Qed.

Lemma safe_free_free dyn s : reach dyn safe_free s -> reach dyn free s.
Proof. apply reach_weaken. intros x t c [[A _] B]. now split. Qed.
Lemma safe_free_safe dyn s : reach dyn safe_free s -> reach dyn fini_safe s.
Proof. apply reach_weaken. intros x t c [A _]. exact A. Qed.

Lemma kill_fresh dyn s t c s' w u sig : reach dyn safe_free s -> step dyn s t c = Some s' -> s_tr s' = EKill w u sig :: s_tr s ->
  w = t /\ u <> w /\ (u = MAIN \/ initiated u (s_tr s) /\ count (fini_thread_of u) (s_tr s) = 0).
Proof.
  intros R HS E. destruct (new_event _ _ _ _ _ _ HS E I) as (f & r & ef & Hst & LV & Hfs & IE).
  pose proof (safe_free_free _ _ R) as RF. pose proof (free_orderly _ _ RF) as RO.
  pose proof (orderly_clean _ _ RO) as RC. pose proof (orderly_any _ _ RO) as RA.
  destruct (kill_ev _ _ _ _ _ _ _ _ _ _ _ _ Hfs IE) as (-> & [(n & rest & -> & EU & NE & AP & FS)|(-> & EU & NE)]).
  - split; [reflexivity|]. split; [exact NE|].
    assert (IN : In (FBcNode sig (n :: rest)) (th_stack (s_th s t))) by (rewrite Hst; now left).
    assert (L : In n (g_list (s_g s))) by (apply (bc_reach _ _ RF t _ IN); now left).
    assert (RS : existsb resetting (th_stack (s_th s MAIN)) = false).
    { eapply no_reset; eauto. }
    destruct (Z.eq_dec u MAIN) as [->|NM]; [now left|right].
    assert (X : n <> MAIN_TN).
    { intros ->. apply NM. rewrite EU. apply (bcself_reach _ _ RC t _ IN). reflexivity. }
    split.
    + destruct (li_fact _ (listed_reach _ _ RC) RS n L X) as [(c0 & q & d & _ & _ & _ & _ & _ & _ & _ & IV & _) _].
      rewrite EU. exists (n_num (nd (s_g s) n)), d, (n_data (nd (s_g s) n)). now apply IV.
    + destruct (once_reach _ _ (safe_free_safe _ _ R) u NM) as [_ H].
      assert (B : belongs s u n) by (right; auto). specialize (H n B FS). unfold fini_count in H. lia.
  - split; [reflexivity|]. split; [exact NE|]. left. rewrite EU.
    apply (bcself_reach _ _ RC t (FBcMain sig)); [rewrite Hst; now left|reflexivity].
Qed.

(** ** A broadcast frame can always move *)

Definition bc_frame (f : frame) : bool :=
  match f with FBc _ | FBcTry _ | FBcFirst _ | FBcNode _ _ | FBcMain _ | FBcUnlock => true | _ => false end.

Lemma bc_moves dyn s t f r : g_dead (s_g s) = false -> th_live (s_th s t) = true -> th_stack (s_th s t) = f :: r -> bc_frame f = true ->
  step dyn s t CStep <> None.
Proof.
  intros D L ST B. unfold step. rewrite D, L, ST. cbn [orb negb].
  assert (U : is_unwind f = false) by (destruct f; try discriminate B; reflexivity). rewrite U. cbn [barred].
  destruct f; try discriminate B; cbn [frame_step].
  - cbn. discriminate.
  - cbn. destruct (g_lock (s_g s)); discriminate.
  - cbn. discriminate.
  - destruct rest; cbn; discriminate.
  - cbn. discriminate.
  - cbn. discriminate.
Qed.
