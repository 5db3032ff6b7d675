(** monitor_broadcast_signal while other threads run. *)
From Verif Require Export LifeBcast LifeBcastAllSpec.

Local Open Scope nat_scope.

Definition active (f : frame) : bool :=
  match f with FBcTry _ | FBcFirst _ | FBcNode _ _ | FBcMain _ | FBcUnlock => true | _ => false end.
Definition is_fbc (f : frame) : bool := match f with FBc _ => true | _ => false end.
Definition kill_by (t : Z) (e : event) : bool :=
  match e with EKill t' _ _ => Z.eqb t' t | _ => false end.
Definition is_pop (f : frame) : bool := match f with FBT BTPop _ => true | _ => false end.

(** ** One step *)

Lemma quiet_local dyn t u g tsd nc f c e : frame_step dyn t u g tsd nc f c = Some e ->
  active f = false -> is_fbc f = false ->
  existsb active (e_fr e) = false /\ forall x, existsb (bc_mark x) (e_ev e) = false /\ existsb (kill_by x) (e_ev e) = false.
Proof.
  intros H A B. fs_cases H; try discriminate A; try discriminate B; brk H; inversion H; subst; clear H; cbn; auto;
    try (split; [|intros x]; g_brk; auto).
Qed.

Lemma new_local dyn t u g tsd nc f c e st : frame_step dyn t u g tsd nc f c = Some e -> e_new e = Some st ->
  existsb active st = false /\ existsb is_pop st = false.
Proof.
  intros H N. fs_cases H; brk H; inversion H; subst; clear H; cbn in N; try discriminate N; inversion N; subst; auto.
Qed.

Lemma pop_local dyn t u g tsd nc f c e n : frame_step dyn t u g tsd nc f c = Some e -> In (FBT BTPop n) (e_fr e) ->
  f = FBT BTCall n.
Proof.
  intros H I. fs_cases H; brk H; inversion H; subst; clear H; cbn in I;
    repeat match type of I with context [if ?b then _ else _] => destruct b; cbn in I end;
    repeat (destruct I as [I|I]; [try discriminate I; inversion I; subst; auto|]); try (destruct I; fail).
Qed.

Lemma kill_own dyn t u g tsd nc f c e x : frame_step dyn t u g tsd nc f c = Some e -> x <> t ->
  existsb (bc_mark x) (e_ev e) = false /\ existsb (kill_by x) (e_ev e) = false.
Proof.
  intros H X. assert (Y : Z.eqb t x = false) by (apply Z.eqb_neq; congruence).
  fs_cases H; brk H; inversion H; subst; clear H; cbn; auto; g_brk; rewrite ?Y; auto.
Qed.

(** ** The window of a call *)

Lemma win_nil t m sig older tr ev : bc_window (ev ++ tr) m t sig older -> existsb (bc_mark t) ev = false ->
  exists m0, m = ev ++ m0 /\ bc_window tr m0 t sig older.
Proof.
  intros [E N]. revert m E N. induction ev as [|x ev IH]; intros m E N V; [exists m; split; [reflexivity|split; auto]|].
  cbn in V. apply orb_false_elim in V. destruct V as [V1 V2]. destruct m as [|y m].
  - cbn in E. inversion E; subst. cbn in V1. rewrite Z.eqb_refl in V1. discriminate.
  - cbn in E. inversion E; subst. cbn in N. apply orb_false_elim in N. destruct N as [_ N].
    destruct (IH m H1 N V2) as (m0 & -> & B). exists m0. auto.
Qed.

Lemma win_call t m sig sig' older tr : bc_window (EBcast t sig' :: tr) m t sig older -> m = [] /\ sig' = sig /\ older = tr.
Proof.
  intros [E N]. destruct m as [|y m]; [inversion E; auto|]. inversion E; subst. cbn in N. rewrite Z.eqb_refl in N. discriminate.
Qed.

Lemma win_ret t m sig older tr v : bc_window (EBcastRet t v :: tr) m t sig older -> False.
Proof.
  intros [E N]. destruct m as [|y m]; [discriminate E|]. inversion E; subst. cbn in N. rewrite Z.eqb_refl in N. discriminate.
Qed.

(** ** What has been sent so far *)

Definition sent (t u sig : Z) (m : list event) : nat := count (kill_of t u sig) m.

(** Every thread in its start routine since before the call either is still to be
    visited or has got the signal. *)
Definition covered (s : state) (t sig : Z) (m older : list event) (rest : list Z) : Prop :=
  g_inexit (s_g s) = false -> forall u n, u <> t -> In (FBT BTPop n) (th_stack (s_th s u)) -> begun u older ->
    In n rest \/ sent t u sig m = 1.
Definition main_sent (s : state) (t sig : Z) (m : list event) (k : nat) : Prop :=
  g_inexit (s_g s) = false -> sent t MAIN sig m = k.

Definition rest_of (f : frame) : list Z := match f with FBcNode _ l => l | _ => [] end.
Definition sig_of (f : frame) (d : Z) : Z :=
  match f with FBcTry x | FBcFirst x | FBcNode x _ | FBcMain x => x | _ => d end.

Record pw (s : state) (t sig : Z) (m older : list event) (f : frame) : Prop := mkpw {
  pw_kill : forall u x, In (EKill t u x) m -> x = sig /\ u <> t;
  pw_once : forall u, u <> MAIN -> sent t u sig m <= 1;
  pw_sig : sig_of f sig = sig;
  pw_nd : NoDup (rest_of f);
  pw_rest : forall n, In n (rest_of f) -> n <> MAIN_TN -> sent t (n_self (nd (s_g s) n)) sig m = 0;
  pw_pc : match f with
          | FBcTry _ | FBcFirst _ => existsb (kill_by t) m = false
          | FBcNode _ l => covered s t sig m older l /\ main_sent s t sig m 0
          | FBcMain _ => covered s t sig m older [] /\ main_sent s t sig m 0
          | FBcUnlock => covered s t sig m older [] /\ (t <> MAIN -> main_sent s t sig m 1)
          | _ => True
          end
}.

Lemma kill_of_by t u sig e : kill_by t e = false -> kill_of t u sig e = false.
Proof. destruct e; cbn; auto. intros ->. reflexivity. Qed.
Lemma sent_none t u sig m : existsb (kill_by t) m = false -> sent t u sig m = 0.
Proof.
  intros H. apply count_none. intros e I. apply kill_of_by. destruct (kill_by t e) eqn:K; [|reflexivity].
  rewrite (proj2 (existsb_exists (kill_by t) m)) in H; [discriminate|eauto].
Qed.
Lemma sent_app t u sig a b : sent t u sig (a ++ b) = sent t u sig a + sent t u sig b.
Proof. apply count_app. Qed.

Lemma pw_keep s s' t sig m ev older f : pw s t sig m older f -> active f = true ->
  existsb (kill_by t) ev = false ->
  (forall n, n <> MAIN_TN -> In n (rest_of f) -> n_self (nd (s_g s') n) = n_self (nd (s_g s) n)) ->
  (g_inexit (s_g s') = false -> g_inexit (s_g s) = false) ->
  (forall u n, In (FBT BTPop n) (th_stack (s_th s' u)) -> In (FBT BTPop n) (th_stack (s_th s u)) \/ ~ begun u older) ->
  pw s' t sig (ev ++ m) older f.
Proof.
  intros [P1 P2 P3 P4 P5 P6] A K SELF IX POP.
  assert (SA : forall u, sent t u sig (ev ++ m) = sent t u sig m) by (intros u; rewrite sent_app, sent_none by exact K; reflexivity).
  assert (CV : forall l, covered s t sig m older l -> covered s' t sig (ev ++ m) older l).
  { intros l C X u n NE I B. rewrite SA. apply C; auto. destruct (POP u n I) as [Y|Y]; [exact Y|contradiction]. }
  assert (MV : forall k, main_sent s t sig m k -> main_sent s' t sig (ev ++ m) k).
  { intros k C X. rewrite SA. apply C; auto. }
  constructor.
  - intros u x I. apply in_app_or in I. destruct I as [I|I]; [exfalso|auto].
    rewrite (proj2 (existsb_exists (kill_by t) ev)) in K; [discriminate|]. eexists. split; [exact I|]. cbn. apply Z.eqb_refl.
  - intros u X. rewrite SA. auto.
  - exact P3.
  - exact P4.
  - intros n I X. rewrite (SELF n X I), SA. auto.
  - destruct f; try discriminate A; try (destruct P6; split; auto; fail);
      rewrite existsb_app, K; exact P6.
Qed.

Definition call_inv (s : state) : Prop := forall t sig m older f,
  bc_window (s_tr s) m t sig older -> find active (th_stack (s_th s t)) = Some f -> pw s t sig m older f.

Lemma find_app {A} (p : A -> bool) a b : existsb p a = false -> find p (a ++ b) = find p b.
Proof.
  induction a as [|x a IH]; [reflexivity|]. cbn. intros H. apply orb_false_elim in H. destruct H as [-> H]. auto.
Qed.
Lemma find_none' {A} (p : A -> bool) a : existsb p a = false -> find p a = None.
Proof.
  induction a as [|x a IH]; [reflexivity|]. cbn. intros H. apply orb_false_elim in H. destruct H as [-> H]. auto.
Qed.
Lemma unwind_inactive st : existsb active (unwind st) = false.
Proof. destruct (unwind_shape st) as [U|(n & f & U & _)]; rewrite U; reflexivity. Qed.

Lemma without_reset dyn s t f : reach dyn free s -> In f (th_stack (s_th s t)) -> locked f = true ->
  existsb resetting (th_stack (s_th s MAIN)) = false.
Proof.
  intros R I L. destruct (existsb resetting (th_stack (s_th s MAIN))) eqn:RS; [|reflexivity].
  pose proof (reset_free _ _ R RS) as LN. pose proof (lock_reach _ _ (orderly_any _ _ (free_orderly _ _ R)) t) as K.
  unfold held in K. rewrite LN in K. pose proof (w_lock_in _ _ I L). lia.
Qed.

Lemma listed_self dyn s n m : reach dyn clean_forks s -> existsb resetting (th_stack (s_th s MAIN)) = false ->
  In n (g_list (s_g s)) -> In m (g_list (s_g s)) -> n <> MAIN_TN -> m <> MAIN_TN ->
  n_self (nd (s_g s) n) = n_self (nd (s_g s) m) -> n = m.
Proof.
  intros R NR I J N M E. pose proof (listed_reach _ _ R) as LR.
  destruct (li_fact _ LR NR n I N) as [_ X]. destruct (li_fact _ LR NR m J M) as [_ Y]. rewrite E in X. congruence.
Qed.

Lemma one_kill t u u' sig : sent t u sig [EKill t u' sig] = if Z.eqb u' u then 1 else 0.
Proof. unfold sent. cbn. rewrite !Z.eqb_refl. cbn. rewrite andb_true_r. now destruct (Z.eqb u' u). Qed.

(** The visit of one node. *)
Lemma visit dyn s s' t sig m older n r st : reach dyn free s -> th_live (s_th s t) = true ->
  th_stack (s_th s t) = FBcNode sig (n :: r) :: st -> incl (n :: r) (g_list (s_g s)) ->
  pw s t sig m older (FBcNode sig (n :: r)) ->
  s_g s' = s_g s -> (forall u k, In (FBT BTPop k) (th_stack (s_th s' u)) -> In (FBT BTPop k) (th_stack (s_th s u))) ->
  pw s' t sig (kill1 (s_g s) t sig n ++ m) older (FBcNode sig r).
Proof.
  intros R LV ST INC [P1 P2 P3 P4 P5 [P6 P7]] G POP. cbn [rest_of] in *.
  pose proof (free_orderly _ _ R) as RO. pose proof (orderly_clean _ _ RO) as RC. pose proof (who_reach _ _ RC) as W.
  assert (IN : In (FBcNode sig (n :: r)) (th_stack (s_th s t))) by (rewrite ST; now left).
  assert (NR : existsb resetting (th_stack (s_th s MAIN)) = false) by (eapply no_reset; eauto).
  assert (MS : n_self (nd (s_g s) MAIN_TN) = MAIN) by (apply (bcself_reach _ _ RC t _ IN); reflexivity).
  inversion P4 as [|? ? NI ND]; subst.
  assert (IL : In n (g_list (s_g s))) by (apply INC; now left).
  assert (NEQ : forall k, In k r -> k <> MAIN_TN -> n_self (nd (s_g s) k) <> n_self (nd (s_g s) n)).
  { intros k I NM E. destruct (Z.eq_dec n MAIN_TN) as [->|NN].
    - rewrite MS in E. now apply (self_heap _ _ RC k NM).
    - assert (k = n) by (eapply listed_self; eauto; apply INC; now right). subst. contradiction. }
  assert (K1 : forall u, sent t u sig (kill1 (s_g s) t sig n) <= if Z.eqb (n_self (nd (s_g s) n)) u then 1 else 0).
  { intros u. unfold kill1. destruct (_ && _); [rewrite one_kill; lia|cbn; lia]. }
  assert (ONE : forall u, u <> MAIN -> sent t u sig (kill1 (s_g s) t sig n ++ m) <= 1).
  { intros u NU. rewrite sent_app. pose proof (K1 u) as K. destruct (Z.eqb_spec (n_self (nd (s_g s) n)) u) as [E|E].
    - assert (n <> MAIN_TN) by (intros ->; congruence). rewrite <- E. rewrite (P5 n) by (auto; now left). rewrite E. lia.
    - specialize (P2 u NU). lia. }
  constructor; cbn [rest_of sig_of].
  - intros u x I. apply in_app_or in I. destruct I as [I|I]; [|auto]. unfold kill1 in I.
    destruct (Z.eqb_spec (n_self (nd (s_g s) n)) t) as [E|E]; [destruct I|]. cbn [negb andb] in I.
    destruct (_ && _); [|destruct I]. destruct I as [I|[]]. inversion I; subst. auto.
  - exact ONE.
  - exact P3.
  - exact ND.
  - intros k I NM. rewrite G, sent_app. pose proof (K1 (n_self (nd (s_g s) k))) as K.
    rewrite (proj2 (Z.eqb_neq _ _)) in K by (apply not_eq_sym, NEQ; auto). rewrite (P5 k) by (auto; now right). lia.
  - split.
    + intros X u k NU I B. rewrite G in X. specialize (POP u k I). rewrite sent_app.
      destruct (start_node _ _ _ _ RO POP X) as (L1 & L2 & L3 & L4).
      assert (NM : u <> MAIN) by (intros ->; pose proof (who_bt _ W _ POP); discriminate).
      destruct (P6 X u k NU POP B) as [[E|I1]|E]; [|now left|].
      * right. subst k. assert (NN : n <> MAIN_TN) by (intros ->; congruence).
        pose proof (P5 n (or_introl eq_refl) NN) as Z0. rewrite L2 in Z0. rewrite Z0. unfold kill1. rewrite L3, L4, L2.
        rewrite (proj2 (Z.eqb_neq u t) NU). cbn [negb andb]. rewrite one_kill, Z.eqb_refl. reflexivity.
      * right. pose proof (ONE u NM) as O. rewrite sent_app in O. lia.
    + intros X. rewrite G in X. rewrite sent_app, (P7 X). pose proof (K1 MAIN) as K.
      assert (NN : n <> MAIN_TN) by (intros ->; rewrite (main_listed _ _ RC IL) in X; discriminate).
      rewrite (proj2 (Z.eqb_neq _ _)) in K by (apply (self_heap _ _ RC n NN)). lia.
Qed.

Lemma begun_none dyn s t n r older m sig t' : reach dyn any s -> th_stack (s_th s t) = FBT BTCall n :: r ->
  bc_window (s_tr s) m t' sig older -> ~ begun t older.
Proof.
  intros R ST [E _] (st & ar & I).
  apply (not_entered dyn s t (FBT BTCall n) R); [rewrite ST; now left|reflexivity|reflexivity|].
  left. exists st, ar. rewrite E. apply in_or_app. right. now right.
Qed.

Lemma call_reach dyn s : reach dyn free s -> call_inv s.
Proof.
  apply (reach_invariant dyn free call_inv).
  - intros t sig m older f [E _] _. destruct m; discriminate E.
  - clear s. intros s t0 c s' R HI HO HS. pose proof (free_orderly _ _ R) as RO. pose proof (orderly_any _ _ RO) as RA.
    pose proof (orderly_clean _ _ RO) as RC. pose proof (nodes_reach _ _ RC) as (N & _ & _).
    apply step_view in HS. destruct HS as (_ & LV & V).
    assert (PUT : forall st ev x, s_g x = s_g s -> s_tr x = ev ++ s_tr s ->
       (forall t, existsb (bc_mark t) ev = false /\ existsb (kill_by t) ev = false) ->
       (forall u, th_stack (s_th x u) = if Z.eqb u t0 then st else th_stack (s_th s u)) ->
       (existsb active st = false \/ find active st = find active (th_stack (s_th s t0))) ->
       (forall n, In (FBT BTPop n) st -> In (FBT BTPop n) (th_stack (s_th s t0))) -> call_inv x).
    { intros st ev x G T EV STK FA POP t sig m older f WN FF. rewrite T in WN. destruct (EV t) as [E1 E2].
      destruct (win_nil _ _ _ _ _ _ WN E1) as (m0 & -> & WN0).
      assert (FF0 : find active (th_stack (s_th s t)) = Some f).
      { rewrite STK in FF. destruct (Z.eqb_spec t t0) as [->|]; [|exact FF].
        destruct FA as [FA|FA]; [rewrite (find_none' _ _ FA) in FF; discriminate|congruence]. }
      apply pw_keep with (s := s); auto.
      - now apply (find_some _ _ FF).
      - intros n _ _. now rewrite G.
      - now rewrite G.
      - intros u n I. left. rewrite STK in I. destruct (Z.eqb_spec u t0) as [->|]; auto. }
    assert (UW : forall l n, ~ In (FBT BTPop n) (unwind l)).
    { intros l n I. destruct (unwind_shape l) as [U|(k & p & U & _)]; rewrite U in I; cbn in I;
        repeat (destruct I as [I|I]; [discriminate I|]); destruct I. }
    destruct V as [| | |f0 r0 Ec Est| | | |f r e Hst Hun Hbar Hfs Es']; subst.
    + apply (PUT (FApp AppHandler :: th_stack (s_th s t0)) []); auto.
      * intros u. cbn. rewrite upd_if. now destruct (Z.eqb u t0).
      * intros n [I|I]; [discriminate I|exact I].
    + apply (PUT (FEPGet EXIT_SIGNAL :: FEndLibDyn :: FSigEnd :: th_stack (s_th s t0)) []); auto.
      * intros u. cbn. rewrite upd_if. now destruct (Z.eqb u t0).
      * intros n I. repeat (destruct I as [I|I]; [discriminate I|]). exact I.
    + apply (PUT (FHGet :: th_stack (s_th s t0)) [EDeliver t0]); auto.
      * intros u. cbn. rewrite upd_if. now destruct (Z.eqb u t0).
      * intros n [I|I]; [discriminate I|exact I].
    + apply (PUT (FWGet :: th_stack (s_th s t0)) [EDeliver t0]); auto.
      * intros u. cbn. rewrite upd_if. now destruct (Z.eqb u t0).
      * intros n [I|I]; [discriminate I|exact I].
    + apply (PUT (unwind (th_stack (s_th s t0))) []); auto.
      * intros u. cbn. rewrite upd_if. now destruct (Z.eqb u t0).
      * left. apply unwind_inactive.
      * intros n I. now apply UW in I.
    + apply (PUT (unwind r) []); auto.
      * intros u. cbn. rewrite upd_if. now destruct (Z.eqb u t0).
      * left. apply unwind_inactive.
      * intros n I. now apply UW in I.
    + apply (PUT [] [EEnd t0]); auto.
      * intros u. cbn. rewrite upd_if. now destruct (Z.eqb u t0).
      * intros n [].
    + (* a frame *)
      assert (IN : In f (th_stack (s_th s t0))) by (rewrite Hst; now left).
      assert (IX : g_inexit (e_g e) = false -> g_inexit (s_g s) = false).
      { destruct (exit_local _ _ _ _ _ _ _ _ _ Hfs) as ([X|(X & _)] & _); congruence. }
      assert (STK : forall u, th_stack (s_th (apply_eff s t0 (s_th s t0) r e) u) = (if Z.eqb u t0 then e_fr e ++ r else th_stack (s_th s u)) \/
          (exists st, e_new e = Some st /\ u = s_next s /\ th_stack (s_th (apply_eff s t0 (s_th s t0) r e) u) = st) \/
          th_stack (s_th (apply_eff s t0 (s_th s t0) r e) u) = []).
      { intros u. destruct (e_child e) eqn:HC.
        - destruct (child_shape _ _ _ _ _ _ _ _ _ Hfs HC) as (_ & _ & _ & _ & _ & HN & HK & _).
          rewrite apply_stack_child by auto. destruct (Z.eqb u t0); auto.
        - rewrite apply_stack by auto. destruct (e_new e) as [st|]; [|now left].
          destruct (Z.eqb_spec u (s_next s)); [|now left]. right. left. eauto. }
      assert (POP : forall u n, In (FBT BTPop n) (th_stack (s_th (apply_eff s t0 (s_th s t0) r e) u)) ->
          In (FBT BTPop n) (th_stack (s_th s u)) \/ (u = t0 /\ f = FBT BTCall n)).
      { intros u n I. destruct (STK u) as [X|[(st & EN & -> & X)|X]]; rewrite X in I.
        - destruct (Z.eqb_spec u t0) as [->|]; [|now left]. apply in_app_or in I. destruct I as [I|I].
          + right. split; [reflexivity|]. eapply pop_local; eauto.
          + left. rewrite Hst. now right.
        - destruct (new_local _ _ _ _ _ _ _ _ _ _ Hfs EN) as [_ Y]. exfalso.
          rewrite (proj2 (existsb_exists is_pop st)) in Y; [discriminate|]. eexists. split; [exact I|reflexivity].
        - destruct I. }
      assert (POP' : forall t sig m older, bc_window (s_tr s) m t sig older -> forall u n,
          In (FBT BTPop n) (th_stack (s_th (apply_eff s t0 (s_th s t0) r e) u)) ->
          In (FBT BTPop n) (th_stack (s_th s u)) \/ ~ begun u older).
      { intros t sig m older WN u n I. destruct (POP u n I) as [X|[-> ->]]; [now left|right]. eapply begun_none; eauto. }
      assert (KEEP : forall t sig m older ff, bc_window (s_tr (apply_eff s t0 (s_th s t0) r e)) m t sig older ->
          existsb (bc_mark t) (e_ev e) = false -> existsb (kill_by t) (e_ev e) = false ->
          find active (th_stack (s_th s t)) = Some ff -> pw (apply_eff s t0 (s_th s t0) r e) t sig m older ff).
      { intros t sig m older ff WN E1 E2 FF. rewrite apply_tr in WN. destruct (win_nil _ _ _ _ _ _ WN E1) as (m0 & -> & WN0).
        pose proof (find_some _ _ FF) as [IF AF].
        apply pw_keep with (s := s); auto.
        - intros n NM I. rewrite apply_g.
          assert (L : In n (g_list (s_g s))).
          { pose proof (bc_reach _ _ R t ff IF) as Q. destruct ff; try (destruct I; fail). apply Q, I. }
          pose proof (ni_q _ N t0 f IN) as Q.
          destruct (self_local _ _ _ _ _ _ _ _ _ n Hfs NM) as [X|[->|[->|(q & my & d & ->)]]]; [exact X|..]; destruct (Q L).
        - rewrite apply_g. exact IX.
        - eapply POP'; eauto. }
      intros t sig m older ff WN FF.
      destruct (Z.eq_dec t t0) as [->|NE].
      2:{ destruct (kill_own _ _ _ _ _ _ _ _ _ t Hfs NE) as [E1 E2]. apply KEEP; auto.
          destruct (STK t) as [X|[(st & EN & _ & X)|X]]; rewrite X in FF.
          - now rewrite (proj2 (Z.eqb_neq t t0) NE) in FF.
          - rewrite (find_none' _ _ (proj1 (new_local _ _ _ _ _ _ _ _ _ _ Hfs EN))) in FF. discriminate.
          - discriminate. }
      assert (FR : find active (e_fr e ++ r) = Some ff).
      { destruct (STK t0) as [X|[(st & EN & _ & X)|X]]; rewrite X in FF; [now rewrite Z.eqb_refl in FF| |discriminate].
        rewrite (find_none' _ _ (proj1 (new_local _ _ _ _ _ _ _ _ _ _ Hfs EN))) in FF. discriminate. }
      destruct (active f || is_fbc f) eqn:AF.
      2:{ apply orb_false_elim in AF. destruct AF as [A1 A2]. destruct (quiet_local _ _ _ _ _ _ _ _ _ Hfs A1 A2) as [E0 E].
          destruct (E t0) as [E1 E2]. apply KEEP; auto. rewrite Hst. cbn [find]. rewrite A1.
          now rewrite (find_app _ _ _ E0) in FR. }
      clear KEEP STK. pose proof (bc_reach _ _ R t0 f IN) as QB.
      assert (HF : active f = true -> forall m0, bc_window (s_tr s) m0 t0 sig older -> pw s t0 sig m0 older f).
      { intros A m0 WN0. apply HI; [exact WN0|]. rewrite Hst. cbn [find]. now rewrite A. }
      rewrite apply_tr in WN. set (s' := apply_eff s t0 (s_th s t0) r e) in *.
      assert (SG : s_g s' = e_g e) by apply apply_g.
      destruct f; try discriminate AF; destruct c; try discriminate Hfs; cbn [frame_step auto_step] in Hfs;
        unfold ret, go in Hfs.
      * (* FBc *) inversion Hfs; subst e; clear Hfs. cbn [e_fr e_ev e_g] in *. destruct (g_used (s_g s)).
        -- cbn in FR. inversion FR; subst ff. destruct (win_call _ _ _ _ _ _ WN) as (-> & -> & ->).
           constructor; cbn; auto; try constructor; try (intros; contradiction).
        -- now apply win_ret in WN.
      * (* FBcTry *) destruct (g_lock (s_g s)); inversion Hfs; subst e; clear Hfs; cbn [e_fr e_ev e_g] in *; [now apply win_ret in WN|].
        cbn in FR. inversion FR; subst ff. destruct (HF eq_refl m WN) as [P1 P2 P3 P4 P5 P6]. constructor; auto.
      * (* FBcFirst *) inversion Hfs; subst e; clear Hfs; cbn [e_fr e_ev e_g] in *.
        cbn in FR. inversion FR; subst ff. destruct (HF eq_refl m WN) as [P1 P2 P3 P4 P5 P6].
        constructor; cbn [rest_of sig_of]; auto.
        -- apply (ni_ndl _ N).
        -- intros n _ _. now apply sent_none.
        -- split.
           ++ intros X u n NU I B. rewrite SG in X. destruct (POP u n I) as [Y|[-> Y]]; [|discriminate Y]. left. now apply (start_node _ _ _ _ RO Y X).
           ++ intros _. now apply sent_none.
      * (* FBcNode *) destruct rest as [|n rest]; inversion Hfs; subst e; clear Hfs; cbn [e_fr e_ev e_g] in *; cbn in FR; inversion FR; subst ff.
        -- destruct (HF eq_refl m WN) as [P1 P2 P3 P4 P5 [P6 P7]]. constructor; auto.
           split; [|intros X; rewrite SG in X; now apply P7].
           intros X u n NU I B. rewrite SG in X. destruct (POP u n I) as [Y|[-> Y]]; [|discriminate Y]. now apply (P6 X u n).
        -- change (if negb (n_self (nd (s_g s) n) =? t0)%Z && n_appl (nd (s_g s) n) && negb (n_fstart (nd (s_g s) n))
              then [EKill t0 (n_self (nd (s_g s) n)) sig0] else []) with (kill1 (s_g s) t0 sig0 n) in WN.
           assert (NK : existsb (bc_mark t0) (kill1 (s_g s) t0 sig0 n) = false) by (unfold kill1; destruct (_ && _); reflexivity).
           destruct (win_nil _ _ _ _ _ _ WN NK) as (m0 & -> & WN0). pose proof (HF eq_refl m0 WN0) as P.
           pose proof (pw_sig _ _ _ _ _ _ P) as E. cbn in E. subst sig0.
           apply (visit dyn s s' t0 sig m0 older n rest r); auto.
           intros u k I. destruct (POP u k I) as [Y|[-> Y]]; [exact Y|discriminate Y].
      * (* FBcMain *) inversion Hfs; subst e; clear Hfs; cbn [e_fr e_ev e_g] in *; cbn in FR; inversion FR; subst ff.
        assert (MS : n_self (nd (s_g s) MAIN_TN) = MAIN) by (apply (bcself_reach _ _ RC t0 _ IN); reflexivity).
        rewrite MS in WN. destruct (Z.eqb_spec MAIN t0) as [E|E].
        -- cbn in WN. destruct (HF eq_refl m WN) as [P1 P2 P3 P4 P5 [P6 P7]]. constructor; auto. split; [|intros X; congruence].
           intros X u n NU I B. rewrite SG in X. destruct (POP u n I) as [Y|[-> Y]]; [|discriminate Y]. now apply (P6 X u n).
        -- destruct (win_nil _ _ _ _ _ _ WN eq_refl) as (m0 & -> & WN0).
           destruct (HF eq_refl m0 WN0) as [P1 P2 P3 P4 P5 [P6 P7]]. cbn in P3. subst sig0.
           assert (OT : forall u, u <> MAIN -> sent t0 u sig ([EKill t0 MAIN sig] ++ m0) = sent t0 u sig m0).
           { intros u NU. rewrite sent_app, one_kill. now rewrite (proj2 (Z.eqb_neq MAIN u) (not_eq_sym NU)). }
           constructor; cbn [rest_of sig_of]; auto.
           ++ intros u x I. destruct I as [I|I]; [inversion I; subst; auto|auto].
           ++ intros u NU. rewrite OT by exact NU. auto.
           ++ intros n Hn. destruct Hn.
           ++ split.
              ** intros X u n NU I B. rewrite SG in X. destruct (POP u n I) as [Y|[-> Y]]; [|discriminate Y].
                 rewrite OT; [now apply (P6 X u n)|]. intros ->. pose proof (who_bt _ (who_reach _ _ RC) _ Y). discriminate.
              ** intros _ X. rewrite SG in X. rewrite sent_app, one_kill, Z.eqb_refl, (P7 X). reflexivity.
      * (* FBcUnlock *) inversion Hfs; subst e; clear Hfs; cbn [e_fr e_ev e_g] in *. now apply win_ret in WN.
Qed.

(** ** The return *)

Lemma ret_ev dyn t u g tsd nc f c e v : frame_step dyn t u g tsd nc f c = Some e -> In (EBcastRet t v) (e_ev e) ->
  (exists sig, f = FBc sig /\ g_used g = false /\ v = 0%Z /\ e_ev e = [EBcastRet t 0; EBcast t sig] /\ e_g e = g) \/
  (exists sig, f = FBcTry sig /\ v = (-1)%Z /\ e_ev e = [EBcastRet t v] /\ e_g e = g) \/
  (f = FBcUnlock /\ v = 0%Z /\ e_ev e = [EBcastRet t v] /\ g_inexit (e_g e) = g_inexit g).
Proof.
  intros H I. fs_cases H; brk H; inversion H; subst; clear H; cbn in I;
    repeat match type of I with context [if ?b then _ else _] => destruct b eqn:?; cbn in I end;
    repeat (destruct I as [I|I]; [try discriminate I; inversion I; subst; cbn; eauto 12|]); try (destruct I; fail).
Qed.

Definition bc_result (s : state) (t sig v : Z) (m older : list event) : Prop :=
  (v = -1 /\ forall u x, ~ In (EKill t u x) m)%Z \/
  (v = 0%Z /\
   (forall u x, In (EKill t u x) m -> x = sig /\ u <> t /\ (u = MAIN \/ initiated u (s_tr s))) /\
   (forall u, u <> MAIN -> count (kill_of t u sig) m <= 1) /\
   ((forall w, ~ In (EFreeze w) (image (s_tr s))) ->
     (forall u, u <> t -> in_start s u -> begun u older -> count (kill_of t u sig) m = 1) /\
     (t <> MAIN -> count (kill_of t MAIN sig) m = 1))).

(** Who has been sent a signal is main or has returned from init_thread. *)
Lemma kill_init dyn s : reach dyn free s -> forall t u x, In (EKill t u x) (s_tr s) -> u = MAIN \/ initiated u (s_tr s).
Proof.
  apply (reach_invariant dyn free (fun s => forall t u x, In (EKill t u x) (s_tr s) -> u = MAIN \/ initiated u (s_tr s))); [intros t u x []|].
  clear s. intros s t0 c s' R HI HO HS. apply step_view in HS. destruct HS as (_ & LV & V).
  assert (MO : forall u ev, u = MAIN \/ initiated u (s_tr s) -> u = MAIN \/ initiated u (ev ++ s_tr s)).
  { intros u ev [X|(k & d & v & X)]; [now left|right]. exists k, d, v. apply in_or_app. now right. }
  destruct V as [| | | | | | |f r e Hst Hun Hbar Hfs Es']; subst; try exact HI;
    try (intros t u x [J|J]; [discriminate J|]; apply (MO u [_]); now apply HI in J).
  rewrite apply_tr. intros t u x J. apply MO. apply in_app_or in J. destruct J as [J|J]; [|now apply HI in J].
  pose proof (free_orderly _ _ R) as RO. pose proof (orderly_clean _ _ RO) as RC.
  assert (IN : In f (th_stack (s_th s t0))) by (rewrite Hst; now left).
  destruct (kill_ev _ _ _ _ _ _ _ _ _ _ _ _ Hfs J) as (-> & [(n & rest & -> & EU & NE & AP & FS)|(-> & EU & NE)]).
  - assert (L : In n (g_list (s_g s))) by (apply (bc_reach _ _ R t0 _ IN); now left).
    assert (RS : existsb resetting (th_stack (s_th s MAIN)) = false) by (eapply no_reset; eauto).
    destruct (Z.eq_dec n MAIN_TN) as [->|X].
    + left. rewrite EU. apply (bcself_reach _ _ RC t0 _ IN). reflexivity.
    + right. destruct (li_fact _ (listed_reach _ _ RC) RS n L X) as [(c0 & q & d & _ & _ & _ & _ & _ & _ & _ & IV & _) _].
      rewrite EU. exists (n_num (nd (s_g s) n)), d, (n_data (nd (s_g s) n)). now apply IV.
  - left. rewrite EU. apply (bcself_reach _ _ RC t0 _ IN). reflexivity.
Qed.

Lemma bc_all dyn s t c s' v m sig older : reach dyn free s -> step dyn s t c = Some s' ->
  (exists ev, s_tr s' = EBcastRet t v :: ev ++ s_tr s) -> s_tr s' = EBcastRet t v :: m ++ EBcast t sig :: older ->
  existsb (bc_mark t) m = false -> bc_result s t sig v m older.
Proof.
  intros R HS (ev & T) T' NM. pose proof (free_orderly _ _ R) as RO. pose proof (orderly_clean _ _ RO) as RC.
  pose proof (who_reach _ _ RC) as W. apply step_view in HS. destruct HS as (_ & LV & V).
  destruct V as [| | | | | | |f r e Hst Hun Hbar Hfs Es']; subst; unfold add_ev in T; cbn [set_th s_tr app] in T.
  1,2,5,6: apply (f_equal (@length event)) in T; cbn in T; rewrite app_length in T; lia.
  1-3: discriminate T.
  rewrite apply_tr in T, T'.
  assert (EV : In (EBcastRet t v) (e_ev e)).
  { destruct (e_ev e) as [|y l]; [|inversion T; now left]. apply (f_equal (@length event)) in T. cbn in T. rewrite app_length in T. lia. }
  assert (IN : In f (th_stack (s_th s t))) by (rewrite Hst; now left).
  destruct (ret_ev _ _ _ _ _ _ _ _ _ _ Hfs EV) as [(sg & -> & US & -> & E & _)|[(sg & -> & -> & E & _)|(-> & -> & E & _)]];
    rewrite E in T'; cbn [app] in T'; apply (f_equal (@tl event)) in T'; cbn [tl] in T'.
  - destruct m as [|y m]; inversion T'; subst; [|cbn in NM; rewrite Z.eqb_refl in NM; discriminate].
    right. split; [reflexivity|]. split; [intros u x []|]. split; [cbn; lia|]. intros _. split.
    + intros u NE (n & J) _. exfalso. pose proof (live_in _ _ _ _ (orderly_any _ _ RO) J) as LU.
      destruct (Z.eq_dec u MAIN) as [->|X]; [|rewrite (who_alone _ W US u X) in LU; discriminate].
      pose proof (who_bt _ W _ J). discriminate.
    + intros NE. rewrite (who_alone _ W US t NE) in LV. discriminate.
  - assert (WN : bc_window (s_tr s) m t sig older) by (split; auto).
    assert (FF : find active (th_stack (s_th s t)) = Some (FBcTry sg)) by (rewrite Hst; reflexivity).
    destruct (call_reach _ _ R t sig m older _ WN FF) as [P1 P2 P3 P4 P5 P6].
    left. split; [reflexivity|]. intros u x J. rewrite (proj2 (existsb_exists (kill_by t) m)) in P6; [discriminate|].
    eexists. split; [exact J|]. cbn. apply Z.eqb_refl.
  - assert (WN : bc_window (s_tr s) m t sig older) by (split; auto).
    assert (FF : find active (th_stack (s_th s t)) = Some FBcUnlock) by (rewrite Hst; reflexivity).
    destruct (call_reach _ _ R t sig m older _ WN FF) as [P1 P2 P3 P4 P5 [P6 P7]].
    right. split; [reflexivity|]. split; [|split; [exact P2|]].
    + intros u x J. destruct (P1 u x J) as [A B]. split; [exact A|]. split; [exact B|].
      apply (kill_init _ _ R t u x). rewrite T'. apply in_or_app. now left.
    + intros NF. pose proof (freeze_none _ _ RO NF) as NX. split.
      * intros u NE (n & J) B. destruct (P6 NX u n NE J B) as [[]|X]. exact X.
      * intros NE. exact (P7 NE NX).
Qed.
