(** Which thread a node belongs to, and who writes to it. *)
From Verif Require Export LifeOwn.

Local Open Scope nat_scope.

(** Node n belongs to thread t: t is in its own function and holds n, or n is on the
    list with t as its thread. *)
Definition belongs (s : state) (t n : Z) : Prop :=
  (exists b, In b (th_stack (s_th s t)) /\ owner b = true /\ holds n b = true) \/
  (n <> MAIN_TN /\ In n (g_list (s_g s)) /\ n_self (nd (s_g s) n) = t).

Lemma valid_belongs s t n : valid s t n -> belongs s t n.
Proof. intros [V|(A & B & C & _)]; [now left|right; auto]. Qed.

Lemma belongs_holder dyn s t n t' f : reach dyn clean_forks s -> belongs s t n ->
  In f (th_stack (s_th s t')) -> holds n f = true -> t' = t.
Proof.
  intros R V I H. pose proof (nodes_reach _ _ R) as (N & _ & _).
  destruct V as [(b & IB & OB & HB)|(NM & L & S)].
  - destruct (ni_own _ N) as (ow & A & _).
    pose proof (held_owned s ow t b n A IB HB). pose proof (held_owned s ow t' f n A I H). congruence.
  - pose proof (ni_q _ N t' f I) as Q. pose proof (data_reach _ _ R t' f I) as D.
    destruct f; try discriminate H; cbn in H; try (apply Z.eqb_eq in H; subst); cbn in Q; try (destruct (Q L)).
    + destruct k; try discriminate H; apply Z.eqb_eq in H; subst; cbn in D; destruct D as [D _].
      * destruct D as (c0 & q & d & _ & _ & _ & _ & X & _). destruct (X eq_refl). congruence.
      * destruct D as (c0 & q & d & _ & _ & _ & _ & X & _). congruence.
    + cbn in D. destruct D as [(c0 & q & d & _ & _ & _ & _ & X & _) _].
      destruct p; try (destruct (Q L)); destruct (X eq_refl); congruence.
    + destruct p; try discriminate H; apply Z.eqb_eq in H; subst; try (destruct (Q L)); cbn in D;
        destruct D as [(c0 & q & d & _ & _ & _ & _ & X & _) _]; congruence.
Qed.

Lemma belongs_unique dyn s t n t' : reach dyn clean_forks s -> belongs s t n -> belongs s t' n -> t' = t.
Proof.
  intros R V V'. destruct V' as [(b & IB & OB & HB)|K].
  - eapply belongs_holder; eauto.
  - destruct V as [(b & IB & OB & HB)|(_ & _ & S)].
    + symmetry. eapply belongs_holder; eauto. now right.
    + destruct K as (_ & _ & S'). congruence.
Qed.

Lemma hold_main dyn s t f : reach dyn clean_forks s -> In f (th_stack (s_th s t)) -> holds MAIN_TN f = false.
Proof.
  intros R I. destruct (holds MAIN_TN f) eqn:H; [exfalso|reflexivity].
  pose proof (nodes_reach _ _ R) as (N & _ & _). destruct (held_alloc _ _ _ _ N I H) as [A _].
  unfold alloc, MAIN_TN in A. lia.
Qed.

Lemma belongs_main dyn s t n : reach dyn clean_forks s -> belongs s t n -> n <> MAIN_TN.
Proof.
  intros R [(b & I & O & H)|(A & _)]; [|exact A]. intros ->. rewrite (hold_main _ _ _ _ R I) in H. discriminate.
Qed.

Lemma belongs_not_main dyn s n : reach dyn clean_forks s -> belongs s MAIN n -> False.
Proof.
  intros R [(b & I & O & _)|(A & _ & S)].
  - pose proof (who_bt _ (who_reach _ _ R) b I) as X. rewrite (owner_bt _ O) in X. discriminate.
  - now apply (self_heap _ _ R n A).
Qed.

(** ** How belonging begins *)

Lemma owner_local dyn t u g tsd nc f c e n b : frame_step dyn t u g tsd nc f c = Some e ->
  (In b (e_fr e) -> owner b = true -> holds n b = true -> owner f = true /\ holds n f = true) /\
  (forall st, e_new e = Some st -> In b st -> owner b = true -> holds n b = true ->
     (exists q my, f = FPCReal q my n) /\ c = COk).
Proof.
  intros H. split.
  - intros I' O HB. fs_cases H; brk H; inversion H; subst; clear H; cbn in I';
      repeat match type of I' with context [if ?b then _ else _] => destruct b; cbn in I' end;
      repeat (destruct I' as [I'|I']; [subst b; try discriminate O; cbn in O, HB |- *; auto|]); try (destruct I'; fail).
  - intros st E I' O HB. fs_cases H; brk H; inversion H; subst; clear H; cbn in E; try discriminate E;
      inversion E; subst; cbn in I'; repeat (destruct I' as [<-|I']; [try discriminate O; cbn in HB|]); try (destruct I'; fail).
    apply Z.eqb_eq in HB. subst. eauto.
Qed.

Lemma belongs_new dyn s t c s' u n : reach dyn clean_forks s -> clean_forks s t c -> step dyn s t c = Some s' ->
  belongs s' u n -> belongs s u n \/
  (u = s_next s /\ c = COk /\ exists q my r, th_stack (s_th s t) = FPCReal q my n :: r).
Proof.
  intros R HO HS B. pose proof (nodes_reach _ _ R) as (N & _ & _).
  apply step_view in HS. destruct HS as (_ & LV & V).
  assert (PUSH : forall l, s_g s' = s_g s -> (forall f, In f l -> owner f = false) ->
     (forall u, th_stack (s_th s' u) = if Z.eqb u t then l ++ th_stack (s_th s u) else th_stack (s_th s u)) ->
     belongs s u n).
  { intros l EG EL ES. destruct B as [(b & IB & OB & HB)|B]; [left|right; now rewrite <- EG].
    exists b. split; [|auto]. rewrite ES in IB. destruct (Z.eqb u t); [|exact IB].
    apply in_app_iff in IB. destruct IB as [IB|IB]; [|exact IB]. rewrite (EL _ IB) in OB. discriminate. }
  assert (UNW : forall st, incl st (th_stack (s_th s t)) -> s' = set_th s t (with_stack (s_th s t) (unwind st)) -> belongs s u n).
  { intros st IC ->. destruct B as [(b & IB & OB & HB)|B]; [left|right; exact B].
    cbn in IB. rewrite upd_if in IB. destruct (Z.eqb_spec u t) as [E|E]; [|now exists b]. subst u. cbn in IB.
    destruct (unwind_shape st) as [U|(m & p & U & IP & P)]; rewrite U in IB; cbn in IB.
    - destruct IB as [<-|[]]. discriminate OB.
    - destruct IB as [<-|[<-|[]]]; [|discriminate OB]. cbn in HB. apply Z.eqb_eq in HB. subst m.
      exists p. split; [now apply IC|]. destruct P as [(q & -> & _)|(q & ->)]; cbn; rewrite Z.eqb_refl; auto. }
  destruct V as [| | | | | | |f r e Hst Hun Hbar Hfs Es'].
  - left. apply (PUSH [FApp AppHandler]); subst; cbn; [reflexivity|intros f [<-|[]]; reflexivity|].
    intros v. rewrite upd_if. destruct (Z.eqb_spec v t); subst; reflexivity.
  - left. apply (PUSH [FEPGet EXIT_SIGNAL; FEndLibDyn; FSigEnd]); subst; cbn; [reflexivity|intros f [<-|[<-|[<-|[]]]]; reflexivity|].
    intros v. rewrite upd_if. destruct (Z.eqb_spec v t); subst; reflexivity.
  - left. apply (PUSH [FHGet]); subst; cbn; [reflexivity|intros f [<-|[]]; reflexivity|].
    intros v. rewrite upd_if. destruct (Z.eqb_spec v t); subst; reflexivity.
  - left. apply (PUSH [FWGet]); subst; cbn; [reflexivity|intros f' [<-|[]]; reflexivity|].
    intros v. rewrite upd_if. destruct (Z.eqb_spec v t); subst; reflexivity.
  - left. eapply UNW; [apply incl_refl|eassumption].
  - left. eapply UNW; [|eassumption]. rewrite H0. apply incl_tl, incl_refl.
  - left. apply (PUSH []); subst; cbn; [reflexivity|intros f []|].
    intros v. rewrite upd_if. destruct (Z.eqb_spec v t); [subst; now rewrite H0|reflexivity].
  - assert (IN : In f (th_stack (s_th s t))) by (rewrite Hst; now left).
    pose proof (ni_q _ N t f IN) as QL.
    destruct B as [(b & IB & OB & HB)|(NM & L & S)].
    + destruct (e_child e) eqn:HC.
      { destruct (child_shape _ _ _ _ _ _ _ _ _ Hfs HC) as (CC & _ & _ & _ & _ & NN & KK & D).
        left. left. exists b. split; [|auto]. subst s'. rewrite apply_stack_child in IB by auto.
        destruct (Z.eqb_spec u t); [|destruct IB]. subst u. rewrite Hst.
        apply in_app_iff in IB. destruct IB as [IB|IB]; [|now right].
        exfalso. destruct D as [(d & _ & D)|(_ & D)]; rewrite D in IB; cbn in IB;
          repeat (destruct IB as [<-|IB]; [discriminate OB|]); destruct IB. }
      subst s'. destruct (owner_local _ _ _ _ _ _ _ _ _ n b Hfs) as [O1 O2].
      destruct (stack_after s t f r e u b Hst HC IB) as [(E & [D|D])|[(NE & D)|(st & EN & E & D)]].
      * subst u. left. left. exists f. split; [exact IN|]. auto.
      * subst u. left. left. exists b. rewrite Hst. split; [now right|auto].
      * left. left. now exists b.
      * right. destruct (O2 st EN D OB HB) as [(q & my & ->) ->]. split; [exact E|]. split; [reflexivity|]. eauto.
    + left. subst s'. rewrite apply_g in L, S.
      destruct (list_local _ _ _ _ _ _ _ _ _ Hfs) as (_ & D & _).
      destruct (self_local _ _ _ _ _ _ _ _ _ n Hfs NM) as [X|X].
      * rewrite X in S. destruct D as [D|[(m & -> & D)|[(m & -> & D)|[(old & -> & _ & D)|D]]]]; rewrite D in L.
        -- right; auto.
        -- destruct L as [->|L]; [|right; auto]. left. exists (FBT BTIns n).
           pose proof (data_reach _ _ R t _ IN) as Q. cbn in Q. destruct Q as [(c0 & q & d & _ & _ & _ & _ & Y & _) _].
           destruct (Y eq_refl) as [Y1 _]. rewrite <- S, Y1. split; [exact IN|]. cbn. rewrite Z.eqb_refl. auto.
        -- right. split; [exact NM|]. split; [|exact S]. unfold without in L. apply filter_In in L. apply L.
        -- destruct L as [L|L]; [congruence|]. right; auto.
        -- destruct L.
      * exfalso. assert (E : g_list (e_g e) = g_list (s_g s) /\ ~ In n (g_list (s_g s))).
        { destruct X as [->|[->|(q & my & d & ->)]]; (split; [|exact QL]); destruct c; try discriminate Hfs;
            cbn in Hfs; inversion Hfs; reflexivity. }
        destruct E as [E1 E2]. rewrite E1 in L. contradiction.
Qed.

(** ** Who writes *)

Lemma touch_local dyn t u g tsd nc f c e n : frame_step dyn t u g tsd nc f c = Some e -> n <> MAIN_TN ->
  nd (e_g e) n = nd g n \/ ((owner f = true \/ creating f = true) /\ holds n f = true) \/
  (quiet f = false /\ forall tr, Qmine g tr tsd t f -> caller g tsd t -> mine tsd t n).
Proof.
  intros H N.
  assert (SET : forall m F g', nd (set_node m F g') n = nd g' n \/ n = m).
  { intros m F g'. destruct (Z.eq_dec n m); [auto|left]. now apply nd_set_other. }
  fs_cases H; brk H; inversion H; subst; clear H; cbn [e_g]; auto;
    try (match goal with |- context [nd (set_node ?m ?F ?g') n] => destruct (SET m F g') as [X|X]; [left; exact X|subst m] end);
    auto; try congruence; try (right; left; cbn; rewrite Z.eqb_refl; auto; fail).
  all: try (right; right; split; [reflexivity|]; intros tr Q C; cbn in Q; try exact Q; try (apply Q; auto; fail);
            try (eapply ca_tn; eauto; fail); fail).
  all: unfold reset_list, list_init, get_tn, nd, set_node; cbn; g_brk; cbn; rewrite ?upd_other by exact N; auto.
  all: try (rewrite upd_if; match goal with |- context [Z.eqb ?a ?b] => destruct (Z.eqb_spec a b); subst end; auto).
  all: try (right; right; split; [reflexivity|]; intros tr Q C; cbn in Q; try exact Q; try (apply Q; auto; fail);
            try (eapply ca_tn; eauto; fail); fail).
Qed.

(** A step of thread t changes another node than the main one only if the node
    belongs to t or is one that t is making. *)
Lemma writer dyn s t c f r e n : reach dyn orderly s -> th_live (s_th s t) = true ->
  th_stack (s_th s t) = f :: r ->
  frame_step dyn t (s_next s) (s_g s) (th_tsd (s_th s t)) (th_nc (s_th s t)) f c = Some e -> n <> MAIN_TN ->
  nd (e_g e) n = nd (s_g s) n \/ belongs s t n \/ (creating f = true /\ holds n f = true).
Proof.
  intros R LV Hst Hfs NM. pose proof (orderly_clean _ _ R) as RC. pose proof (who_reach _ _ RC) as W.
  assert (IN : In f (th_stack (s_th s t))) by (rewrite Hst; now left).
  destruct (touch_local _ _ _ _ _ _ _ _ _ n Hfs NM) as [X|[([X|X] & H)|(Q & X)]]; auto.
  - right. left. left. exists f. auto.
  - assert (NRS : existsb resetting (th_stack (s_th s MAIN)) = false \/ t = MAIN).
    { destruct (existsb resetting (th_stack (s_th s MAIN))) eqn:RS; [right|now left].
      destruct (who_reset _ W MAIN RS) as (_ & _ & D).
      destruct (Z.eq_dec t MAIN) as [|Y]; [assumption|]. rewrite (D t Y) in LV. discriminate LV. }
    destruct (X (s_tr s) (mine_reach _ _ RC t f IN) (caller_reach _ _ _ RC LV NRS)) as [[_ Y]|[Y1 Y2]]; [contradiction|].
    right. left. apply valid_belongs. eapply own_reach; eauto.
Qed.

(** The frames of t that work on node n. *)
Lemma mine_belongs dyn s t f n : reach dyn orderly s -> In f (th_stack (s_th s t)) -> quiet f = false ->
  mine (th_tsd (s_th s t)) t n -> (t = MAIN /\ n = MAIN_TN) \/ (t <> MAIN /\ belongs s t n).
Proof.
  intros R I Q [M|[M1 M2]]; [now left|right]. split; [exact M1|]. apply valid_belongs. eapply own_reach; eauto.
Qed.

Lemma belongs_magic dyn s t n : reach dyn clean_forks s ->
  existsb resetting (th_stack (s_th s MAIN)) = false -> belongs s t n -> n_magic (nd (s_g s) n) = true.
Proof.
  intros R NR [(b & I & O & H)|(NM & L & S)].
  - pose proof (data_reach _ _ R t b I) as D. destruct b; try discriminate O; cbn in H.
    + destruct k; try discriminate O; apply Z.eqb_eq in H; subst; cbn in D; destruct D as [(c0 & q0 & d0 & _ & _ & _ & X & _) _]; exact X.
    + apply Z.eqb_eq in H; subst; cbn in D; destruct D as [(c0 & q0 & d0 & _ & _ & _ & X & _) _]; exact X.
    + destruct p; try discriminate O; apply Z.eqb_eq in H; subst; cbn in D; destruct D as [(c0 & q0 & d0 & _ & _ & _ & X & _) _]; exact X.
  - destruct (li_fact _ (listed_reach _ _ R) NR n L NM) as [(c0 & q0 & d0 & _ & _ & _ & X & _) _]. exact X.
Qed.

(** A node of a live thread is its thread-specific data, once this is set. *)
Lemma caller_ready dyn s t : reach dyn clean_forks s -> th_live (s_th s t) = true -> caller (s_g s) (th_tsd (s_th s t)) t.
Proof.
  intros R LV. pose proof (who_reach _ _ R) as W. apply (caller_reach _ _ _ R LV).
  destruct (existsb resetting (th_stack (s_th s MAIN))) eqn:RS; [right|now left].
  destruct (who_reset _ W MAIN RS) as (_ & _ & D).
  destruct (Z.eq_dec t MAIN) as [|Y]; [assumption|]. rewrite (D t Y) in LV. discriminate LV.
Qed.

Lemma tn_none dyn s t f : reach dyn orderly s -> th_live (s_th s t) = true -> In f (th_stack (s_th s t)) ->
  quiet f = false -> resetting f = false -> get_tn (s_g s) (th_tsd (s_th s t)) = None ->
  t <> MAIN /\ th_tsd (s_th s t) = None.
Proof.
  intros R LV I Q NRS G. pose proof (orderly_clean _ _ R) as RC. pose proof (main_reach _ _ RC) as M.
  unfold get_tn in G. destruct (g_used (s_g s)) eqn:U; [|discriminate].
  destruct (Z.eq_dec t MAIN) as [->|NM].
  { rewrite (mi_used _ M U) in G. destruct (mi_node _ M) as (_ & X & _). rewrite X in G. discriminate. }
  split; [exact NM|]. destruct (th_tsd (s_th s t)) as [n|] eqn:T; [|reflexivity]. exfalso.
  assert (B : belongs s t n) by (apply valid_belongs; eapply own_reach; eauto).
  assert (NR : existsb resetting (th_stack (s_th s MAIN)) = false).
  { destruct (existsb resetting (th_stack (s_th s MAIN))) eqn:RS; [|reflexivity].
    destruct (who_reset _ (who_reach _ _ RC) MAIN RS) as (_ & _ & D). rewrite (D t NM) in LV. discriminate. }
  rewrite (belongs_magic _ _ _ _ RC NR B) in G. discriminate.
Qed.
