(** The exit scan's own node, and what fini_thread is given. *)
From Verif Require Export LifeFini.

Local Open Scope nat_scope.

Definition keptg (g : glob) (t n : Z) : Prop :=
  n <> MAIN_TN /\ In n (g_list g) /\ n_self (nd g n) = t /\ g_inexit g = true.

Lemma kept_local dyn s t c f r e u n : reach dyn orderly s -> orderly s t c -> th_stack (s_th s t) = f :: r ->
  frame_step dyn t (s_next s) (s_g s) (th_tsd (s_th s t)) (th_nc (s_th s t)) f c = Some e ->
  keptg (s_g s) u n -> keptg (e_g e) u n.
Proof.
  intros R HO Hst Hfs (NM & L & S & IE). pose proof (nodes_reach _ _ (orderly_clean _ _ R)) as (N & _ & _).
  assert (IN : In f (th_stack (s_th s t))) by (rewrite Hst; now left).
  destruct (exit_grow _ _ _ _ _ _ _ R HO Hst Hfs IE) as (G1 & G2 & G3).
  split; [exact NM|]. split; [now apply G1|]. split; [|exact G2].
  pose proof (ni_q _ N t f IN) as Q.
  destruct (self_local _ _ _ _ _ _ _ _ _ n Hfs NM) as [X|[->|[->|(q & my & d & ->)]]]; [congruence|..];
    destruct (Q L).
Qed.

(** The node that the exiting thread takes for its own. *)
Definition own_of (f : frame) : option Z :=
  match f with
  | FSPass l | FSNode l _ | FSStarted l _ _ | FSDone l _ _ | FSEnd l | FSOwn l => sc_my l
  | FSOwnCall _ n | FSOwnDone _ n | FCb _ (KFiniOwn _ n) => Some n
  | _ => None
  end.

Lemma own_local dyn t u g tsd nc f c e : frame_step dyn t u g tsd nc f c = Some e ->
  forall f' n, In f' (e_fr e) -> own_of f' = Some n ->
  own_of f = Some n \/ (exists l r, f = FSNode l (n :: r) /\ n_self (nd g n) = t).
Proof.
  intros H f' n I F. fs_cases H; brk H; inversion H; subst; clear H; cbn in I;
    repeat (destruct I as [<-|I]; [cbn in F |- *; try discriminate F; auto|]); try (destruct I; fail).
  - inversion F; subst. right. eexists _, _. split; [reflexivity|]. now apply Z.eqb_eq.
  - left. congruence.
Qed.

Definition Qsc (g : glob) (tr : list event) (t : Z) (f : frame) : Prop :=
  forall n, own_of f = Some n -> keptg g t n \/ (t = MAIN /\ n = MAIN_TN /\ In n (g_list g) /\ g_inexit g = true).

Lemma sc_reach dyn s : reach dyn orderly s -> fr_inv Qsc s.
Proof.
  apply fr_reach.
  - intros t f I. cbn in I. rewrite upd_if in I. destruct (Z.eqb t MAIN); [|destruct I].
    cbn in I. repeat (destruct I as [<-|I]; [intros n X; discriminate X|]). destruct I.
  - intros g tr t f e t' _ H. exact H.
  - intros g tr t f I. cbn in I. repeat (destruct I as [<-|I]; [intros n X; discriminate X|]). destruct I.
  - intros g tr t n f _ _ m X. discriminate X.
  - clear s. intros s t c f r e R FI HO Hst LV Hfs.
    assert (IN : In f (th_stack (s_th s t))) by (rewrite Hst; now left).
    pose proof (FI t f IN) as Q.
    pose proof (exit_frames _ _ (orderly_any _ _ R) t f IN) as [_ EF].
    pose proof (scan_reach _ _ R t f IN) as QS.
    assert (KL : forall u n, keptg (s_g s) u n -> keptg (e_g e) u n) by (intros; eapply kept_local; eauto).
    assert (MS : after_freeze f = true -> forall n, In n (g_list (s_g s)) -> n_self (nd (s_g s) n) = t -> t <> MAIN -> n <> MAIN_TN).
    { intros AF n _ S NM ->. apply NM. rewrite <- S.
      apply (mi_self _ (main_reach _ _ (orderly_clean _ _ R))). left. destruct (frozen_reach _ _ R (EF AF)). assumption. }
    assert (KM : forall n, In n (g_list (s_g s)) /\ g_inexit (s_g s) = true -> In n (g_list (e_g e)) /\ g_inexit (e_g e) = true).
    { intros n [A B]. destruct (exit_grow _ _ _ _ _ _ _ R HO Hst Hfs B) as (X & Y & _). auto. }
    split; [|split].
    + intros f' I' n F.
      destruct (own_local _ _ _ _ _ _ _ _ _ Hfs f' n I' F) as [X|(l & rr & -> & X)].
      { destruct (Q n X) as [Y|(Y & Z & L)]; [left; now apply KL|right; auto]. }
      destruct (Z.eq_dec t MAIN) as [E|NM].
      { right. split; [exact E|]. split.
        - destruct (Z.eq_dec n MAIN_TN) as [|NE]; [assumption|].
          destruct (self_heap _ _ (orderly_clean _ _ R) n NE). congruence.
        - apply KM. split; [apply QS; now left|now apply EF]. }
      left. apply KL. cbn in QS. assert (L : In n (g_list (s_g s))) by (apply QS; now left).
      split; [now apply MS|]. split; [exact L|]. split; [exact X|now apply EF].
    + intros t' f' D P n F. destruct (P n F) as [Y|(Y & Z & L)]; [left; now apply KL|right; auto].
    + clear - Hfs. intros st f' EN I'. q_step; cbn in EN; try discriminate EN; inversion EN; subst; cbn in I';
        repeat (destruct I' as [<-|I']; [intros m X; discriminate X|]); try (destruct I'; fail).
Qed.

(** ** What a thread's own node says *)

Lemma belongs_appl dyn s t n : reach dyn orderly s -> belongs s t n -> th_live (s_th s t) = true -> t <> MAIN ->
  n_appl (nd (s_g s) n) = true -> exists k d, inited t k d (n_data (nd (s_g s) n)) (s_tr s).
Proof.
  intros R B LV NM A. pose proof (orderly_clean _ _ R) as RC.
  assert (CL : cl_fact (s_tr s) t (nd (s_g s) n) -> exists k d, inited t k d (n_data (nd (s_g s) n)) (s_tr s)).
  { intros (c & q & d & _ & _ & _ & _ & _ & _ & _ & X & _). eauto. }
  destruct B as [(b & I & O & H)|(M & L & S)].
  - pose proof (data_reach _ _ RC t b I) as D. destruct b; try discriminate O; cbn in H.
    + destruct k; try discriminate O; apply Z.eqb_eq in H; subst; cbn in D.
      * destruct D as [(c0 & q0 & d0 & _ & _ & _ & _ & _ & _ & X & _) _]. rewrite A in X. discriminate X.
      * apply CL, D.
    + apply Z.eqb_eq in H; subst; cbn in D.
      destruct D as [(c0 & q0 & d0 & _ & _ & _ & _ & _ & _ & X & Y & _) _]. rewrite A in X.
      destruct p; try discriminate X; cbn in Y; eauto.
    + destruct p; try discriminate O; apply Z.eqb_eq in H; subst; cbn in D; apply CL, D.
  - destruct (existsb resetting (th_stack (s_th s MAIN))) eqn:RS.
    + destruct (who_reset _ (who_reach _ _ RC) MAIN RS) as (_ & _ & D). rewrite (D t NM) in LV. discriminate.
    + destruct (li_fact _ (listed_reach _ _ RC) RS n L M) as [X _]. rewrite S in X. auto.
Qed.

Lemma kept_fact dyn s t n : reach dyn orderly s -> keptg (s_g s) t n -> cl_fact (s_tr s) t (nd (s_g s) n).
Proof.
  intros R (M & L & S & IE). destruct (frozen_reach _ _ R IE) as [C _].
  destruct (li_fact _ (listed_reach _ _ (orderly_clean _ _ R)) (no_reset_exit _ _ MAIN R C) n L M) as [X _].
  now rewrite S in X.
Qed.

(** fini_thread of a created thread: after its init_thread returned, with the value it
    returned; only the thread that runs the exit callbacks may not have got there. *)
Definition fini_due (t d : Z) (tr : list event) : Prop :=
  (exists k d', inited t k d' d tr) \/
  (In (EWin t) tr /\ registered t tr /\ exists c q, made c q d t tr).

Definition Jfini (tr : list event) (e : event) : Prop :=
  match e with
  | ECall t (CbFiniThread d) => t <> MAIN -> fini_due t d tr
  | _ => True
  end.

Lemma fini_hist dyn s : reach dyn orderly s -> hist Jfini (s_tr s).
Proof.
  apply hist_reach; try (intros; exact I).
  clear s. intros s t c f r e R _ HO Hst LV Hfs.
  assert (IN : In f (th_stack (s_th s t))) by (rewrite Hst; now left).
  assert (A : t <> MAIN -> forall n, fin_node f = Some n -> fini_due t (n_data (nd (s_g s) n)) (s_tr s)).
  { intros NM n F. left. eapply belongs_appl; eauto.
    - eapply fin_belongs; eauto.
    - apply (appl_frames _ _ R t f IN NM n F). }
  assert (B : t <> MAIN -> forall l n, f = FSOwnCall l n -> fini_due t (n_data (nd (s_g s) n)) (s_tr s)).
  { intros NM l n ->. destruct (sc_reach _ _ R t _ IN n eq_refl) as [K|[K _]]; [|contradiction].
    destruct (kept_fact _ _ _ _ R K) as (c0 & q & d & M & _ & _ & _ & _ & _ & RG & _ & [X|X]).
    - right. rewrite X. split; [|split; [eexists; exact RG|eauto]].
      apply (proj1 (win_reach _ _ (orderly_any _ _ R) t _ IN)). reflexivity.
    - left. eauto. }
  clear R HO Hst LV IN. q_step; cbn [e_ev justified app] in *; repeat split; cbn; auto.
  all: repeat match goal with |- context [if ?x then _ else _] => destruct x end; cbn; repeat split; auto.
  all: try (intros NM; apply (A NM); reflexivity).
  intros NM. eapply B; eauto.
Qed.
