(** Process exit when another thread holds the library's lock. *)
From Verif Require Import LifeStopSpec LifeBase LifeFork LifeStop LifeStuck.

Local Open Scope Z_scope.

Lemma locked_keeps dyn t u g tsd nc f e : frame_step dyn t u g tsd nc f CStep = Some e -> locked f = true ->
  g_cookie (e_g e) = g_cookie g /\ (forall n, n_self (nd (e_g e) n) = n_self (nd g n) \/ n_self (nd (e_g e) n) = 0).
Proof.
  intros H L.
  assert (S0 : forall n f g, (forall x, n_self (f x) = n_self x \/ n_self (f x) = 0) ->
    g_cookie (set_node n f g) = g_cookie g /\ forall m, n_self (nd (set_node n f g) m) = n_self (nd g m) \/ n_self (nd (set_node n f g) m) = 0).
  { intros n h g0 K. split; [reflexivity|]. intros m. unfold set_node, nd. cbn. unfold upd. destruct (m =? n) eqn:E; [|auto].
    apply Z.eqb_eq in E. subst m. apply K. }
  fs_cases H; try discriminate L; brk H; inversion H; subst; clear H; cbn [e_g];
    try (split; [reflexivity|intros n'; left; reflexivity]; fail);
    try (apply S0; intros x; cbn; auto; fail).
  all: unfold list_insert, list_delete; try (destruct (memb _ _)); try (split; [reflexivity|intros n'; left; reflexivity]).
  destruct (S0 n (set_n_num (x + 1)) (set_g_num (x + 1) g)) as [A B]; [intros y; cbn; auto|].
  split; [exact A|exact B].
Qed.

Lemma releases_calm dyn t r : forall k s f, (cost (s_g s) f <= k)%nat -> g_dead (s_g s) = false -> th_live (s_th s t) = true ->
  th_stack (s_th s t) = f :: r -> locked f = true ->
  exists j s', run dyn s (ticks t j) = Some s' /\ g_lock (s_g s') = None /\ g_dead (s_g s') = false /\
    (forall u, u <> t -> s_th s' u = s_th s u) /\ g_cookie (s_g s') = g_cookie (s_g s) /\
    forall n, n_self (nd (s_g s') n) = n_self (nd (s_g s) n) \/ n_self (nd (s_g s') n) = 0.
Proof.
  assert (KEEP : forall s f s1, g_dead (s_g s) = false -> th_live (s_th s t) = true -> th_stack (s_th s t) = f :: r -> locked f = true ->
    step dyn s t CStep = Some s1 -> g_cookie (s_g s1) = g_cookie (s_g s) /\
    forall n, n_self (nd (s_g s1) n) = n_self (nd (s_g s) n) \/ n_self (nd (s_g s1) n) = 0).
  { intros s f s1 D L ST LF H. unfold step in H. rewrite D, L, ST in H. cbn [orb negb] in H.
    destruct (is_unwind f) eqn:U; [destruct f; discriminate|]. cbn [barred] in H.
    destruct (frame_step dyn t (s_next s) (s_g s) (th_tsd (s_th s t)) (th_nc (s_th s t)) f CStep) as [e|] eqn:F; [|discriminate H].
    apply (f_equal (fun o => match o with Some z => z | None => s end)) in H. cbn in H. subst s1. rewrite apply_g. eapply locked_keeps; eassumption. }
  induction k as [|k IH]; intros s f CO D L ST LF;
    destruct (tick_locked dyn s t f r D L ST LF) as (s1 & H1 & D1 & L1 & O1 & [X|(X & f' & S1 & LF' & C1)]);
    pose proof (KEEP s f s1 D L ST LF H1) as [K1 K2].
  - exists 1%nat, s1. cbn. rewrite H1. repeat split; auto.
  - lia.
  - exists 1%nat, s1. cbn. rewrite H1. repeat split; auto.
  - destruct (IH s1 f') as (j & s2 & H2 & LK & D2 & O2 & K3 & K4); auto; [lia|].
    exists (S j), s2. cbn. rewrite H1. repeat split; auto; [intros u NE; rewrite O2, O1; auto|congruence|].
    intros n. destruct (K4 n) as [->|E]; [apply K2|auto].
Qed.

Lemma holder_first dyn v t how s h : reach dyn shielded s -> leaving s t how -> g_cookie (s_g s) = false -> g_lock (s_g s) = Some h -> h <> t -> 0 < t ->
  exists k s', run dyn s (ticks h k) = Some s' /\ leaving s' t how /\ g_lock (s_g s') = None /\
    (n_self (nd (s_g s) MAIN_TN) <> t -> not_stuck s' t) /\
    (not_stuck s' t -> exists n, let s2 := alone dyn v t n s' in
      g_dead (s_g s2) = true /\ In (EDead t) (s_tr s2) /\ In (EPast t) (s_tr s2) /\
      In (ERet t (CbBeginExit how) v) (s_tr s2) /\ exists d, In (ERet t (CbFiniProcess how d) v) (s_tr s2)).
Proof.
  intros R (D & L & r0 & ST0) CK LK NE POS.
  destruct (holder_reach dyn s R h LK) as (LH & f & r & ST & LF).
  destruct (releases_calm dyn h r (cost (s_g s) f) s f (le_n _) D LH ST LF) as (j & s' & H & LK' & D' & O & K1 & K2).
  exists j, s'. split; [exact H|].
  assert (LV : leaving s' t how).
  { split; [exact D'|]. rewrite (O t) by auto. split; [exact L|]. exists r0. exact ST0. }
  split; [exact LV|]. split; [exact LK'|]. split.
  - intros N. right; right. destruct (K2 MAIN_TN) as [-> | ->]; [exact N|lia].
  - intros NS. apply leaves; auto. congruence.
Qed.
