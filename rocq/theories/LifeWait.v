(** The wait of the exit code for the fini_thread callbacks. *)
From Verif Require Export LifeShoot.

Local Open Scope nat_scope.

(** ** The thread that runs the exit callbacks is one, with one frame of them *)

Definition w_sd (f : frame) : nat :=
  match f with
  | FEPWin _ _ | FEPBegin _ | FCb _ (KBeginExit _) | FSUsed | FSLock _ | FSSet _ | FSUnlock _
  | FSInstall _ | FSMain _ | FSPass _ | FSNode _ _ | FSStarted _ _ _ | FSDone _ _ _ | FSEnd _
  | FSOwn _ | FSOwnCall _ _ | FCb _ (KFiniOwn _ _) | FSOwnDone _ _ | FSRestore _ => 1
  | _ => 0
  end.

Definition w_frz (f : frame) : nat :=
  match f with
  | FEPWin _ _ | FEPBegin _ | FCb _ (KBeginExit _) | FSUsed | FSLock _ | FSSet _ => 1
  | _ => 0
  end.
Definition is_freeze (e : event) : bool := match e with EFreeze _ => true | _ => false end.
Definition no_event (e : event) : bool := false.

Lemma sd_token dyn s : reach dyn any s -> token_inv g_cookie w_sd (by_thread no_event) image s.
Proof.
  apply token_reach.
  - intros t. unfold phi. cbn. rewrite upd_if. destruct (Z.eqb t MAIN); reflexivity.
  - intros. now apply image_app.
  - intros f I. cbn in I. destruct I as [<-|[<-|[<-|[<-|[<-|[<-|[<-|[]]]]]]]]; reflexivity.
  - reflexivity.
  - split; reflexivity.
  - intros t u g tsd nc f c e H HC. unfold by_thread. tok_local H HC.
  - intros s0 t c s' f r e HI _ Hst Hfs HC Es. eapply child_keep; eauto.
    destruct (child_shape _ _ _ _ _ _ _ _ _ Hfs HC) as (_ & _ & _ & _ & _ & _ & _ & [(d & -> & ->)|(-> & ->)]);
      cbn; lia.
Qed.

Lemma frz_token dyn s : reach dyn any s -> token_inv g_cookie w_frz (by_thread is_freeze) image s.
Proof.
  apply token_reach.
  - intros t. unfold phi. cbn. rewrite upd_if. destruct (Z.eqb t MAIN); reflexivity.
  - intros. now apply image_app.
  - intros f I. cbn in I. destruct I as [<-|[<-|[<-|[<-|[<-|[<-|[<-|[]]]]]]]]; reflexivity.
  - reflexivity.
  - split; reflexivity.
  - intros t u g tsd nc f c e H HC. unfold by_thread. tok_local H HC.
  - intros s0 t c s' f r e HI _ Hst Hfs HC Es. eapply child_keep; eauto.
    destruct (child_shape _ _ _ _ _ _ _ _ _ Hfs HC) as (_ & _ & _ & _ & _ & _ & _ & [(d & -> & ->)|(-> & ->)]);
      cbn; lia.
Qed.

Lemma sd_one dyn s t f r t' f' : reach dyn any s -> th_stack (s_th s t) = f :: r -> w_sd f = 1 ->
  (t' = t /\ In f' r) \/ (t' <> t /\ In f' (th_stack (s_th s t'))) -> w_sd f' = 0.
Proof.
  intros R Hst W D. destruct (sd_token _ _ R) as (w & A & _). unfold phi in A.
  destruct (w_sd f') eqn:E; [reflexivity|exfalso].
  assert (ZZ : forall t (l : list event), wsum (by_thread no_event t) l = 0) by (induction l; auto).
  destruct D as [[-> I]|[N I]].
  - specialize (A t). rewrite Hst, ZZ in A. cbn [wsum] in A. pose proof (wsum_in w_sd r f' I). destruct (Z.eqb t w); lia.
  - pose proof (A t) as A1. pose proof (A t') as A2. rewrite ZZ in A1, A2. rewrite Hst in A1. cbn [wsum] in A1.
    pose proof (wsum_in w_sd _ f' I). destruct (Z.eqb_spec t w), (Z.eqb_spec t' w); subst; try lia; congruence.
Qed.

Lemma frz_none dyn s t f : reach dyn any s -> In f (th_stack (s_th s t)) -> w_frz f = 1 ->
  ~ In (EFreeze t) (image (s_tr s)).
Proof.
  intros R I W J. destruct (frz_token _ _ R) as (w & A & _). specialize (A t). unfold phi in A.
  pose proof (wsum_in w_frz _ f I). pose proof (wsum_in (by_thread is_freeze t) _ _ J) as X. unfold by_thread at 1 in X. cbn in X. rewrite Z.eqb_refl in X. cbn in X.
  destruct (Z.eqb t w); lia.
Qed.

(** ** tn_fini_done is set when fini_thread has returned *)

Definition Qret (_ : glob) (tr : list event) (t : Z) (f : frame) : Prop :=
  match f with
  | FCb c (KFiniHandler _ _) | FCb c (KFiniOwn _ _) | FCb c (KFiniCleanup _) => exists d, c = CbFiniThread d
  | FHEnd _ _ | FSOwnDone _ _ | FClean CLEnd _ | FClean CLMark2 _ | FClean CLMark1 _ | FClean CLExit _
  | FClean CLLock _ => fini_returned t tr
  | _ => True
  end.
Lemma Qret_mono g g' t tr ev f : Qret g tr t f -> Qret g' (ev ++ tr) t f.
Proof.
  assert (M : fini_returned t tr -> fini_returned t (ev ++ tr)).
  { intros (d & v & I). exists d, v. apply in_or_app. auto. }
  destruct f; cbn; auto. destruct p; auto.
Qed.
Lemma ret_frames dyn s : reach dyn any s -> fr_inv Qret s.
Proof.
  apply fr_reach.
  - intros t f I. cbn in I. rewrite upd_if in I. destruct (Z.eqb t MAIN); [|destruct I].
    cbn in I. repeat destruct I as [<-|I]; try exact I. all: destruct I.
  - intros g tr t f e t' _ H. exact (Qret_mono g g t tr [e] f H).
  - intros g tr t f I. cbn in I. repeat destruct I as [<-|I]; try exact I. all: destruct I.
  - intros. exact I.
  - intros s0 t c f r e R FI _ Hst LV Hfs.
    split; [|split].
    + pose proof (FI t f) as Q. rewrite Hst in Q. specialize (Q (or_introl eq_refl)).
      clear FI R Hst LV. apply (Qret_mono _ (s_g s0) _ _ (e_ev e)) in Q. clear - Q Hfs.
      q_step; cbn [e_fr e_ev app api_frames] in *; intros f' I'; cbn in I';
        repeat (destruct I' as [<-|I']; [cbn in *; try exact I; auto; try tauto; eauto|]);
        try (destruct I'; fail); try (destruct Q as (d & ->); exists d, v; now left).
      all: repeat match goal with |- context [if ?b then _ else _] => destruct b end; auto.
    + intros t' f' _. apply Qret_mono.
    + clear - Hfs. intros st f' EN I'. q_step; cbn in EN; try discriminate EN; inversion EN; subst; cbn in I';
        repeat (destruct I' as [<-|I']; [exact I|]); destruct I'.
Qed.

Lemma fdone_local dyn t u g tsd nc f c e n : frame_step dyn t u g tsd nc f c = Some e ->
  n_fdone (nd (e_g e) n) = true -> n_fdone (nd g n) = true \/
  (exists old, f = FHEnd n old) \/ (exists l, f = FSOwnDone l n) \/ f = FClean CLEnd n \/ f = FClean CLMark2 n.
Proof.
  intros H W. fs_cases H; brk H; inversion H; subst; clear H; cbn [e_g] in W |- *; auto;
    revert W; unfold nd; cbn; g_brk; cbn; rewrite ?upd_if; auto;
    repeat match goal with |- context [Z.eqb ?a ?b] => destruct (Z.eqb_spec a b); subst end;
    cbn; auto; try congruence; eauto 10; try discriminate.
Qed.

Lemma returned_step dyn s t c s' u : step dyn s t c = Some s' -> fini_returned u (s_tr s) -> fini_returned u (s_tr s').
Proof. intros H (d & v & I). exists d, v. eapply tr_step; eauto. Qed.

Lemma own_fdone dyn s : reach dyn orderly s -> forall u n, belongs s u n -> n_fdone (nd (s_g s) n) = true -> fini_returned u (s_tr s).
Proof.
  apply (belongs_reach dyn orderly (fun s u n => n_fdone (nd (s_g s) n) = true -> fini_returned u (s_tr s))); auto.
  - clear s. intros s t c s' u n R HI HO HS B HB W.
    destruct (n_fdone (nd (s_g s) n)) eqn:W0; [eapply returned_step; eauto|].
    pose proof HS as HS0. apply step_view in HS. destruct HS as (_ & LV & V).
    destruct V as [| | | | | | |f r e Hst Hun Hbar Hfs Es']; subst; try (cbn in W; congruence).
    rewrite apply_g in W.
    assert (IN : In f (th_stack (s_th s t))) by (rewrite Hst; now left).
    pose proof (ret_frames _ _ (orderly_any _ _ R) t f IN) as QR.
    assert (FR : fini_returned t (s_tr s) /\ (belongs s t n \/ n = MAIN_TN)).
    { destruct (fdone_local _ _ _ _ _ _ _ _ _ n Hfs W) as [X|[(o & ->)|[(l & ->)|[->| ->]]]]; [congruence|..]; split; try exact QR.
      - destruct (Z.eq_dec t MAIN) as [->|NM]; [|left; eapply fin_belongs; eauto; reflexivity].
        right. pose proof (mine_reach _ _ (orderly_clean _ _ R) MAIN _ IN) as M.
        destruct (mine_belongs _ _ _ _ _ R IN eq_refl M) as [[_ X]|[X _]]; congruence.
      - destruct (sc_reach _ _ R t _ IN n eq_refl) as [(A1 & A2 & A3 & _)|(_ & X & _)]; [left; right; auto|auto].
      - left. left. exists (FClean CLEnd n). split; [exact IN|]. split; [reflexivity|]. apply Z.eqb_refl.
      - left. left. exists (FClean CLMark2 n). split; [exact IN|]. split; [reflexivity|]. apply Z.eqb_refl. }
    destruct FR as [FR [BT| ->]]; [|exfalso; eapply belongs_main; eauto using orderly_clean].
    rewrite (belongs_unique _ _ _ _ _ (orderly_clean _ _ R) BT B). eapply returned_step; eauto.
  - intros s0 t s' q my n r _ _ _ E X W. unfold blank in X. rewrite E in W. decompose [and] X. congruence.
Qed.

Lemma main_fdone dyn s : reach dyn orderly s -> n_fdone (nd (s_g s) MAIN_TN) = true -> fini_returned MAIN (s_tr s).
Proof.
  apply (reach_invariant dyn orderly (fun s => n_fdone (nd (s_g s) MAIN_TN) = true -> fini_returned MAIN (s_tr s))); [discriminate|].
  clear s. intros s t c s' R HI HO HS W.
  destruct (n_fdone (nd (s_g s) MAIN_TN)) eqn:W0; [eapply returned_step; eauto|].
  pose proof HS as HS0. apply step_view in HS. destruct HS as (_ & LV & V).
  destruct V as [| | | | | | |f r e Hst Hun Hbar Hfs Es']; subst; try (cbn in W; congruence).
  rewrite apply_g in W.
  assert (IN : In f (th_stack (s_th s t))) by (rewrite Hst; now left).
  pose proof (ret_frames _ _ (orderly_any _ _ R) t f IN) as QR.
  assert (NH : holds MAIN_TN f = false) by (eapply hold_main; [exact (orderly_clean _ _ R)|exact IN]).
  assert (FR : fini_returned t (s_tr s) /\ t = MAIN).
  { destruct (fdone_local _ _ _ _ _ _ _ _ _ MAIN_TN Hfs W) as [X|[(o & ->)|[(l & ->)|[->| ->]]]]; [congruence|..];
      try (discriminate NH); split; try exact QR.
    - destruct (Z.eq_dec t MAIN) as [E|NM]; [exact E|].
      exfalso. eapply belongs_main; [exact (orderly_clean _ _ R)| |reflexivity]. eapply fin_belongs; eauto; reflexivity.
    - destruct (sc_reach _ _ R t _ IN MAIN_TN eq_refl) as [(A1 & _)|(X & _)]; [congruence|auto]. }
  destruct FR as [FR ->]. eapply returned_step; eauto.
Qed.

(** ** Main on the list is subject to the shootdown *)

Lemma main_appl dyn s : reach dyn orderly s -> In MAIN_TN (g_list (s_g s)) -> n_appl (nd (s_g s) MAIN_TN) = true.
Proof.
  apply (reach_invariant dyn orderly (fun s => In MAIN_TN (g_list (s_g s)) -> n_appl (nd (s_g s) MAIN_TN) = true)); [intros []|].
  clear s. intros s t c s' R HI HO HS L. apply step_view in HS. destruct HS as (_ & LV & V).
  destruct V as [| | | | | | |f r e Hst Hun Hbar Hfs Es']; subst; auto. rewrite !apply_g in *.
  assert (IN : In f (th_stack (s_th s t))) by (rewrite Hst; now left).
  assert (NH : holds MAIN_TN f = false) by (eapply hold_main; [exact (orderly_clean _ _ R)|exact IN]).
  destruct (nodes_reach _ _ (orderly_clean _ _ R)) as (N & MO & _).
  assert (OLD : In MAIN_TN (g_list (s_g s)) -> n_appl (nd (e_g e) MAIN_TN) = true).
  { intros I. destruct (applkeep_local _ _ _ _ _ _ _ _ _ MAIN_TN Hfs (HI I)) as [X|[X|[->|(q & my & d & ->)]]];
      [exact X| |discriminate NH|discriminate NH].
    pose proof (no_reset_exit _ _ t R (proj1 (MO I))) as Y. rewrite (existsb_false_in _ _ _ Y IN) in X. discriminate. }
  destruct (list_local _ _ _ _ _ _ _ _ _ Hfs) as (_ & [E|[(n & -> & E)|[(n & -> & E)|[(old & -> & S & E)|E]]]] & _);
    rewrite E in L; auto.
  - destruct L as [->|L]; [discriminate NH|auto].
  - apply OLD. clear - L. unfold without in L. apply filter_In in L. apply L.
  - destruct c; try discriminate Hfs. cbn in Hfs. destruct (Z.eqb_spec (n_self (nd (s_g s) MAIN_TN)) t); [contradiction|].
    inversion Hfs; subst. unfold nd, list_insert. cbn. destruct (memb _ _); cbn; reflexivity.
Qed.

(** ** The list and its owners are fixed during the scan *)

Definition scanning (f : frame) : bool :=
  match f with
  | FSPass _ | FSNode _ _ | FSStarted _ _ _ | FSDone _ _ _ => true
  | _ => false
  end.

Lemma self_fixed dyn s t c f r e n : reach dyn orderly s -> orderly s t c -> th_stack (s_th s t) = f :: r ->
  frame_step dyn t (s_next s) (s_g s) (th_tsd (s_th s t)) (th_nc (s_th s t)) f c = Some e ->
  g_inexit (s_g s) = true -> In n (g_list (s_g s)) -> n <> MAIN_TN ->
  n_self (nd (e_g e) n) = n_self (nd (s_g s) n).
Proof.
  intros R HO Hst Hfs IE L NM.
  destruct (kept_local _ _ _ _ _ _ _ (n_self (nd (s_g s) n)) n R HO Hst Hfs) as (_ & _ & X & _); [|exact X].
  split; [exact NM|]. split; [exact L|]. split; [reflexivity|exact IE].
Qed.

Lemma main_self_local dyn t u g tsd nc f c e : frame_step dyn t u g tsd nc f c = Some e ->
  n_self (nd (e_g e) MAIN_TN) = n_self (nd g MAIN_TN) \/ resetting f = true \/ g_used g = false \/ holds MAIN_TN f = true.
Proof.
  intros H. fs_cases H; brk H; inversion H; subst; clear H; cbn [e_g]; auto;
    unfold nd; cbn; g_brk; cbn; rewrite ?upd_if; auto;
    repeat match goal with |- context [Z.eqb ?a ?b] => destruct (Z.eqb_spec a b); subst end;
    cbn; auto; try congruence; eauto 10.
Qed.

Lemma scan_fixed dyn s t c f r e : reach dyn orderly s -> orderly s t c -> th_stack (s_th s t) = f :: r ->
  frame_step dyn t (s_next s) (s_g s) (th_tsd (s_th s t)) (th_nc (s_th s t)) f c = Some e ->
  g_inexit (s_g s) = true -> (forall o, f <> FSMain o) -> g_list (e_g e) = g_list (s_g s).
Proof.
  intros R HO Hst Hfs IE NF.
  assert (IN : In f (th_stack (s_th s t))) by (rewrite Hst; now left).
  destruct (exit_frames _ _ (orderly_any _ _ R) t f IN) as [EF _].
  destruct (exit_grow _ _ _ _ _ _ _ R HO Hst Hfs IE) as (G & _ & _).
  destruct (list_local _ _ _ _ _ _ _ _ _ Hfs) as (_ & [L|[(n & -> & L)|[(n & -> & L)|[(old & -> & _ & L)|L]]]] & _); auto.
  - rewrite (EF eq_refl) in IE. discriminate.
  - rewrite (EF eq_refl) in IE. discriminate.
  - destruct (NF old eq_refl).
  - rewrite L in *. destruct (g_list (s_g s)) as [|n l]; [reflexivity|]. destruct (G n). now left.
Qed.

(** ** What a pass over the list has established *)

(** The last pass of t began when the history was b2. *)
Definition last_pass (t : Z) (b2 tr : list event) : Prop :=
  exists b1, tr = b1 ++ EPass t :: b2 /\ ~ In (EPass t) b1 /\ existsb is_fork b1 = false.
Definition has_started (u : Z) (tr : list event) : Prop := exists a b, In (EStart u a b) tr.

Definition waited (t : Z) (tr : list event) : Prop :=
  In (EGiveUp t) tr \/
  exists b2, last_pass t b2 tr /\
    forall u, u <> t -> (u = MAIN \/ (registered u (image b2) /\ has_started u b2)) -> fini_returned u tr.

(** Element n of the list need not be waited for. *)
Definition settled (g : glob) (tr : list event) (t n : Z) (b2 : list event) : Prop :=
  n_self (nd g n) = t \/ fini_returned (n_self (nd g n)) tr \/
  (n <> MAIN_TN /\ ~ has_started (n_self (nd g n)) b2).

Definition pass_inv (g : glob) (tr : list event) (t : Z) (l : scan) (todo : list Z) : Prop :=
  (0 <= sc_uf l)%Z /\ exists b2, last_pass t b2 tr /\
    (sc_uf l = 0%Z -> forall n, In n (g_list g) -> In n todo \/ settled g tr t n b2).

Definition Qpass (g : glob) (tr : list event) (t : Z) (f : frame) : Prop :=
  (scanning f = true -> t <> MAIN -> In MAIN_TN (g_list g)) /\
  match f with
  | FSNode l r => pass_inv g tr t l r
  | FSStarted l n r | FSDone l n r => pass_inv g tr t l (n :: r)
  | FSEnd _ | FSOwn _ | FSOwnCall _ _ | FCb _ (KFiniOwn _ _) | FSOwnDone _ _ | FSRestore _ => waited t tr
  | _ => True
  end.

Lemma last_pass_mono t b2 tr ev : ~ In (EPass t) ev -> existsb is_fork ev = false ->
  last_pass t b2 tr -> last_pass t b2 (ev ++ tr).
Proof.
  intros N F (b1 & -> & A & B). exists (ev ++ b1). rewrite <- app_assoc. split; [reflexivity|].
  split; [rewrite in_app_iff; tauto|]. rewrite existsb_app, F, B. reflexivity.
Qed.
Lemma returned_mono u tr ev : fini_returned u tr -> fini_returned u (ev ++ tr).
Proof. intros (d & v & I). exists d, v. apply in_or_app. auto. Qed.
Lemma waited_mono t tr ev : ~ In (EPass t) ev -> existsb is_fork ev = false -> waited t tr -> waited t (ev ++ tr).
Proof.
  intros N F [I|(b2 & L & A)]; [left; apply in_or_app; auto|]. right. exists b2.
  split; [now apply last_pass_mono|]. intros u X Y. apply returned_mono. auto.
Qed.
Lemma pass_mono g g' t tr ev l todo : ~ In (EPass t) ev -> existsb is_fork ev = false ->
  g_list g' = g_list g -> (forall n, In n (g_list g) -> n_self (nd g' n) = n_self (nd g n)) ->
  pass_inv g tr t l todo -> pass_inv g' (ev ++ tr) t l todo.
Proof.
  intros N F GL GS (U & b2 & L & A). split; [exact U|]. exists b2. split; [now apply last_pass_mono|].
  rewrite GL. intros Z0 n I. destruct (A Z0 n I) as [B|B]; [auto|]. right. unfold settled in *. rewrite (GS n I).
  destruct B as [B|[B|B]]; auto. right. left. now apply returned_mono.
Qed.

(** Only t's own FSPass step starts a pass of t. *)
Lemma pass_ev dyn t u g tsd nc f c e t' : frame_step dyn t u g tsd nc f c = Some e ->
  In (EPass t') (e_ev e) -> t' = t /\ exists l, f = FSPass l.
Proof.
  intros H J. fs_cases H; brk H; inversion H; subst; clear H; cbn in J;
    repeat match type of J with context [if ?b then _ else _] => destruct b; cbn in J end;
    repeat (destruct J as [J|J]; [try discriminate J; inversion J; eauto|]); destruct J.
Qed.

Lemma sd_active f : (scanning f = true \/ match f with
  | FSEnd _ | FSOwn _ | FSOwnCall _ _ | FCb _ (KFiniOwn _ _) | FSOwnDone _ _ | FSRestore _ => True | _ => False end) ->
  w_sd f = 1 /\ after_freeze f = true.
Proof. intros [H|H]; destruct f; try discriminate H; try destruct H; try (destruct k; destruct H); auto. Qed.

Lemma image_suffix b1 b2 : existsb is_fork b1 = false -> forall e, In e (image b2) -> In e (image (b1 ++ b2)).
Proof. intros F e I. rewrite image_app by exact F. apply in_or_app. auto. Qed.

Lemma pass_reach dyn s : reach dyn orderly s -> fr_inv Qpass s.
Proof.
  apply fr_reach.
  - intros t f I. cbn in I. rewrite upd_if in I. destruct (Z.eqb t MAIN); [|destruct I].
    cbn in I. repeat (destruct I as [<-|I]; [split; [discriminate|exact Logic.I]|]). destruct I.
  - intros g tr t f e t' D [H1 H2]. split; [exact H1|].
    assert (N : ~ In (EPass t) [e]) by (intros [X|[]]; destruct D as [->| ->]; discriminate X).
    assert (F : existsb is_fork [e] = false) by (destruct D as [->| ->]; reflexivity).
    destruct f; try exact H2; try (apply (waited_mono t tr [e]); auto); try (apply (pass_mono g g t tr [e]); auto).
    destruct k; try exact H2. apply (waited_mono t tr [e]); auto.
  - intros g tr t f I. cbn in I. repeat (destruct I as [<-|I]; [split; [discriminate|exact Logic.I]|]). destruct I.
  - intros. split; [discriminate|exact Logic.I].
  - clear s. intros s t c f r e R FI HO Hst LV Hfs.
    pose proof (orderly_any _ _ R) as RA. pose proof (orderly_clean _ _ R) as RC.
    assert (IN : In f (th_stack (s_th s t))) by (rewrite Hst; now left).
    pose proof (FI t f IN) as [Q1 Q2].
    pose proof (exit_frames _ _ RA t f IN) as [_ EF].
    assert (FX : g_inexit (s_g s) = true -> (forall o, f <> FSMain o) ->
       g_list (e_g e) = g_list (s_g s) /\
       (forall n, In n (g_list (s_g s)) -> n_self (nd (e_g e) n) = n_self (nd (s_g s) n)) /\
       existsb is_fork (e_ev e) = false).
    { intros IE NF. split; [eapply scan_fixed; eauto|].
      destruct (exit_grow _ _ _ _ _ _ _ R HO Hst Hfs IE) as (_ & _ & HC).
      split; [|eapply no_fork_ev; eauto].
      intros n L. destruct (Z.eq_dec n MAIN_TN) as [->|NM]; [|eapply self_fixed; eauto].
      destruct (frozen_reach _ _ R IE) as [Z1 Z2].
      destruct (main_self_local _ _ _ _ _ _ _ _ _ Hfs) as [X|[X|[X|X]]]; [exact X| |congruence|].
      - pose proof (no_reset_exit _ _ t R Z1) as Y. rewrite (existsb_false_in _ _ _ Y IN) in X. discriminate.
      - rewrite (hold_main _ _ _ _ RC IN) in X. discriminate. }
    split; [|split].
    + assert (MS : g_inexit (s_g s) = true -> n_self (nd (s_g s) MAIN_TN) = MAIN).
      { intros IE. apply (mi_self _ (main_reach _ _ RC)). left. apply (frozen_reach _ _ R IE). }
      assert (AP : g_inexit (s_g s) = true -> forall n, In n (g_list (s_g s)) -> n_appl (nd (s_g s) n) = false ->
         n <> MAIN_TN /\ ~ has_started (n_self (nd (s_g s) n)) (s_tr s)).
      { intros IE n L A. assert (NM : n <> MAIN_TN) by (intros ->; rewrite (main_appl _ _ R L) in A; discriminate).
        split; [exact NM|]. intros (x & y & ST).
        destruct (frozen_reach _ _ R IE) as [Z1 Z2].
        rewrite (appl_reach _ _ RC (no_reset_exit _ _ MAIN R Z1) n L NM) in A; [discriminate|].
        left. eauto. }
      assert (FD : forall n, In n (g_list (s_g s)) -> n_fdone (nd (s_g s) n) = true ->
         g_inexit (s_g s) = true -> fini_returned (n_self (nd (s_g s) n)) (s_tr s)).
      { intros n L D IE. destruct (Z.eq_dec n MAIN_TN) as [->|NM].
        - rewrite (MS IE). eapply main_fdone; eauto.
        - eapply own_fdone; eauto. right. auto. }
      assert (END : forall l, f = FSNode l [] -> sc_uf l = 0%Z -> waited t (s_tr s)).
      { intros l -> Z0. cbn in Q2. destruct Q2 as (_ & b2 & LP & A). right. exists b2. split; [exact LP|].
        specialize (EF eq_refl). specialize (Q1 eq_refl).
        intros v NV [->|[(k & RG) ST]].
        - destruct (A Z0 MAIN_TN (Q1 (not_eq_sym NV))) as [[]|[X|[X|[X _]]]].
          + rewrite (MS EF) in X. congruence.
          + now rewrite (MS EF) in X.
          + congruence.
        - assert (RG' : In (EReg v k) (image (s_tr s))).
          { destruct LP as (b1 & E & _ & F). rewrite E. apply image_suffix; [exact F|]. exact (or_intror RG). }
          destruct (reg2_reach _ _ RC v k RG') as [(n & L & NM & S)|[(n & B)|X]]; [| |exact X].
          + destruct (A Z0 n L) as [[]|[X|[X|[_ X]]]]; rewrite S in X; congruence || (exfalso; auto; fail) || exact X.
          + destruct (exit_frames _ _ RA v _ B) as [Y _]. rewrite (Y eq_refl) in EF. discriminate. }
      assert (FN : w_sd f = 1 -> (forall l, f <> FSPass l) -> ~ In (EPass t) (e_ev e)).
      { intros _ N J. destruct (pass_ev _ _ _ _ _ _ _ _ _ _ Hfs J) as (_ & l & X). exact (N l X). }
      intros f' I'. clear FI Hst LV IN HO R RC RA. q_step; cbn in I';
        repeat match type of I' with context [if ?b then _ else _] => destruct b eqn:?; cbn in I' end;
        repeat (destruct I' as [<-|I']; [try (split; [discriminate|exact Logic.I])|]); try (destruct I'; fail);
        cbn [e_g e_ev e_fr app] in *.
      all: try (split; [exact Q1 || discriminate|exact Q2 || exact Logic.I]; fail).
      * split; [|exact Logic.I]. intros _ NM. exfalso. apply NM. apply Z.eqb_eq in E. rewrite <- E. apply MS. now apply EF.
      * split; [|exact Logic.I]. intros _ _. now left.
      * split; [|exact Logic.I]. intros _ _. now left.
      * split; [exact Q1|]. split; [cbn; lia|]. exists (s_tr s). split; [|auto].
        exists []. split; [reflexivity|]. split; [intros []|reflexivity].
      * split; [discriminate|]. apply (END l); [reflexivity|]. now apply Z.eqb_eq.
      * split; [exact Q1|]. destruct Q2 as (U & b2 & L & A). split; [exact U|]. exists b2. split; [exact L|].
        intros Z0 m I. destruct (A Z0 m I) as [[<-|B]|B]; auto. right. left. now apply Z.eqb_eq.
      * split; [exact Q1|]. destruct Q2 as (U & b2 & L & A). split; [exact U|]. exists b2. split; [exact L|].
        intros Z0 m I. destruct (A Z0 m I) as [[<-|B]|B]; auto. right. right. right.
        destruct (AP (EF eq_refl) z I E1) as [X Y]. split; [exact X|]. intros (x & y & J). apply Y. exists x, y.
        destruct L as (b1 & -> & _). apply in_or_app. right. now right.
      * split; [exact Q1|]. apply (pass_mono (s_g s) (s_g s) t (s_tr s) [EShoot t (n_self (nd (s_g s) n))]); auto.
        intros [X|[]]; discriminate X.
      * split; [exact Q1|]. destruct Q2 as (U & b2 & L & A). split; [exact U|]. exists b2. split; [exact L|].
        intros Z0 m I. destruct (A Z0 m I) as [[<-|B]|B]; auto. right. right. left. apply FD; auto.
      * split; [exact Q1|]. destruct Q2 as (U & b2 & L & A). split; [cbn; lia|]. exists b2. split; [exact L|].
        cbn. intros Z0. lia.
      * split; [discriminate|]. apply (waited_mono t (s_tr s) [ECall t (CbFiniThread (n_data (nd (s_g s) n)))]); auto.
        intros [X|[]]; discriminate X.
      * split; [discriminate|]. destruct k; try exact Logic.I.
        apply (waited_mono t (s_tr s) [ECreateCall t (mkcreq (g_calls (s_g s)) start arg ra)]); auto. intros [X|[]]; discriminate X.
      * split; [discriminate|]. apply (waited_mono t (s_tr s) [ERet t c v]); auto. intros [X|[]]; discriminate X.
      * split; [discriminate|]. left. now left.
    + intros t' f' D [P1 P2].
      assert (I' : In f' (th_stack (s_th s t'))).
      { destruct D as [[-> D]|(_ & _ & D)]; [rewrite Hst; now right|exact D]. }
      assert (D' : (t' = t /\ In f' r) \/ (t' <> t /\ In f' (th_stack (s_th s t')))) by tauto.
      assert (ACT : w_sd f' = 1 /\ after_freeze f' = true ->
         (g_list (e_g e) = g_list (s_g s) /\
          (forall n, In n (g_list (s_g s)) -> n_self (nd (e_g e) n) = n_self (nd (s_g s) n)) /\
          existsb is_fork (e_ev e) = false) /\ ~ In (EPass t') (e_ev e)).
      { intros [W AF]. assert (NW : w_sd f = 0).
        { destruct (w_sd f) as [|[|k]] eqn:WF; [reflexivity| |destruct f; cbn in WF; try discriminate WF; destruct k0; discriminate WF].
          rewrite (sd_one _ _ _ _ _ _ _ RA Hst WF D') in W. discriminate. }
        split.
        - apply FX; [|intros o ->; discriminate NW]. apply (exit_frames _ _ RA t' f' I'). exact AF.
        - intros J. destruct (pass_ev _ _ _ _ _ _ _ _ _ _ Hfs J) as (_ & l & ->). discriminate NW. }
      split.
      * intros SC NM. destruct ACT as ((-> & _) & _); [apply sd_active; auto|auto].
      * destruct f'; try exact Logic.I; try (destruct k; try exact Logic.I);
          (destruct ACT as ((A1 & A2 & A3) & A4); [split; reflexivity|]);
          first [now apply waited_mono|eapply pass_mono; eauto].
    + clear - Hfs. intros st f' EN I'. q_step; cbn in EN; try discriminate EN; inversion EN; subst; cbn in I';
        repeat (destruct I' as [<-|I']; [split; [discriminate|exact Logic.I]|]); destruct I'.
Qed.
