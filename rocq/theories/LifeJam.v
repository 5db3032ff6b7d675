(** When process exit does not end: the exiting thread alone never gets through. *)
From Verif Require Import LifeStopSpec LifeBase LifeFork LifeStop.

Local Open Scope Z_scope.

Definition jam (g : glob) (t : Z) : Prop :=
  n_self (nd g MAIN_TN) = t /\ 0 < num (undone g t) (g_list g) /\ num (unbegun g t) (g_list g) = 0.
Definition hopeless (g : glob) (t : Z) : Prop := g_lock g <> None \/ jam g t.
Definition scanned (g : glob) (t : Z) (l : scan) (r : list Z) : Prop :=
  sc_un l = 0 /\ 0 <= sc_uf l /\ 0 < sc_uf l + num (undone g t) r /\ incl r (g_list g).
Definition jammed (t : Z) (k : config) : Prop :=
  g_dead (k_g k) = false /\ g_used (k_g k) = true /\ exists f r, k_st k = f :: r /\
  match f with
  | FEPGet _ | FEPCas _ _ => g_cookie (k_g k) = false /\ hopeless (k_g k) t
  | FEPWin _ _ | FEPBegin _ | FCb _ (KBeginExit _) | FSUsed | FSLock _ => hopeless (k_g k) t
  | FSSet _ | FSUnlock _ | FSInstall _ | FSMain _ | FSPass _ => jam (k_g k) t
  | FSNode l ns => jam (k_g k) t /\ scanned (k_g k) t l ns
  | FSStarted l n ns | FSDone l n ns => jam (k_g k) t /\ scanned (k_g k) t l (n :: ns) /\ seen (k_g k) t n = true
  | _ => False
  end.

Lemma jam_win g m t : jam g t -> jam (set_node m (set_n_win true) g) t.
Proof.
  intros (A & B & C).
  assert (F : forall n, let g' := set_node m (set_n_win true) g in n_self (nd g' n) = n_self (nd g n) /\ n_appl (nd g' n) = n_appl (nd g n) /\
    n_fstart (nd g' n) = n_fstart (nd g n) /\ n_fdone (nd g' n) = n_fdone (nd g n)).
  { intros n. cbv zeta. unfold nd. cbn. rewrite upd_if. destruct (Z.eqb_spec n m) as [->|]; repeat split; reflexivity. }
  split; [rewrite (proj1 (F MAIN_TN)); exact A|].
  rewrite (num_ext (undone (set_node m (set_n_win true) g) t) (undone g t)), (num_ext (unbegun (set_node m (set_n_win true) g) t) (unbegun g t));
    [split; assumption| |]; intros n; unfold unbegun, undone, seen; destruct (F n) as (X & Y & Z0 & W); now rewrite X, Y, ?Z0, ?W.
Qed.

Lemma jam_begun g t n : jam g t -> In n (g_list g) -> seen g t n = true -> n_fstart (nd g n) = true.
Proof.
  intros (_ & _ & C) I S. destruct (n_fstart (nd g n)) eqn:E; [reflexivity|].
  assert (0 < num (unbegun g t) (g_list g)); [|lia]. apply num_in. exists n. split; [exact I|]. unfold unbegun. now rewrite S, E.
Qed.

Lemma lock_stays dyn v t s old r g tsd nc tr h : at_cfg s t (mkcfg (FSLock old :: r) g tsd nc tr) -> g_dead g = false -> g_lock g = Some h ->
  move dyn v t s = s.
Proof.
  intros A D LK. unfold move. rewrite !(plain_step dyn s t _ _ _ _ A eq_refl D eq_refl) by exact I. cbn. now rewrite LK.
Qed.

Lemma jammed_move dyn v t s k : at_cfg s t k -> jammed t k -> exists k', at_cfg (move dyn v t s) t k' /\ jammed t k'.
Proof.
  intros A (D & U & f & r & K & H). destruct k as [st g tsd nc tr]. cbn in D, U, K, H. subst st.
  assert (X : forall k', cmove dyn v t (mkcfg (f :: r) g tsd nc tr) = Some k' -> jammed t k' -> exists k', at_cfg (move dyn v t s) t k' /\ jammed t k')
    by (intros k' C J; exists k'; split; [eapply move_cmove; eassumption|exact J]).
  destruct f; try contradiction H.
  - (* FCb *) destruct k; try contradiction H. eapply X; [unfold cmove, ceff; cbn; rewrite D; reflexivity|].
    split; [exact D|]. split; [exact U|]. eexists _, _. split; [reflexivity|]. exact H.
  - (* FEPGet *) eapply X; [unfold cmove, ceff; cbn [k_st k_g k_tsd k_nc k_tr is_unwind frame_step auto_step ret calm e_new e_child e_kill e_fr e_g e_tsd e_nc e_ev]; rewrite D; reflexivity|].
    split; [exact D|]. split; [exact U|]. eexists _, _. split; [reflexivity|]. exact H.
  - (* FEPCas *) destruct H as [CK H]. eapply X; [unfold cmove, ceff; cbn; rewrite D, CK; reflexivity|].
    split; [exact D|]. split; [exact U|]. eexists _, _. split; [reflexivity|]. exact H.
  - (* FEPWin *) eapply X; [unfold cmove, ceff; cbn; rewrite D; reflexivity|]. destruct tn as [m|].
    + split; [exact D|]. split; [exact U|]. eexists _, _. split; [reflexivity|]. destruct H as [H|H]; [left; exact H|right; now apply jam_win].
    + split; [exact D|]. split; [exact U|]. eexists _, _. split; [reflexivity|]. exact H.
  - (* FEPBegin *) eapply X; [unfold cmove, ceff; cbn; rewrite D; reflexivity|].
    split; [exact D|]. split; [exact U|]. eexists _, _. split; [reflexivity|]. exact H.
  - (* FSUsed *) eapply X; [unfold cmove, ceff; cbn; rewrite D, U; reflexivity|].
    split; [exact D|]. split; [exact U|]. eexists _, _. split; [reflexivity|]. exact H.
  - (* FSLock *) destruct (g_lock g) as [h|] eqn:LK.
    + exists (mkcfg (FSLock old :: r) g tsd nc tr). rewrite (lock_stays dyn v t s old r g tsd nc tr h A D LK). split; [exact A|].
      split; [exact D|]. split; [exact U|]. eexists _, _. split; [reflexivity|]. exact H.
    + destruct H as [H|H]; [now destruct H|]. eapply X; [unfold cmove, ceff; cbn; rewrite D, LK; reflexivity|].
      split; [exact D|]. split; [exact U|]. eexists _, _. split; [reflexivity|]. exact H.
  - (* FSSet *) eapply X; [unfold cmove, ceff; cbn; rewrite D; reflexivity|].
    split; [exact D|]. split; [exact U|]. eexists _, _. split; [reflexivity|]. exact H.
  - eapply X; [unfold cmove, ceff; cbn; rewrite D; reflexivity|].
    split; [exact D|]. split; [exact U|]. eexists _, _. split; [reflexivity|]. exact H.
  - eapply X; [unfold cmove, ceff; cbn; rewrite D; reflexivity|].
    split; [exact D|]. split; [exact U|]. eexists _, _. split; [reflexivity|]. exact H.
  - (* FSMain *) destruct H as (M & H). eapply X; [unfold cmove, ceff; cbn; rewrite D, M, Z.eqb_refl; reflexivity|].
    split; [exact D|]. split; [exact U|]. eexists _, _. split; [reflexivity|]. split; assumption.
  - (* FSPass *) eapply X; [unfold cmove, ceff; cbn; rewrite D; reflexivity|].
    split; [exact D|]. split; [exact U|]. eexists _, _. split; [reflexivity|]. split; [exact H|]. cbn. destruct H as (M & P & Q).
    unfold scanned. cbn [sc_un sc_uf]. split; [reflexivity|]. split; [lia|]. split; [lia|]. apply incl_refl.
  - (* FSNode *) destruct H as (J & UN & POS & SUM & INC). destruct rest as [|n ns].
    + unfold num in SUM. cbn in SUM. destruct (sc_last l <? sc_st l) eqn:E;
        (eapply X; [unfold cmove, ceff; cbn; rewrite D, (proj2 (Z.eqb_neq (sc_uf l) 0)), E, UN by lia; reflexivity|];
         split; [exact D|]; split; [exact U|]; eexists _, _; split; [reflexivity|]; exact J).
    + destruct (n_self (nd g n) =? t) eqn:E1; [|destruct (n_appl (nd g n)) eqn:E2];
        (eapply X; [unfold cmove, ceff; cbn; rewrite D, E1, ?E2; reflexivity|];
         split; [exact D|]; split; [exact U|]; eexists _, _; split; [reflexivity|]; cbn; split; [exact J|]).
      * rewrite num_cons in SUM. unfold undone at 1, seen in SUM. rewrite E1 in SUM. cbn in SUM.
        unfold scanned. cbn [sc_un sc_uf]. split; [exact UN|]. split; [exact POS|]. split; [lia|]. intros z I. apply INC. now right.
      * split; [repeat split; assumption|]. unfold seen. now rewrite E1, E2.
      * rewrite num_cons in SUM. unfold undone at 1, seen in SUM. rewrite E1, E2 in SUM. cbn in SUM.
        unfold scanned. cbn [sc_un sc_uf]. split; [exact UN|]. split; [exact POS|]. split; [lia|]. intros z I. apply INC. now right.
  - (* FSStarted *) destruct H as (J & (UN & POS & SUM & INC) & SN).
    assert (F : n_fstart (nd g n) = true) by (apply (jam_begun g t); auto; apply INC; now left).
    eapply X; [unfold cmove, ceff; cbn; rewrite D, F; reflexivity|].
    split; [exact D|]. split; [exact U|]. eexists _, _. split; [reflexivity|]. cbn. split; [exact J|]. split; [repeat split; assumption|exact SN].
  - (* FSDone *) destruct H as (J & (UN & POS & SUM & INC) & SN). rewrite num_cons in SUM. unfold undone at 1 in SUM. rewrite SN in SUM. cbn [andb] in SUM.
    destruct (n_fdone (nd g n)) eqn:E; (eapply X; [unfold cmove, ceff; cbn; rewrite D, E; reflexivity|];
      split; [exact D|]; split; [exact U|]; eexists _, _; split; [reflexivity|]; cbn; split; [exact J|]).
    all: pose proof (num_pos (undone g t) rest); cbn in SUM; unfold scanned; cbn [sc_un sc_uf]; (split; [exact UN|]; split; [lia|]; split; [lia|]; intros z I; apply INC; now right).
Qed.

Lemma jammed_alone dyn v t n : forall s k, at_cfg s t k -> jammed t k -> g_dead (s_g (alone dyn v t n s)) = false.
Proof.
  induction n as [|n IH]; intros s k A J.
  - cbn. destruct A as (_ & _ & G & _). rewrite G. apply J.
  - cbn [alone]. destruct (jammed_move dyn v t s k A J) as (k' & A' & J'). eapply IH; eassumption.
Qed.

Lemma stuck_jam s t : ~ not_stuck s t -> jam (s_g s) t.
Proof.
  intros NS. unfold not_stuck in NS.
  assert (OT : forall n, In n (g_list (s_g s)) -> seen (s_g s) t n = true -> other s t n).
  { intros n I S. unfold seen in S. apply andb_prop in S. destruct S as [S1 S2]. split; [exact I|]. split; [|exact S2].
    intros E. rewrite E, Z.eqb_refl in S1. discriminate S1. }
  assert (Q : num (unbegun (s_g s) t) (g_list (s_g s)) = 0).
  { pose proof (num_pos (unbegun (s_g s) t) (g_list (s_g s))). destruct (Z.eq_dec (num (unbegun (s_g s) t) (g_list (s_g s))) 0) as [E|E]; [exact E|].
    exfalso. destruct (proj1 (num_in (unbegun (s_g s) t) (g_list (s_g s))) ltac:(lia)) as (n & I & B). unfold unbegun in B. apply andb_prop in B.
    destruct B as [B1 B2]. apply NS. right. left. exists n. split; [now apply OT|]. now destruct (n_fstart (nd (s_g s) n)). }
  split; [|split; [|exact Q]].
  - destruct (Z.eq_dec (n_self (nd (s_g s) MAIN_TN)) t) as [E|E]; [exact E|]. exfalso. apply NS. right. now right.
  - destruct (Z_lt_le_dec 0 (num (undone (s_g s) t) (g_list (s_g s)))) as [L|L]; [exact L|]. exfalso. apply NS. left.
    intros n (I & NE & AP) _. destruct (n_fdone (nd (s_g s) n)) eqn:E; [reflexivity|].
    assert (0 < num (undone (s_g s) t) (g_list (s_g s))); [|lia]. apply num_in. exists n. split; [exact I|].
    unfold undone, seen. rewrite (proj2 (Z.eqb_neq _ _) NE), AP, E. reflexivity.
Qed.

Lemma jams dyn v t how s n : leaving s t how -> g_cookie (s_g s) = false -> g_used (s_g s) = true -> g_lock (s_g s) <> None \/ ~ not_stuck s t ->
  g_dead (s_g (alone dyn v t n s)) = false.
Proof.
  intros (D & L & x & ST) CK U H.
  assert (X : exists r, th_stack (s_th s t) = FEPGet how :: r) by (destruct ST as [E|[E|E]]; rewrite E; eexists; reflexivity).
  destruct X as [r E].
  apply (jammed_alone dyn v t n s (mkcfg (FEPGet how :: r) (s_g s) (th_tsd (s_th s t)) (th_nc (s_th s t)) (s_tr s))); [repeat split; auto|].
  split; [exact D|]. split; [exact U|]. eexists _, _. split; [reflexivity|]. split; [exact CK|].
  destruct H as [H|H]; [left; exact H|right; now apply stuck_jam].
Qed.

(** In a process without threads nothing is waited for, not even the lock. *)
Lemma single_walk dyn v t how g tsd nc rst tr : g_dead g = false -> g_cookie g = false -> g_used g = false ->
  exists g' d tr', (g_dead g' = false) /\
    walks dyn v t (mkcfg (FEPGet how :: rst) g tsd nc tr)
      (mkcfg rst g' tsd nc (ERet t (CbFiniProcess how d) v :: ECall t (CbFiniProcess how d) ::
         ERet t (CbBeginExit how) v :: ECall t (CbBeginExit how) :: tr' ++ tr)).
Proof.
  intros D CK U.
  destruct g as [heap lst fre chunk pos chunks num inexit used support ftdone shoot lck initp libonce cookie pdone libdone dtor mti calls bad dead].
  cbn in D, CK, U. subst.
  remember (get_tn (mkglob heap lst fre chunk pos chunks num inexit false support ftdone shoot lck initp libonce false pdone libdone dtor mti calls bad false) tsd) as o eqn:O.
  destruct o as [m|]; (eexists _, _, [EWin t; EExit t how]; split; cycle 1;
    [eapply walks_step; [unfold cmove, ceff; cbn [k_st k_g k_tsd k_nc k_tr g_dead is_unwind frame_step auto_step ret calm e_new e_child e_kill e_fr e_g e_tsd e_nc e_ev]; rewrite <- O; reflexivity|];
      do 8 (eapply walks_step; [unfold cmove, ceff; cbn; reflexivity|]); cbn; apply walks_refl|reflexivity]).
Qed.

Lemma single_leaves dyn v t how s : leaving s t how -> g_cookie (s_g s) = false -> g_used (s_g s) = false ->
  exists n, let s' := alone dyn v t n s in g_dead (s_g s') = true /\ In (ERet t (CbBeginExit how) v) (s_tr s') /\ exists d, In (ERet t (CbFiniProcess how d) v) (s_tr s').
Proof.
  intros (D & L & x & ST) CK U.
  assert (X : exists r, th_stack (s_th s t) = FEPGet how :: r /\ exists x, r = FRealExit :: x \/ r = FEndLibDyn :: FUExit :: x \/ r = FEndLibDyn :: FSigEnd :: x)
    by (destruct ST as [E|[E|E]]; rewrite E; (eexists; split; [reflexivity|]); exists x; auto).
  clear x ST. destruct X as (r & ST & R).
  destruct (single_walk dyn v t how (s_g s) (th_tsd (s_th s t)) (th_nc (s_th s t)) r (s_tr s) D CK U) as (g1 & d & tr1 & D1 & W1).
  match type of W1 with walks _ _ _ _ (mkcfg _ _ _ _ ?tr) => destruct (route_walk dyn v t g1 (th_tsd (s_th s t)) (th_nc (s_th s t)) r tr D1 R) as (k' & D2 & W2 & I2) end.
  destruct (walks_trans _ _ _ _ _ _ W1 W2) as [n A]. exists n. cbv zeta.
  destruct (A s) as (_ & _ & G & _ & _ & TR); [repeat split; auto|]. rewrite G, TR. split; [exact D2|].
  split; [apply I2; do 4 right; now left|]. exists d. apply I2. right. right. now left.
Qed.

Lemma stuck_dec s t : not_stuck s t \/ ~ not_stuck s t.
Proof.
  set (g := s_g s).
  destruct (Z.eq_dec (n_self (nd g MAIN_TN)) t) as [M|M]; [|left; right; now right].
  pose proof (num_pos (unbegun g t) (g_list g)) as P1. pose proof (num_pos (undone g t) (g_list g)) as P2.
  destruct (Z_lt_le_dec 0 (num (unbegun g t) (g_list g))) as [A|A].
  { left. right. left. destruct (proj1 (num_in _ _) A) as (n & I & B). unfold unbegun, seen in B. apply andb_prop in B. destruct B as [B B3].
    apply andb_prop in B. destruct B as [B1 B2]. exists n. split; [split; [exact I|split; [|exact B2]]|].
    - intros E. fold g in E. rewrite E, Z.eqb_refl in B1. discriminate B1.
    - fold g. now destruct (n_fstart (nd g n)). }
  destruct (Z_lt_le_dec 0 (num (undone g t) (g_list g))) as [B|B].
  - right. intros NS. destruct (not_stuck_free _ _ NS) as [X|[X|X]]; [now apply X|fold g in X; lia..].
  - left. left. intros n (I & NE & AP) _. fold g in I, NE, AP |- *. destruct (n_fdone (nd g n)) eqn:E; [reflexivity|].
    assert (0 < num (undone g t) (g_list g)); [|lia]. apply num_in. exists n. split; [exact I|].
    unfold undone, seen. rewrite (proj2 (Z.eqb_neq _ _) NE), AP, E. reflexivity.
Qed.
