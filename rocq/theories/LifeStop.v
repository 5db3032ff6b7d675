(** Process exit ends when its thread runs alone. *)
From Verif Require Import LifeStopSpec LifeBase LifeFork.

Local Open Scope Z_scope.

Definition ceff (dyn : bool) (v t : Z) (k : config) (f : frame) : option eff :=
  match frame_step dyn t 0 (k_g k) (k_tsd k) (k_nc k) f CGiveUp with
  | Some e => Some e
  | None => match frame_step dyn t 0 (k_g k) (k_tsd k) (k_nc k) f CStep with
            | Some e => Some e
            | None => frame_step dyn t 0 (k_g k) (k_tsd k) (k_nc k) f (CRet v)
            end
  end.
Definition calm (t : Z) (e : eff) : bool :=
  match e_new e, e_child e with
  | None, false => match e_kill e with Some u => negb (u =? t) | None => true end
  | _, _ => false
  end.
Definition cmove (dyn : bool) (v t : Z) (k : config) : option config :=
  if g_dead (k_g k) then None else
  match k_st k with
  | [] => None
  | f :: r =>
      if is_unwind f then None else
      match ceff dyn v t k f with
      | Some e => if calm t e then Some (mkcfg (e_fr e ++ r) (e_g e) (e_tsd e) (e_nc e) (e_ev e ++ k_tr k)) else None
      | None => None
      end
  end.

Lemma calm_at s t k f r e : at_cfg s t k -> k_st k = f :: r -> calm t e = true ->
  at_cfg (apply_eff s t (s_th s t) r e) t (mkcfg (e_fr e ++ r) (e_g e) (e_tsd e) (e_nc e) (e_ev e ++ k_tr k)).
Proof.
  intros (L & ST & G & T & N & TR) K C. unfold calm in C.
  destruct (e_new e) eqn:EN; [discriminate C|]. destruct (e_child e) eqn:EC; [discriminate C|].
  unfold apply_eff, at_cfg. rewrite EN, EC. destruct (e_kill e) as [u|]; cbn.
  - rewrite upd_other by (intros ->; rewrite Z.eqb_refl in C; discriminate C). rewrite upd_same. cbn. rewrite TR. repeat split; auto.
  - rewrite upd_same. cbn. rewrite TR. repeat split; auto.
Qed.

Definition plain (c : choice) : Prop := match c with CGiveUp | CStep | CRet _ => True | _ => False end.
Lemma plain_step dyn s t k f r c : at_cfg s t k -> k_st k = f :: r -> g_dead (k_g k) = false -> is_unwind f = false -> plain c ->
  step dyn s t c = option_map (apply_eff s t (s_th s t) r) (frame_step dyn t 0 (k_g k) (k_tsd k) (k_nc k) f c).
Proof.
  intros (L & ST & G & T & N & TR) K D U P. unfold step. rewrite G, D, L, ST, K, U, T, N.
  destruct c; try destruct P; reflexivity.
Qed.

Lemma move_cmove dyn v t s k k' : at_cfg s t k -> cmove dyn v t k = Some k' -> at_cfg (move dyn v t s) t k'.
Proof.
  intros A H. unfold cmove in H. destruct (g_dead (k_g k)) eqn:D; [discriminate H|].
  destruct (k_st k) as [|f r] eqn:K; [discriminate H|]. destruct (is_unwind f) eqn:U; [discriminate H|].
  assert (P : forall c, plain c -> step dyn s t c = option_map (apply_eff s t (s_th s t) r) (frame_step dyn t 0 (k_g k) (k_tsd k) (k_nc k) f c))
    by (intros c P; now apply plain_step).
  unfold move. rewrite (P CGiveUp I), (P CStep I), (P (CRet v) I). unfold ceff in H.
  destruct (frame_step dyn t 0 (k_g k) (k_tsd k) (k_nc k) f CGiveUp) as [e|].
  { destruct (calm t e) eqn:C; [|discriminate H]. inversion H; subst. cbn. eapply calm_at; eassumption. }
  destruct (frame_step dyn t 0 (k_g k) (k_tsd k) (k_nc k) f CStep) as [e|].
  { destruct (calm t e) eqn:C; [|discriminate H]. inversion H; subst. cbn. eapply calm_at; eassumption. }
  destruct (frame_step dyn t 0 (k_g k) (k_tsd k) (k_nc k) f (CRet v)) as [e|]; [|discriminate H].
  destruct (calm t e) eqn:C; [|discriminate H]. inversion H; subst. cbn. eapply calm_at; eassumption.
Qed.

Definition walks (dyn : bool) (v t : Z) (k k' : config) : Prop :=
  exists n, forall s, at_cfg s t k -> at_cfg (alone dyn v t n s) t k'.
Lemma alone_add dyn v t n m s : alone dyn v t (n + m) s = alone dyn v t m (alone dyn v t n s).
Proof. revert s. induction n as [|n IH]; intros s; cbn; [reflexivity|apply IH]. Qed.
Lemma walks_refl dyn v t k : walks dyn v t k k.
Proof. exists 0%nat. intros s A. exact A. Qed.
Lemma walks_trans dyn v t k1 k2 k3 : walks dyn v t k1 k2 -> walks dyn v t k2 k3 -> walks dyn v t k1 k3.
Proof. intros [n A] [m B]. exists (n + m)%nat. intros s C. rewrite alone_add. apply B, A, C. Qed.
Lemma walks_step dyn v t k k' k'' : cmove dyn v t k = Some k' -> walks dyn v t k' k'' -> walks dyn v t k k''.
Proof.
  intros A B. apply walks_trans with k'; [|exact B]. exists 1%nat. intros s C. cbn. eapply move_cmove; eassumption.
Qed.

(** ** One pass over the list *)

Definition seen (g : glob) (t n : Z) : bool := negb (n_self (nd g n) =? t) && n_appl (nd g n).
Definition begun (g : glob) (t n : Z) : bool := seen g t n && n_fstart (nd g n).
Definition unbegun (g : glob) (t n : Z) : bool := seen g t n && negb (n_fstart (nd g n)).
Definition undone (g : glob) (t n : Z) : bool := seen g t n && negb (n_fdone (nd g n)).
Definition num (p : Z -> bool) (l : list Z) : Z := Z.of_nat (length (filter p l)).
Lemma num_cons p n l : num p (n :: l) = (if p n then 1 else 0) + num p l.
Proof. unfold num. cbn [filter]. destruct (p n); cbn [length]; lia. Qed.
Lemma num_pos p l : 0 <= num p l.
Proof. unfold num. lia. Qed.
Lemma num_in p l : 0 < num p l <-> exists n, In n l /\ p n = true.
Proof.
  induction l as [|m r IH].
  - unfold num. cbn. split; [lia|intros (n & [] & _)].
  - rewrite num_cons. split.
    + intros H. destruct (p m) eqn:E; [exists m; cbn; auto|]. destruct (proj1 IH ltac:(lia)) as (n & I & X). exists n. cbn. auto.
    + intros (n & [->|I] & X); pose proof (num_pos p r); [rewrite X; lia|].
      assert (0 < num p r) by (apply IH; exists n; auto). destruct (p m); lia.
Qed.

Lemma pass_node dyn v t g tsd nc rst r : g_dead g = false ->
  forall l tr, exists l' tr',
    walks dyn v t (mkcfg (FSNode l r :: rst) g tsd nc tr) (mkcfg (FSNode l' [] :: rst) g tsd nc (tr' ++ tr)) /\
    sc_old l' = sc_old l /\ sc_last l' = sc_last l /\ sc_st l' = sc_st l + num (begun g t) r /\
    sc_un l' = sc_un l + num (unbegun g t) r /\ sc_uf l' = sc_uf l + num (undone g t) r.
Proof.
  intros D. induction r as [|n r IH]; intros l tr.
  - exists l, []. split; [apply walks_refl|]. unfold num. cbn. repeat split; lia.
  - rewrite !num_cons. unfold begun at 1, unbegun at 1, undone at 1, seen.
    destruct (n_self (nd g n) =? t) eqn:E1.
    { destruct (IH (mkscan (sc_old l) (Some n) (sc_last l) (sc_st l) (sc_un l) (sc_uf l)) tr) as (l' & tr' & W & X).
      exists l', tr'. split; [|exact X].
      eapply walks_step; [unfold cmove, ceff; cbn; rewrite D, E1; reflexivity|exact W]. }
    destruct (n_appl (nd g n)) eqn:E2.
    2:{ destruct (IH l tr) as (l' & tr' & W & X).
      exists l', tr'. split; [|exact X].
      eapply walks_step; [unfold cmove, ceff; cbn; rewrite D, E1, E2; reflexivity|exact W]. }
    cbn [negb andb].
    destruct (n_fstart (nd g n)) eqn:E3; cbn [negb].
    + destruct (IH (mkscan (sc_old l) (sc_my l) (sc_last l) (sc_st l + 1) (sc_un l) (if n_fdone (nd g n) then sc_uf l else sc_uf l + 1)) tr)
        as (l' & tr' & W & X & Y & Z0 & Z1 & Z2). cbn in X, Y, Z0, Z1, Z2.
      exists l', tr'. split; [|repeat split; [exact X|exact Y|lia|lia|destruct (n_fdone (nd g n)); cbn [negb]; lia]].
      eapply walks_step; [unfold cmove, ceff; cbn; rewrite D, E1, E2; reflexivity|].
      eapply walks_step; [unfold cmove, ceff; cbn; rewrite D, E3; reflexivity|].
      eapply walks_step; [unfold cmove, ceff; cbn; rewrite D; reflexivity|].
      destruct (n_fdone (nd g n)); exact W.
    + destruct (IH (mkscan (sc_old l) (sc_my l) (sc_last l) (sc_st l) (sc_un l + 1)
          (if n_fdone (nd g n) then sc_uf l else sc_uf l + 1)) (EShoot t (n_self (nd g n)) :: tr)) as (l' & tr' & W & X & Y & Z0 & Z1 & Z2).
      cbn in X, Y, Z0, Z1, Z2.
      exists l', (tr' ++ [EShoot t (n_self (nd g n))]).
      split; [|repeat split; [exact X|exact Y|lia|lia|destruct (n_fdone (nd g n)); cbn [negb]; lia]]. rewrite <- app_assoc.
      eapply walks_step; [unfold cmove, ceff; cbn; rewrite D, E1, E2; reflexivity|].
      eapply walks_step; [unfold cmove, ceff; cbn; rewrite D, E3; cbn; unfold calm; cbn; rewrite E1; reflexivity|].
      eapply walks_step; [unfold cmove, ceff; cbn; rewrite D; reflexivity|].
      destruct (n_fdone (nd g n)); exact W.
Qed.

(** No thread that must be waited for: all seen are done, or one has not begun. *)
Definition free_to_go (g : glob) (t : Z) : Prop := num (undone g t) (g_list g) = 0 \/ 0 < num (unbegun g t) (g_list g).
Lemma free_intro g t :
  (forall n, In n (g_list g) -> seen g t n = true -> n_fstart (nd g n) = true -> n_fdone (nd g n) = true) \/
  (exists n, In n (g_list g) /\ unbegun g t n = true) -> free_to_go g t.
Proof.
  intros [H|H]; [|right; now apply num_in].
  destruct (Z.eq_dec (num (undone g t) (g_list g)) 0) as [X|X]; [now left|right].
  pose proof (num_pos (undone g t) (g_list g)). destruct (proj1 (num_in (undone g t) (g_list g)) ltac:(lia)) as (n & I & U).
  apply num_in. exists n. split; [exact I|]. unfold undone in U. apply andb_prop in U. destruct U as [A B].
  unfold unbegun. rewrite A. destruct (n_fstart (nd g n)) eqn:E; [|reflexivity]. rewrite (H n I A E) in B. discriminate B.
Qed.

Lemma win_fields g m n : let g' := set_node m (set_n_win true) (set_g_cookie true g) in
  n_self (nd g' n) = n_self (nd g n) /\ n_appl (nd g' n) = n_appl (nd g n) /\ n_fstart (nd g' n) = n_fstart (nd g n) /\
  n_fdone (nd g' n) = n_fdone (nd g n).
Proof.
  cbv zeta. unfold nd. cbn. rewrite upd_if. destruct (Z.eqb_spec n m) as [->|]; repeat split; reflexivity.
Qed.
Lemma num_ext p q l : (forall n, p n = q n) -> num p l = num q l.
Proof. intros H. unfold num. now rewrite (filter_ext _ _ H). Qed.
Lemma free_win g m t : free_to_go g t -> free_to_go (set_node m (set_n_win true) (set_g_cookie true g)) t.
Proof.
  unfold free_to_go. intros H.
  rewrite (num_ext (undone (set_node m (set_n_win true) (set_g_cookie true g)) t) (undone g t)), (num_ext (unbegun (set_node m (set_n_win true) (set_g_cookie true g)) t) (unbegun g t)); [exact H| |];
    intros n; unfold unbegun, undone, seen; destruct (win_fields g m n) as (A & B & C & E); now rewrite A, B, ?C, ?E.
Qed.

Definition clear_scan (l : scan) : scan := mkscan (sc_old l) (sc_my l) (sc_last l) 0 0 0.

Lemma pass_walk dyn v t g tsd nc rst l tr : g_dead g = false -> free_to_go g t ->
  exists l' tr', walks dyn v t (mkcfg (FSPass l :: rst) g tsd nc tr) (mkcfg (FSEnd l' :: rst) g tsd nc (tr' ++ tr)).
Proof.
  intros D P. unfold free_to_go in P.
  set (ub := num (unbegun g t) (g_list g)) in *. set (ud := num (undone g t) (g_list g)) in *. set (cnt := num (begun g t) (g_list g)).
  assert (ONE : forall l tr, exists l' tr', sc_last l' = sc_last l /\ sc_un l' = ub /\ sc_uf l' = ud /\ sc_st l' = cnt /\
    walks dyn v t (mkcfg (FSPass l :: rst) g tsd nc tr) (mkcfg (FSNode l' [] :: rst) g tsd nc (tr' ++ tr))).
  { intros l0 tr0.
    destruct (pass_node dyn v t g tsd nc rst (g_list g) D (clear_scan l0) (EPass t :: tr0)) as (l' & tr' & W & _ & B & C & E & F).
    exists l', (tr' ++ [EPass t]). cbn in B, C, E, F. repeat (split; [assumption|]). rewrite <- app_assoc.
    eapply walks_step; [unfold cmove, ceff; cbn; rewrite D; reflexivity|exact W]. }
  assert (OUT : forall l tr, sc_st l = cnt -> sc_un l = ub -> sc_uf l = ud -> ud = 0 \/ cnt <= sc_last l -> exists l' tr',
    walks dyn v t (mkcfg (FSNode l [] :: rst) g tsd nc tr) (mkcfg (FSEnd l' :: rst) g tsd nc (tr' ++ tr))).
  { intros l0 tr0 A B C E. destruct (Z.eqb_spec (sc_uf l0) 0) as [X|X].
    - exists l0, []. eapply walks_step; [|apply walks_refl]. unfold cmove, ceff. cbn. rewrite D, X. reflexivity.
    - exists l0, [EGiveUp t]. eapply walks_step; [|apply walks_refl]. unfold cmove, ceff. cbn.
      rewrite D, (proj2 (Z.eqb_neq _ _) X). assert ((sc_last l0 <? sc_st l0) = false) as -> by (apply Z.ltb_ge; lia).
      assert ((0 <? sc_un l0) = true) as -> by (apply Z.ltb_lt; lia). reflexivity. }
  destruct (ONE l tr) as (l1 & tr1 & A1 & B1 & C1 & E1 & W1).
  destruct (Z.eqb_spec ud 0) as [X|X]; [|destruct (Z_lt_le_dec (sc_last l1) cnt) as [Y|Y]].
  - destruct (OUT l1 (tr1 ++ tr) E1 B1 C1 ltac:(lia)) as (l2 & tr2 & W2). exists l2, (tr2 ++ tr1). rewrite <- app_assoc.
    eapply walks_trans; eassumption.
  - destruct (ONE (mkscan (sc_old l1) (sc_my l1) (sc_st l1) 0 0 0) (tr1 ++ tr)) as (l2 & tr2 & A2 & B2 & C2 & E2 & W2). cbn in A2.
    destruct (OUT l2 (tr2 ++ tr1 ++ tr) E2 B2 C2 ltac:(lia)) as (l3 & tr3 & W3). exists l3, (tr3 ++ tr2 ++ tr1). rewrite <- !app_assoc.
    eapply walks_trans; [exact W1|]. eapply walks_step; [|eapply walks_trans; [exact W2|exact W3]].
    unfold cmove, ceff. cbn. rewrite D. rewrite <- C1 in X. rewrite (proj2 (Z.eqb_neq _ _) X).
    assert ((sc_last l1 <? sc_st l1) = true) as -> by (apply Z.ltb_lt; lia). reflexivity.
  - destruct (OUT l1 (tr1 ++ tr) E1 B1 C1 ltac:(lia)) as (l2 & tr2 & W2). exists l2, (tr2 ++ tr1). rewrite <- app_assoc.
    eapply walks_trans; eassumption.
Qed.

(** From FSEnd to the end of thread_shootdown. *)
Lemma own_walk dyn v t g tsd nc rst l tr : g_dead g = false ->
  exists g' nc' tr', (g_dead g' = false /\ g_cookie g' = g_cookie g) /\ walks dyn v t (mkcfg (FSEnd l :: rst) g tsd nc tr) (mkcfg rst g' tsd nc' (tr' ++ tr)).
Proof.
  intros D. destruct g as [heap lst fre chunk pos chunks num inexit used support ftdone shoot lck initp libonce cookie pdone libdone dtor mti calls bad dead].
  cbn in D. subst dead.
  destruct (sc_my l) as [n|] eqn:M; [destruct (n_fstart (heap n)) eqn:F|].
  - eexists _, _, []. split; cycle 1.
    + do 3 (eapply walks_step; [unfold cmove, ceff; cbn; rewrite ?M; cbn; rewrite ?F; reflexivity|]). apply walks_refl.
    + split; reflexivity.
  - eexists _, _, [ERet t (CbFiniThread _) v; ECall t (CbFiniThread _)]. split; cycle 1.
    + do 6 (eapply walks_step; [unfold cmove, ceff; cbn; rewrite ?M; cbn; rewrite ?F; reflexivity|]). apply walks_refl.
    + split; reflexivity.
  - eexists _, _, []. split; cycle 1.
    + do 3 (eapply walks_step; [unfold cmove, ceff; cbn; rewrite ?M; reflexivity|]). apply walks_refl.
    + split; reflexivity.
Qed.

(** thread_shootdown, from the return of begin_process_exit to the call of
    fini_process. *)
Lemma shoot_walk dyn v t g tsd nc rst tr : g_dead g = false -> g_lock g = None ->
  n_self (nd g MAIN_TN) <> t \/ free_to_go g t ->
  exists g' nc' tr', (g_dead g' = false /\ g_cookie g' = g_cookie g) /\ walks dyn v t (mkcfg (FSUsed :: rst) g tsd nc tr) (mkcfg rst g' tsd nc' (tr' ++ tr)).
Proof.
  intros D LK S. destruct (g_used g) eqn:U.
  2:{ exists g, nc, []. split; [split; [exact D|reflexivity]|]. eapply walks_step; [unfold cmove, ceff; cbn; rewrite D, U; reflexivity|apply walks_refl]. }
  assert (X : exists l g1 tr1, (g_dead g1 = false /\ g_cookie g1 = g_cookie g) /\ free_to_go g1 t /\
    walks dyn v t (mkcfg (FSUsed :: rst) g tsd nc tr) (mkcfg (FSPass l :: rst) g1 tsd true (tr1 ++ tr))).
  { destruct g as [heap lst fre chunk pos chunks num inexit used support ftdone shoot lck initp libonce cookie pdone libdone dtor mti calls bad dead].
    cbn in D, LK, U. subst. unfold nd in S. cbn in S.
    destruct (n_self (heap MAIN_TN) =? t) eqn:M.
    - eexists _, _, [EFreeze t]. split; [|split]; cycle 2.
      + do 6 (eapply walks_step; [unfold cmove, ceff; cbn; rewrite ?M; reflexivity|]). apply walks_refl.
      + split; reflexivity.
      + destruct S as [S|S]; [apply Z.eqb_eq in M; contradiction|exact S].
    - eexists _, _, [EFreeze t]. split; [|split]; cycle 2.
      + do 6 (eapply walks_step; [unfold cmove, ceff; cbn; rewrite ?M; reflexivity|]). apply walks_refl.
      + cbn. destruct (memb MAIN_TN lst); split; reflexivity.
      + apply free_intro. right. exists MAIN_TN. unfold list_insert, unbegun, seen, nd.
        destruct (memb MAIN_TN lst); cbn; rewrite M; auto. }
  destruct X as (l & g1 & tr1 & [D1 K1] & S1 & W1).
  destruct (pass_walk dyn v t g1 tsd true rst l (tr1 ++ tr) D1 S1) as (l' & tr2 & W2).
  destruct (own_walk dyn v t g1 tsd true rst l' (tr2 ++ tr1 ++ tr) D1) as (g' & nc' & tr3 & [D3 K3] & W3).
  exists g', nc', (tr3 ++ tr2 ++ tr1). split; [split; [exact D3|congruence]|]. rewrite <- !app_assoc.
  eapply walks_trans; [exact W1|]. eapply walks_trans; [exact W2|exact W3].
Qed.

(** end_process_fcn. *)
Lemma end_walk dyn v t how g tsd nc rst tr : g_dead g = false -> g_lock g = None -> g_cookie g = false ->
  n_self (nd g MAIN_TN) <> t \/ free_to_go g t ->
  exists g' nc' d tr1 tr2, (g_dead g' = false /\ g_cookie g' = true /\ g_pdone g' = true) /\
    walks dyn v t (mkcfg (FEPGet how :: rst) g tsd nc tr)
      (mkcfg rst g' tsd nc' (ERet t (CbFiniProcess how d) v :: ECall t (CbFiniProcess how d) :: tr1 ++
         ERet t (CbBeginExit how) v :: ECall t (CbBeginExit how) :: tr2 ++ tr)).
Proof.
  intros D LK CK S.
  assert (X : exists g1, (g_dead g1 = false /\ g_cookie g1 = true) /\ g_lock g1 = None /\
    (n_self (nd g1 MAIN_TN) <> t \/ free_to_go g1 t) /\
    walks dyn v t (mkcfg (FEPGet how :: rst) g tsd nc tr) (mkcfg (FSUsed :: FEPFini how :: rst) g1 tsd nc
      (ERet t (CbBeginExit how) v :: ECall t (CbBeginExit how) :: [EWin t; EExit t how] ++ tr))).
  { destruct g as [heap lst fre chunk pos chunks num inexit used support ftdone shoot lck initp libonce cookie pdone libdone dtor mti calls bad dead].
    cbn in D, LK, CK, S. subst. unfold nd in S. cbn in S.
    remember (get_tn (mkglob heap lst fre chunk pos chunks num inexit used support ftdone shoot None initp libonce false pdone libdone dtor mti calls bad false) tsd) as o eqn:O.
    destruct o as [m|]; (eexists; split; [|split; [|split]]; cycle 3).
    1,5: eapply walks_step; [unfold cmove, ceff; cbn [k_st k_g k_tsd k_nc k_tr g_dead is_unwind frame_step auto_step ret calm e_new e_child e_kill e_fr e_g e_tsd e_nc e_ev]; rewrite <- O; reflexivity|];
      do 4 (eapply walks_step; [unfold cmove, ceff; cbn; reflexivity|]); cbn; apply walks_refl.
    all: try reflexivity. all: try (split; reflexivity). all: try exact S.
    destruct S as [S|S]; [left|right; now apply free_win].
    rewrite (proj1 (win_fields _ m MAIN_TN)). exact S. }
  destruct X as (g1 & [D1 K1] & L1 & S1 & W1).
  destruct (shoot_walk dyn v t g1 tsd nc (FEPFini how :: rst)
    (ERet t (CbBeginExit how) v :: ECall t (CbBeginExit how) :: [EWin t; EExit t how] ++ tr) D1 L1 S1) as (g2 & nc2 & tr2 & [D2 K2] & W2).
  eexists _, nc2, _, tr2, [EWin t; EExit t how]. split; cycle 1.
  - eapply walks_trans; [exact W1|]. eapply walks_trans; [exact W2|].
    do 3 (eapply walks_step; [unfold cmove, ceff; cbn; rewrite D2; reflexivity|]). apply walks_refl.
  - cbn. repeat split; congruence.
Qed.

(** The rest of the way, to the death of the process. *)
Lemma route_walk dyn v t g tsd nc r tr : g_dead g = false ->
  (exists x, r = FRealExit :: x \/ r = FEndLibDyn :: FUExit :: x \/ r = FEndLibDyn :: FSigEnd :: x) ->
  exists k', g_dead (k_g k') = true /\ walks dyn v t (mkcfg r g tsd nc tr) k' /\
    (forall e, In e (EPast t :: EDead t :: tr) -> In e (k_tr k')).
Proof.
  intros D [x R]. destruct g as [heap lst fre chunk pos chunks num inexit used support ftdone shoot lck initp libonce cookie pdone libdone dtor mti calls bad dead].
  cbn in D. subst dead.
  destruct R as [->|[->| ->]]; destruct dyn, libdone, dtor;
    (eexists; split; [|split]; cycle 1;
    [repeat (eapply walks_step; [unfold cmove, ceff; cbn; reflexivity|]); apply walks_refl| |];
    [intros e I; cbn in *; intuition auto|reflexivity]).
Qed.

Lemma not_stuck_free s t : not_stuck s t -> n_self (nd (s_g s) MAIN_TN) <> t \/ free_to_go (s_g s) t.
Proof.
  intros NS. destruct NS as [H|[(n & (A & B & C) & E)|H]]; [right; apply free_intro; left|right; apply free_intro; right|now left].
    - intros n I S F. unfold seen in S. apply andb_prop in S. destruct S as [S1 S2]. apply H; [|exact F].
      split; [exact I|]. split; [|exact S2]. intros X. rewrite X, Z.eqb_refl in S1. discriminate S1.
    - exists n. split; [exact A|]. unfold unbegun, seen. rewrite (proj2 (Z.eqb_neq _ _) B), C, E. reflexivity.
Qed.

Lemma leaves dyn v t how s : leaving s t how -> g_lock (s_g s) = None -> g_cookie (s_g s) = false -> not_stuck s t ->
  exists n, let s' := alone dyn v t n s in g_dead (s_g s') = true /\ In (EDead t) (s_tr s') /\ In (EPast t) (s_tr s') /\
    In (ERet t (CbBeginExit how) v) (s_tr s') /\ exists d, In (ERet t (CbFiniProcess how d) v) (s_tr s').
Proof.
  intros (D & L & x & ST) LK CK NS.
  pose proof (not_stuck_free _ _ NS) as SE.
  assert (X : exists r, th_stack (s_th s t) = FEPGet how :: r /\ exists x, r = FRealExit :: x \/ r = FEndLibDyn :: FUExit :: x \/ r = FEndLibDyn :: FSigEnd :: x)
    by (destruct ST as [E|[E|E]]; rewrite E; (eexists; split; [reflexivity|]); exists x; auto).
  clear x ST. destruct X as (r & ST & R).
  destruct (end_walk dyn v t how (s_g s) (th_tsd (s_th s t)) (th_nc (s_th s t)) r (s_tr s) D LK CK SE) as (g1 & nc1 & d & tr1 & tr2 & (D1 & _) & W1).
  match type of W1 with walks _ _ _ _ (mkcfg _ _ _ _ ?tr) => destruct (route_walk dyn v t g1 (th_tsd (s_th s t)) nc1 r tr D1 R) as (k' & D2 & W2 & I2) end.
  destruct (walks_trans _ _ _ _ _ _ W1 W2) as [n A]. exists n. cbv zeta.
  destruct (A s) as (_ & _ & G & _ & _ & TR); [repeat split; auto|]. rewrite G, TR. split; [exact D2|].
  split; [apply I2; right; now left|]. split; [apply I2; now left|].
  assert (J : forall e, In e [ERet t (CbBeginExit how) v] -> In e (k_tr k')).
  { intros e [<-|[]]. apply I2. right. right. right. right. apply in_or_app. right. now left. }
  split; [apply J; now left|]. exists d. apply I2. right. right. now left.
Qed.

(** Main waits for thread 2, which has begun its fini_thread. *)
Definition waits (s : state) : Prop :=
  exists st g tsd nc tr, at_cfg s 1 (mkcfg st g tsd nc tr) /\ g_dead g = false /\
    exists l r, st = l :: r /\ match l with
      | FSPass _ => g_list g = [1] /\ n_self (nd g 1) = 2 /\ n_appl (nd g 1) = true /\ n_fstart (nd g 1) = true /\ n_fdone (nd g 1) = false
      | FSNode l [1] | FSStarted l 1 [] => sc_un l = 0 /\ sc_uf l = 0 /\ g_list g = [1] /\ n_self (nd g 1) = 2 /\ n_appl (nd g 1) = true /\ n_fstart (nd g 1) = true /\ n_fdone (nd g 1) = false
      | FSDone l 1 [] => sc_un l = 0 /\ sc_uf l = 0 /\ g_list g = [1] /\ n_self (nd g 1) = 2 /\ n_appl (nd g 1) = true /\ n_fstart (nd g 1) = true /\ n_fdone (nd g 1) = false
      | FSNode l [] => sc_un l = 0 /\ sc_uf l = 1 /\ g_list g = [1] /\ n_self (nd g 1) = 2 /\ n_appl (nd g 1) = true /\ n_fstart (nd g 1) = true /\ n_fdone (nd g 1) = false
      | _ => False
      end.

Lemma waits_move dyn v s : waits s -> waits (move dyn v 1 s).
Proof.
  intros (st & g & tsd & nc & tr & A & D & l & r & -> & H).
  assert (X : forall k', cmove dyn v 1 (mkcfg (l :: r) g tsd nc tr) = Some k' -> at_cfg (move dyn v 1 s) 1 k') by (intros; eapply move_cmove; eassumption).
  destruct l; try contradiction H.
  - destruct H as (L & S & AP & F & FD). eexists _, g, tsd, nc, _. split; [apply X; unfold cmove, ceff; cbn; rewrite D, L; reflexivity|].
    split; [exact D|]. eexists _, _. split; [reflexivity|]. cbn. auto 12.
  - destruct rest as [|n [|]]; try (destruct n as [|[]|]; contradiction H).
    + destruct H as (UN & UF & L & S & AP & F & FD).
      destruct (sc_last l <? sc_st l) eqn:E; (eexists _, g, tsd, nc, _; split; [apply X; unfold cmove, ceff; cbn; rewrite D, UF, UN, E; reflexivity|];
      split; [exact D|]; eexists _, _; split; [reflexivity|]; cbn; auto 12).
    + destruct (Z.eq_dec n 1) as [->|N]; [|destruct n as [|[]|]; try contradiction H; now destruct N].
      destruct H as (UN & UF & L & S & AP & F & FD). eexists _, g, tsd, nc, _. split; [apply X; unfold cmove, ceff; cbn; rewrite D, S; cbn; rewrite AP; reflexivity|].
      split; [exact D|]. eexists _, _. split; [reflexivity|]. cbn. auto 12.
  - destruct (Z.eq_dec n 1) as [->|N]; [|destruct n as [|[]|]; try contradiction H; now destruct N].
    destruct rest; [|contradiction H]. destruct H as (UN & UF & L & S & AP & F & FD).
    eexists _, g, tsd, nc, _. split; [apply X; unfold cmove, ceff; cbn; rewrite D, F; reflexivity|].
    split; [exact D|]. eexists _, _. split; [reflexivity|]. cbn. auto 12.
  - destruct (Z.eq_dec n 1) as [->|N]; [|destruct n as [|[]|]; try contradiction H; now destruct N].
    destruct rest; [|contradiction H]. destruct H as (UN & UF & L & S & AP & F & FD).
    eexists _, g, tsd, nc, _. split; [apply X; unfold cmove, ceff; cbn; rewrite D, FD; reflexivity|].
    split; [exact D|]. eexists _, _. split; [reflexivity|]. cbn. rewrite UF. auto 12.
Qed.

(** ** Exit when the exit callbacks are over *)

Lemma over_walk dyn v t g tsd nc r tr how : g_dead g = false -> g_cookie g = true -> g_pdone g = true ->
  (exists x, r = FRealExit :: x \/ r = FEndLibDyn :: FUExit :: x \/ r = FEndLibDyn :: FSigEnd :: x) ->
  exists k' ev, g_dead (k_g k') = true /\ walks dyn v t (mkcfg (FEPGet how :: r) g tsd nc tr) k' /\
    k_tr k' = ev ++ tr /\ In (EDead t) ev /\ existsb exit_call ev = false.
Proof.
  intros D CK PD R.
  assert (X : walks dyn v t (mkcfg (FEPGet how :: r) g tsd nc tr) (mkcfg r (set_g_pdone true g) tsd nc (EExit t how :: tr))).
  { destruct g as [heap lst fre chunk pos chunks num inexit used support ftdone shoot lck initp libonce cookie pdone libdone dtor mti calls bad dead].
    cbn in D, CK, PD. subst.
    remember (get_tn (mkglob heap lst fre chunk pos chunks num inexit used support ftdone shoot lck initp libonce true true libdone dtor mti calls bad false) tsd) as o eqn:O.
    eapply walks_step; [unfold cmove, ceff; cbn [k_st k_g k_tsd k_nc k_tr g_dead is_unwind frame_step auto_step ret calm e_new e_child e_kill e_fr e_g e_tsd e_nc e_ev]; rewrite <- O; reflexivity|].
    destruct o as [m|]; [destruct (n_win (heap m)) eqn:W|].
    - do 3 (eapply walks_step; [unfold cmove, ceff; cbn; rewrite ?W; reflexivity|]); cbn; apply walks_refl.
    - do 4 (eapply walks_step; [unfold cmove, ceff; cbn; rewrite ?W; reflexivity|]); cbn; apply walks_refl.
    - do 4 (eapply walks_step; [unfold cmove, ceff; cbn; reflexivity|]); cbn; apply walks_refl. }
  assert (Y : exists k' ev, g_dead (k_g k') = true /\ walks dyn v t (mkcfg r (set_g_pdone true g) tsd nc (EExit t how :: tr)) k' /\
    k_tr k' = ev ++ EExit t how :: tr /\ In (EDead t) ev /\ existsb exit_call ev = false).
  { clear X. destruct R as [x R]. destruct g as [heap lst fre chunk pos chunks num inexit used support ftdone shoot lck initp libonce cookie pdone libdone dtor mti calls bad dead].
    cbn in D. subst dead.
    destruct R as [->|[->| ->]]; destruct dyn, libdone, dtor;
    (eexists; eexists; split; [|split]; cycle 1;
    [repeat (eapply walks_step; [unfold cmove, ceff; cbn; reflexivity|]); apply walks_refl| |reflexivity];
    split; [first [apply (app_assoc_reverse [_]) | instantiate (1 := [_]); reflexivity | instantiate (1 := [_; _]); reflexivity
       | instantiate (1 := [_; _; _]); reflexivity | instantiate (1 := [_; _; _; _]); reflexivity]|cbn; split; [tauto|reflexivity]]). }
  destruct Y as (k' & ev & D' & W & E & I & N). exists k', (ev ++ [EExit t how]).
  split; [exact D'|]. split; [eapply walks_trans; [exact X|exact W]|]. split; [rewrite E, <- app_assoc; reflexivity|].
  split; [apply in_or_app; now left|]. rewrite existsb_app, N. reflexivity.
Qed.

Lemma over_leaves dyn v t how s : leaving s t how -> g_cookie (s_g s) = true -> g_pdone (s_g s) = true ->
  exists n ev, let s' := alone dyn v t n s in g_dead (s_g s') = true /\ s_tr s' = ev ++ s_tr s /\ In (EDead t) ev /\ existsb exit_call ev = false.
Proof.
  intros (D & L & x & ST) CK PD.
  assert (X : exists r, th_stack (s_th s t) = FEPGet how :: r /\ exists x, r = FRealExit :: x \/ r = FEndLibDyn :: FUExit :: x \/ r = FEndLibDyn :: FSigEnd :: x)
    by (destruct ST as [E|[E|E]]; rewrite E; (eexists; split; [reflexivity|]); exists x; auto).
  clear x ST. destruct X as (r & ST & R).
  destruct (over_walk dyn v t (s_g s) (th_tsd (s_th s t)) (th_nc (s_th s t)) r (s_tr s) how D CK PD R) as (k' & ev & D' & [n A] & E & I & N).
  exists n, ev. cbv zeta. destruct (A s) as (_ & _ & G & _ & _ & TR); [repeat split; auto|]. rewrite G, TR. auto.
Qed.

(** ** An exec that was expected to succeed and is refused *)

Lemma lib_walk dyn v t g tsd nc r tr : g_dead g = false -> exists g' tr',
  g_dead g' = false /\ g_cookie g' = g_cookie g /\ g_pdone g' = g_pdone g /\
  walks dyn v t (mkcfg (FEndLibDyn :: r) g tsd nc tr) (mkcfg r g' tsd nc (tr' ++ tr)).
Proof.
  intros D. destruct g as [heap lst fre chunk pos chunks num inexit used support ftdone shoot lck initp libonce cookie pdone libdone dtor mti calls bad dead].
  cbn in D. subst dead. destruct dyn; [destruct libdone|].
  - eexists _, []. repeat apply conj; cycle 3;
      [do 2 (eapply walks_step; [unfold cmove, ceff; cbn; reflexivity|]); apply walks_refl|reflexivity..].
  - eexists _, [_; _]. repeat apply conj; cycle 3;
      [do 5 (eapply walks_step; [unfold cmove, ceff; cbn; reflexivity|]); apply walks_refl|reflexivity..].
  - eexists _, []. repeat apply conj; cycle 3;
      [eapply walks_step; [unfold cmove, ceff; cbn; reflexivity|]; apply walks_refl|reflexivity..].
Qed.

Lemma refused dyn v s t f r : g_dead (s_g s) = false -> th_live (s_th s t) = true -> th_stack (s_th s t) = f :: r -> open f = true ->
  g_lock (s_g s) = None -> g_cookie (s_g s) = false -> not_stuck s t ->
  exists s1 n, step dyn s t (CCall (AExec true)) = Some s1 /\
    let s2 := alone dyn v t n s1 in
    th_stack (s_th s2 t) = FExec true :: f :: r /\ (exists d, In (ERet t (CbFiniProcess EXIT_EXEC d) v) (s_tr s2)) /\
    exists s3, step dyn s2 t CFail = Some s3 /\ th_stack (s_th s3 t) = f :: r /\
    exists s4 m ev, step dyn s3 t (CCall AExit) = Some s4 /\
      let s5 := alone dyn v t m s4 in
      g_dead (s_g s5) = true /\ s_tr s5 = ev ++ s_tr s3 /\ In (EDead t) ev /\ existsb exit_call ev = false.
Proof.
  intros D L ST O LK CK NS. pose proof (not_stuck_free _ _ NS) as SE. clear NS.
  set (k0 := mkcfg (f :: r) (s_g s) (th_tsd (s_th s t)) (th_nc (s_th s t)) (s_tr s)).
  assert (A0 : at_cfg s t k0) by (repeat split; auto).
  assert (H1 : solo1 dyn t k0 (CCall (AExec true)) = Some (mkcfg (FEPGet EXIT_EXEC :: FEndLibDyn :: FExec true :: f :: r) (s_g s) (th_tsd (s_th s t)) (th_nc (s_th s t)) (s_tr s))).
  { unfold solo1, k0. cbn [k_g k_st]. rewrite D. destruct f; try discriminate O; reflexivity. }
  destruct (solo1_step _ _ _ _ _ _ A0 H1) as (s1 & S1 & A1 & _ & _).
  destruct (end_walk dyn v t EXIT_EXEC (s_g s) (th_tsd (s_th s t)) (th_nc (s_th s t)) (FEndLibDyn :: FExec true :: f :: r) (s_tr s) D LK CK SE)
    as (g1 & nc1 & d & tr1 & tr2 & (D1 & CK1 & PD1) & W1).
  match type of W1 with walks _ _ _ _ (mkcfg _ _ _ _ ?tr) =>
    destruct (lib_walk dyn v t g1 (th_tsd (s_th s t)) nc1 (FExec true :: f :: r) tr D1) as (g2 & tr3 & D2 & CK2 & PD2 & W2) end.
  destruct (walks_trans _ _ _ _ _ _ W1 W2) as [n A]. exists s1, n. split; [exact S1|]. cbv zeta.
  specialize (A s1 A1). split; [exact (proj1 (proj2 A))|].
  assert (TR : s_tr (alone dyn v t n s1) = k_tr (mkcfg (FExec true :: f :: r) g2 (th_tsd (s_th s t)) nc1 (tr3 ++ ERet t (CbFiniProcess EXIT_EXEC d) v :: ECall t (CbFiniProcess EXIT_EXEC d) :: tr1 ++
         ERet t (CbBeginExit EXIT_EXEC) v :: ECall t (CbBeginExit EXIT_EXEC) :: tr2 ++ s_tr s))) by apply A.
  split; [exists d; rewrite TR; cbn [k_tr]; apply in_or_app; right; now left|]. clear TR.
  match type of A with at_cfg _ _ ?k => assert (H2 : solo1 dyn t k CFail = Some (mkcfg (f :: r) g2 (k_tsd k) (k_nc k) (EPast t :: k_tr k)))
    by (unfold solo1; cbn [k_g k_st]; rewrite D2; reflexivity) end.
  destruct (solo1_step _ _ _ _ _ _ A H2) as (s3 & S3 & A3 & _ & _). exists s3. split; [exact S3|]. split; [exact (proj1 (proj2 A3))|].
  match type of A3 with at_cfg _ _ ?k => assert (H4 : solo1 dyn t k (CCall AExit) = Some (mkcfg (FEPGet EXIT_NORMAL :: FRealExit :: f :: r) g2 (k_tsd k) (k_nc k) (k_tr k)))
    by (unfold solo1; cbn [k_g k_st]; rewrite D2; destruct f; try discriminate O; reflexivity) end.
  destruct (solo1_step _ _ _ _ _ _ A3 H4) as (s4 & S4 & A4 & _ & _).
  pose proof A4 as (L4 & ST4 & G4 & _ & _ & TR4). cbn [k_st k_g k_tr] in ST4, G4, TR4.
  destruct (over_leaves dyn v t EXIT_NORMAL s4) as (m & ev & X).
  - split; [now rewrite G4|]. split; [exact L4|]. eexists. left. exact ST4.
  - rewrite G4. congruence.
  - rewrite G4. congruence.
  - exists s4, m, ev. split; [exact S4|]. cbv zeta in *. destruct X as (X1 & X2 & X3).
    pose proof A3 as (_ & _ & _ & _ & _ & TR3). cbn [k_tr] in TR3. rewrite TR3, <- TR4. auto.
Qed.
