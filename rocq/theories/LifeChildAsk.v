(** What the queries answer in the child of fork(). *)
From Verif Require Export LifeFork LifeRealFork.

Local Open Scope Z_scope.

Lemma to_fork dyn s t d f r : g_dead (s_g s) = false -> th_live (s_th s t) = true -> th_stack (s_th s t) = f :: r -> open f = true ->
  exists s0, run dyn s [(t, CCall AFork); (t, CStep); (t, CRet d)] = Some s0 /\ s_g s0 = s_g s /\ th_live (s_th s0 t) = true /\
    th_tsd (s_th s0 t) = th_tsd (s_th s t) /\ th_stack (s_th s0 t) = FForkGo d :: f :: r.
Proof.
  intros D L ST O. unfold run. unfold step at 1. rewrite D, L, ST. cbn [orb negb].
  assert (U : is_unwind f = false) by (destruct f; try discriminate O; reflexivity). rewrite U. cbn [barred].
  assert (F : frame_step dyn t (s_next s) (s_g s) (th_tsd (s_th s t)) (th_nc (s_th s t)) f (CCall AFork) =
    Some (mkeff (s_g s) [FPreFork; f] (th_tsd (s_th s t)) (th_nc (s_th s t)) [] None None false)).
  { destruct f; try discriminate O; reflexivity. }
  rewrite F. cbn [option_map]. unfold step at 1. cbn. rewrite D, upd_same. cbn.
  unfold step. cbn. rewrite D, upd_same. cbn. eexists. split; [reflexivity|]. cbn. rewrite upd_same. cbn. auto.
Qed.

Lemma child_node dyn t d v f r g tsd nc tr : open f = true -> g_dead g = false -> g_libonce g = true ->
  exists g' tsd' tr', solo dyn t (mkcfg (FBPCas d true :: FForkRet :: f :: r) g tsd nc tr) (child_in v) =
    Some (mkcfg (f :: r) g' tsd' nc tr') /\ g_dead g' = false /\ g_used g' = false /\
    nd g' MAIN_TN = set_n_data v (set_n_data d (nd (reset_list tsd g) MAIN_TN)).
Proof.
  intros O D LO. unfold child_in. change (repeat CStep 6) with ([CStep; CStep] ++ repeat CStep 4). rewrite <- app_assoc.
  assert (E1 : solo dyn t (mkcfg (FBPCas d true :: FForkRet :: f :: r) g tsd nc tr) [CStep; CStep] =
    Some (mkcfg (FBPLib d :: FForkRet :: f :: r) (set_node MAIN_TN (set_n_data d) (reset_list tsd (set_g_initp true g)))
      (if g_used g then None else tsd) nc tr)).
  { cbn. unfold solo1. cbn. rewrite D. cbn. rewrite D. reflexivity. }
  rewrite (solo_app _ _ _ _ _ _ E1). clear E1.
  assert (HI : nd (reset_list tsd (set_g_initp true g)) MAIN_TN = nd (reset_list tsd g) MAIN_TN).
  { unfold reset_list. cbn. change (get_tn (set_g_initp true g) tsd) with (get_tn g tsd).
    destruct (g_used g); [|reflexivity]. destruct (get_tn g tsd); [|reflexivity]. destruct (z =? MAIN_TN)%Z; reflexivity. }
  rewrite <- HI. clear HI.
  destruct (reset_facts tsd (set_g_initp true g)) as (F1 & F2 & F3 & _). cbn in F1, F3.
  rewrite D in F1. rewrite LO in F3. clear D LO.
  generalize dependent (reset_list tsd (set_g_initp true g)). intros h F1 F2 F3. generalize (if g_used g then None else tsd). intros tsd'.
  destruct h as [heap lst fre chunk pos chunks num inexit used support ftdone shoot lck initp libonce cookie pdone libdone dtor mti calls bad dead].
  cbn in F1, F2, F3. subst.
  eexists _, _, _. split; [vm_compute; reflexivity|]. split; [reflexivity|]. split; [reflexivity|]. vm_compute. reflexivity.
Qed.

Lemma child_asks dyn s t d v f r k z w : reach dyn any s -> g_dead (s_g s) = false -> th_live (s_th s t) = true ->
  th_stack (s_th s t) = f :: r -> open f = true -> In (ECall w CbInitLibrary) (s_tr s) ->
  asks dyn s t QNum k -> k <> -1 -> asks dyn s t QBottom z ->
  exists s1, run dyn s (fork_child t d v) = Some s1 /\ th_stack (s_th s1 t) = f :: r /\
    asks dyn s1 t QBottom z /\ asks dyn s1 t QData v /\ asks dyn s1 t QThreaded 0 /\
    (reach dyn clean_forks s -> asks dyn s1 t QNum 0).
Proof.
  intros R D L ST O I QN K QB. pose proof (reset_bottom _ _ _ _ _ _ _ D L ST O QN K QB) as RB.
  destruct (to_fork dyn s t d f r D L ST O) as (s0 & S0 & G0 & L0 & T0 & ST0).
  assert (D0 : g_dead (s_g s0) = false) by congruence.
  destruct (fork_step dyn s0 t d (f :: r) D0 L0 ST0) as (sc & SC & AC & _ & _).
  assert (LO : g_libonce (s_g s0) = true) by (rewrite G0; eapply begun_libonce; eassumption).
  destruct (child_node dyn t d v f r (s_g s0) (th_tsd (s_th s0 t)) (th_nc (s_th s0 t)) (EFork t :: s_tr s0) O D0 LO) as (g & tsd & tr & E & F1 & F2 & F3).
  destruct (solo_run _ _ _ _ _ _ AC E) as (s1 & S1 & (B0 & B1 & B2 & _) & _). cbn [k_g k_st] in B1, B2.
  rewrite G0, T0 in F3.
  exists s1. split.
  { unfold fork_child. change (run dyn s ([(t, CCall AFork); (t, CStep); (t, CRet d)] ++ (t, CChild) :: steps t (child_in v)) = Some s1).
    rewrite run_app, S0. cbn [run]. rewrite SC. exact S1. }
  split; [exact B1|].
  assert (A : forall q x, answer g (th_tsd (s_th s1 t)) q = x -> asks dyn s1 t q x).
  { intros q x X. apply (asks_answer dyn s1 t f r); try assumption; rewrite B2; [exact F1|exact X]. }
  split; [|split; [|split]]; try intros RC; apply A; unfold answer, get_tn; rewrite F2; try rewrite F3; cbn; auto.
  eapply real_child_number; eassumption.
Qed.
