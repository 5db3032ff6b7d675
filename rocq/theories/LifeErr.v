(** Proofs about ends of the process inside the C library. *)
From Verif Require Import LifeErrSpec LifeBase LifeFork LifeStop LifeRealFork.

Local Open Scope Z_scope.

Definition Qdt (g : glob) (tr : list event) (t : Z) (f : frame) : Prop :=
  match f with FDtor => exists w, In (EPast w) tr | _ => True end.
Lemma qdt_reach dyn s : reach dyn any s -> fr_inv Qdt s.
Proof.
  assert (MONO : forall g g' tr ev t f, Qdt g tr t f -> Qdt g' (ev ++ tr) t f).
  { intros g g' tr ev t f Q. destruct f; try exact I; cbn in *; try exact Q.
    destruct Q as (w & I). exists w. apply in_or_app. auto. }
  apply fr_reach.
  - intros t f I. cbn in I. rewrite upd_if in I. destruct (t =? MAIN); [|destruct I].
    cbn in I. repeat (destruct I as [<-|I]; [exact Logic.I|]). destruct I.
  - intros g tr t f e t' _ Q. apply (MONO g g tr [e]). exact Q.
  - intros g tr t f I. cbn in I. repeat (destruct I as [<-|I]; [exact Logic.I|]). destruct I.
  - intros. exact Logic.I.
  - clear s. intros s t c f r e R FI _ Hst LV Hfs.
    assert (IN : In f (th_stack (s_th s t))) by (rewrite Hst; now left). specialize (FI t f IN).
    split; [|split].
    + intros f' I. clear Hst LV IN. revert f' I.
      assert (X : forall f', In f' (e_fr e) -> match f' with FDtor => e_ev e = [EPast t] | _ => True end \/ f' = f).
      { fs_cases Hfs; brk Hfs; inversion Hfs; subst; clear Hfs; cbn; intros f' I;
          repeat match type of I with context [if ?b then _ else _] => destruct b; cbn in I end;
          repeat (destruct I as [<-|I]; [try (left; exact Logic.I); try (left; reflexivity); try (right; reflexivity)|]); try (destruct I; fail). }
      intros f' I. destruct (X f' I) as [Y| -> ]; [|apply (MONO _ _ _ _ _ _ FI)].
      destruct f' as []; try exact Logic.I; cbn in *; auto.
      rewrite Y. exists t. now left.
    + intros t' f' _ Q. eapply MONO. exact Q.
    + intros st f' EN I. fs_cases Hfs; brk Hfs; inversion Hfs; subst; clear Hfs; cbn in EN; try discriminate EN; inversion EN; subst;
        cbn in I; repeat (destruct I as [<-|I]; [exact Logic.I|]); destruct I.
Qed.

Lemma dtor_seen dyn s : reach dyn any s -> g_dtor (s_g s) = true -> exists w, In (EPast w) (s_tr s).
Proof.
  apply (reach_invariant dyn any (fun s => g_dtor (s_g s) = true -> exists w, In (EPast w) (s_tr s))).
  - discriminate.
  - clear s. intros s t c s' R H1 HO HS. apply step_view in HS. destruct HS as (_ & LV & V).
    destruct V as [| | | | | | |f r e Hst Hun Hbar Hfs Es']; subst; unfold add_ev; cbn [set_th s_tr s_g app];
      try exact H1; try (intros X; destruct (H1 X) as (w & I); exists w; right; exact I).
    rewrite apply_g, apply_tr. intros X.
    assert (Q : Qdt (s_g s) (s_tr s) t f) by (apply (qdt_reach _ _ R); rewrite Hst; now left).
    assert (Y : g_dtor (s_g s) = true \/ exists w, In (EPast w) (s_tr s)).
    { revert X. clear R Hst LV H1.
      assert (T : forall tsd g, g_dtor (reset_list tsd g) = g_dtor g).
      { intros. unfold reset_list. destruct (g_used g); [|reflexivity]. destruct (get_tn g tsd); [destruct (z =? MAIN_TN)|]; reflexivity. }
      fs_cases Hfs; brk Hfs; inversion Hfs; subst; clear Hfs; cbn; g_brk; cbn; rewrite ?T; auto; intros; congruence. }
    destruct Y as [Y|Y]; [apply H1 in Y|]; destruct Y as (w & I); exists w; apply in_or_app; auto.
Qed.

(** The frames of the end, run alone. *)
Lemma exit_walk dyn v t g tsd nc r tr : g_dead g = false -> exists g',
  g_dead g' = true /\
  walks dyn v t (mkcfg (FRealExit :: r) g tsd nc tr)
    (mkcfg r g' tsd nc (EDead t :: (if dyn && negb (g_dtor g) && negb (g_libdone g) then [ERet t CbFiniLibrary v; ECall t CbFiniLibrary] else []) ++ EPast t :: tr)).
Proof.
  intros D. destruct g as [heap lst fre chunk pos chunks num inexit used support ftdone shoot lck initp libonce cookie pdone libdone dtor mti calls bad dead].
  cbn in D. subst dead. cbn [g_dtor g_libdone]. destruct dyn; [destruct dtor; [|destruct libdone]|]; cbn [andb negb app].
  - eexists. split; cycle 1; [do 4 (eapply walks_step; [unfold cmove, ceff; cbn; reflexivity|]); apply walks_refl|reflexivity].
  - eexists. split; cycle 1; [do 5 (eapply walks_step; [unfold cmove, ceff; cbn; reflexivity|]); apply walks_refl|reflexivity].
  - eexists. split; cycle 1; [do 8 (eapply walks_step; [unfold cmove, ceff; cbn; reflexivity|]); apply walks_refl|reflexivity].
  - eexists. split; cycle 1; [do 4 (eapply walks_step; [unfold cmove, ceff; cbn; reflexivity|]); apply walks_refl|reflexivity].
Qed.
Lemma quick_walk dyn v t g tsd nc r tr : g_dead g = false ->
  walks dyn v t (mkcfg (FUExit :: r) g tsd nc tr) (mkcfg r (set_g_dead true g) tsd nc (EDead t :: EPast t :: tr)).
Proof.
  intros D. eapply walks_step; [unfold cmove, ceff; cbn; rewrite D; reflexivity|]. apply walks_refl.
Qed.

Lemma ends_inside dyn v s t w s1 : end_inside s t w = Some s1 ->
  exists n, let s2 := alone dyn v t n s1 in
    g_dead (s_g s2) = true /\
    s_tr s2 = EDead t :: (if match w with ByExit => dyn && negb (g_dtor (s_g s)) && negb (g_libdone (s_g s)) | ByQuick => false end
                          then [ERet t CbFiniLibrary v; ECall t CbFiniLibrary] else []) ++ EPast t :: s_tr s.
Proof.
  intros H. unfold end_inside in H. destruct (g_dead (s_g s)) eqn:D; [discriminate H|]. destruct (th_live (s_th s t)) eqn:L; [|discriminate H].
  cbn [orb negb] in H. destruct (th_stack (s_th s t)) as [|f r] eqn:ST; [discriminate H|].
  destruct (may_end (s_g s) f w); [|discriminate H]. inversion H; subst s1; clear H.
  set (fr := match w with ByExit => FRealExit | ByQuick => FUExit end).
  assert (A : at_cfg (set_th s t (with_stack (s_th s t) (fr :: f :: r))) t
                (mkcfg (fr :: f :: r) (s_g s) (th_tsd (s_th s t)) (th_nc (s_th s t)) (s_tr s))).
  { unfold at_cfg. cbn. rewrite upd_same. cbn. repeat split; auto. }
  destruct w.
  - destruct (exit_walk dyn v t (s_g s) (th_tsd (s_th s t)) (th_nc (s_th s t)) (f :: r) (s_tr s) D) as (g' & D' & n & W).
    exists n. cbv zeta. specialize (W _ A). destruct W as (_ & _ & G & _ & _ & TR). cbn [k_g k_tr] in G, TR. rewrite G. auto.
  - destruct (quick_walk dyn v t (s_g s) (th_tsd (s_th s t)) (th_nc (s_th s t)) (f :: r) (s_tr s) D) as (n & W).
    exists n. cbv zeta. specialize (W _ A). destruct W as (_ & _ & G & _ & _ & TR). cbn [k_g k_tr] in G, TR. rewrite G. auto.
Qed.
