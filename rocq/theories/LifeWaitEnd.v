(** A frame of the exit code above which nothing of the shootdown is left. *)
From Verif Require Export LifeWait.

Local Open Scope Z_scope.

(** As [naked_reach], with the invariant needed only where the frame is uncovered. *)
Section Uncovered.
  Context (dyn : bool) (ok : state -> Z -> choice -> Prop).
  Context (cover mark : frame -> bool) (Cond : glob -> list event -> Z -> Prop).

  Notation look := (look cover mark).
  Notation look_app := (look_app cover mark).

  Definition uncovered_inv (s : state) : Prop :=
    forall t, look (th_stack (s_th s t)) = Some true -> Cond (s_g s) (s_tr s) t.

  Hypothesis N0 : uncovered_inv init.
  Hypothesis Nev : forall g tr t e t', e = EDeliver t' \/ e = EEnd t' ->
    Cond g tr t -> Cond g (e :: tr) t.
  Hypothesis Npush1 : forall g tr t,
    look [FApp AppHandler] = Some true -> Cond g tr t.
  Hypothesis Npush2 : forall g tr t,
    look [FEPGet EXIT_SIGNAL; FEndLibDyn; FSigEnd] = Some true -> Cond g tr t.
  Hypothesis Npush3 : forall g tr t,
    look [FHGet] = Some true -> Cond g tr t.
  Hypothesis Npush4 : forall g tr t,
    look [FWGet] = Some true -> Cond g tr t.
  Hypothesis Nunw : forall n, look [FApp AppTsd] = None /\ look [FClean CLChk n; FApp AppTsd] = None.
  Hypothesis Nstep : forall s t c f r e,
    reach dyn ok s -> uncovered_inv s -> ok s t c -> th_stack (s_th s t) = f :: r ->
    th_live (s_th s t) = true ->
    frame_step dyn t (s_next s) (s_g s) (th_tsd (s_th s t)) (th_nc (s_th s t)) f c = Some e ->
    e_child e = false ->
    (forall t', t' <> t -> Cond (s_g s) (s_tr s) t' -> Cond (e_g e) (e_ev e ++ s_tr s) t') /\
    (cover f = false -> look (e_fr e) = None -> Cond (s_g s) (s_tr s) t -> Cond (e_g e) (e_ev e ++ s_tr s) t) /\
    (look (e_fr e) = Some true -> Cond (e_g e) (e_ev e ++ s_tr s) t) /\
    (look (e_fr e) = None -> cover f = true -> Cond (e_g e) (e_ev e ++ s_tr s) t) /\
    (forall st, e_new e = Some st -> look st = None).
  Hypothesis Nchild : forall s t c f r e,
    reach dyn ok s -> uncovered_inv s -> ok s t c -> th_stack (s_th s t) = f :: r ->
    frame_step dyn t (s_next s) (s_g s) (th_tsd (s_th s t)) (th_nc (s_th s t)) f c = Some e ->
    e_child e = true ->
    look (e_fr e ++ r) = Some true -> Cond (e_g e) (e_ev e ++ s_tr s) t.

  Lemma uncovered_reach s : reach dyn ok s -> uncovered_inv s.
  Proof.
    apply reach_invariant; [exact N0|]. clear s.
    intros s t c s' R HI HO HS. apply step_view in HS. destruct HS as (_ & LV & V).
    destruct V as [| | | | | | |f r e Hst Hun Hbar Hfs Es']; subst; intros t' L.
    - cbn [set_th s_th s_g s_tr] in *. rewrite upd_if in L.
      destruct (Z.eqb_spec t' t); [subst|apply HI; exact L].
      cbn [with_stack th_stack] in L. change (look ([FApp AppHandler] ++ th_stack (s_th s t)) = Some true) in L.
      rewrite look_app in L. destruct (look [FApp AppHandler]) as [[|]|] eqn:E; try discriminate.
      + apply Npush1; auto.
      + auto.
    - cbn [set_th s_th s_g s_tr] in *. rewrite upd_if in L.
      destruct (Z.eqb_spec t' t); [subst|apply HI; exact L].
      cbn [with_stack th_stack] in L.
      change (look ([FEPGet EXIT_SIGNAL; FEndLibDyn; FSigEnd] ++ th_stack (s_th s t)) = Some true) in L.
      rewrite look_app in L.
      destruct (look [FEPGet EXIT_SIGNAL; FEndLibDyn; FSigEnd]) as [[|]|] eqn:E; try discriminate.
      + apply Npush2; auto.
      + auto.
    - unfold add_ev in *. cbn [set_th s_th s_g s_tr app] in *. apply (Nev _ _ _ _ t); [now left|].
      rewrite upd_if in L. destruct (Z.eqb_spec t' t); [subst|apply HI; exact L].
      cbn [th_stack] in L. change (look ([FHGet] ++ th_stack (s_th s t)) = Some true) in L.
      rewrite look_app in L. destruct (look [FHGet]) as [[|]|] eqn:E; try discriminate.
      + apply Npush3; auto.
      + auto.
    - unfold add_ev in *. cbn [set_th s_th s_g s_tr app] in *. apply (Nev _ _ _ _ t); [now left|].
      rewrite upd_if in L. destruct (Z.eqb_spec t' t); [subst|apply HI; exact L].
      cbn [th_stack] in L. change (look ([FWGet] ++ th_stack (s_th s t)) = Some true) in L.
      rewrite look_app in L. destruct (look [FWGet]) as [[|]|] eqn:E; try discriminate.
      + apply Npush4; auto.
      + auto.
    - cbn [set_th s_th s_g s_tr] in *. rewrite upd_if in L.
      destruct (Z.eqb_spec t' t); [subst|apply HI; exact L]. cbn [with_stack th_stack] in L.
      destruct (unwind_shape (th_stack (s_th s t))) as [U|(n & p & U & _)]; rewrite U in L;
        [rewrite (proj1 (Nunw 0)) in L|rewrite (proj2 (Nunw n)) in L]; discriminate.
    - cbn [set_th s_th s_g s_tr] in *. rewrite upd_if in L.
      destruct (Z.eqb_spec t' t); [subst|apply HI; exact L]. cbn [with_stack th_stack] in L.
      destruct (unwind_shape r) as [U|(n & p & U & _)]; rewrite U in L;
        [rewrite (proj1 (Nunw 0)) in L|rewrite (proj2 (Nunw n)) in L]; discriminate.
    - unfold add_ev in *. cbn [set_th s_th s_g s_tr app] in *. apply (Nev _ _ _ _ t); [now right|].
      rewrite upd_if in L. destruct (Z.eqb_spec t' t); [subst; cbn in L; discriminate|apply HI; exact L].
    - rewrite apply_g, apply_tr.
      destruct (e_child e) eqn:HC.
      + destruct (child_shape _ _ _ _ _ _ _ _ _ Hfs HC) as (_ & _ & _ & _ & _ & HN & HK & _).
        rewrite apply_stack_child in L by auto.
        destruct (Z.eqb_spec t' t); [subst|discriminate]. eapply Nchild; eauto.
      + destruct (Nstep _ _ _ _ _ _ R HI HO Hst LV Hfs HC) as (A & A' & B & C & F).
        rewrite apply_stack in L by auto.
        assert (X : look (if t' =? t then e_fr e ++ r else th_stack (s_th s t')) = Some true ->
                    Cond (e_g e) (e_ev e ++ s_tr s) t').
        { destruct (Z.eqb_spec t' t); [subst|intros; apply A, HI; auto].
          rewrite look_app. destruct (look (e_fr e)) as [[|]|] eqn:EL; intros X; try discriminate; auto.
          destruct (cover f) eqn:Ec; [auto|].
          apply A', HI; auto. rewrite Hst. cbn. rewrite Ec. destruct (mark f); auto. }
        destruct (e_new e) as [st|] eqn:EN; auto.
        destruct (Z.eqb_spec t' (s_next s)); auto. rewrite (F st eq_refl) in L. discriminate.
  Qed.
End Uncovered.

Local Open Scope nat_scope.

Definition in_sd (f : frame) : bool := match w_sd f with 0 => false | _ => true end.
Definition at_fini (f : frame) : bool := match f with FEPFini _ => true | _ => false end.
Definition Cwait (g : glob) (tr : list event) (t : Z) : Prop := In (EFreeze t) (image tr) -> waited t tr.

Lemma freeze_ev dyn t u g tsd nc f c e t' : frame_step dyn t u g tsd nc f c = Some e ->
  In (EFreeze t') (e_ev e) -> t' = t /\ exists o, f = FSSet o.
Proof.
  intros H J. fs_cases H; brk H; inversion H; subst; clear H; cbn in J;
    repeat match type of J with context [if ?b then _ else _] => destruct b; cbn in J end;
    repeat (destruct J as [J|J]; [try discriminate J; inversion J; eauto|]); destruct J.
Qed.

Lemma look_local dyn t u g tsd nc f c e : frame_step dyn t u g tsd nc f c = Some e ->
  look in_sd at_fini (e_fr e) <> Some true /\
  (forall st, e_new e = Some st -> look in_sd at_fini st = None) /\
  (look in_sd at_fini (e_fr e) = None -> in_sd f = true -> (f = FSUsed /\ e_ev e = []) \/ (exists o, f = FSRestore o /\ e_ev e = [])).
Proof.
  intros H. repeat split.
  - fs_cases H; brk H; inversion H; subst; clear H; cbn; try discriminate;
      repeat match goal with |- context [if ?b then _ else _] => destruct b; cbn end; try discriminate.
    all: try (destruct k; cbn; discriminate).
  - intros st E. fs_cases H; brk H; inversion H; subst; clear H; cbn in E; try discriminate; inversion E; reflexivity.
  - intros L C. fs_cases H; brk H; inversion H; subst; clear H; cbn in L, C; try discriminate; eauto;
      repeat match type of L with context [if ?b then _ else _] => destruct b; cbn in L end; try discriminate L;
      try (destruct k; discriminate); eauto.
Qed.

Lemma wait_uncovered dyn s : reach dyn orderly s -> uncovered_inv in_sd at_fini Cwait s.
Proof.
  apply uncovered_reach.
  - intros t L. cbn in L. rewrite upd_if in L. destruct (Z.eqb t MAIN); discriminate L.
  - intros g tr t e t' D C F. assert (X : image (e :: tr) = e :: image tr) by (destruct D as [->| ->]; reflexivity).
    rewrite X in F. apply (waited_mono t tr [e]); [intros [Y|[]]; destruct D as [->| ->]; discriminate Y|destruct D as [->| ->]; reflexivity|].
    apply C. destruct F as [F|F]; [destruct D as [->| ->]; discriminate F|exact F].
  - discriminate.
  - discriminate.
  - discriminate.
  - discriminate.
  - split; reflexivity.
  - clear s. intros s t c f r e R NI HO Hst LV Hfs HC. pose proof (orderly_any _ _ R) as RA.
    assert (IN : In f (th_stack (s_th s t))) by (rewrite Hst; now left).
    pose proof (no_fork_ev _ _ _ _ _ _ _ _ _ Hfs HC) as NF.
    destruct (look_local _ _ _ _ _ _ _ _ _ Hfs) as (L1 & L2 & L3).
    assert (KEEP : forall t', ~ In (EPass t') (e_ev e) -> ~ In (EFreeze t') (e_ev e) ->
       Cwait (s_g s) (s_tr s) t' -> Cwait (e_g e) (e_ev e ++ s_tr s) t').
    { intros t' N1 N2 C F. rewrite image_app in F by exact NF. apply in_app_or in F. destruct F as [F|F]; [contradiction|].
      apply waited_mono; auto. }
    split; [|split; [|split; [|split]]].
    + intros t' NE. apply KEEP.
      * intros J. destruct (pass_ev _ _ _ _ _ _ _ _ _ _ Hfs J). contradiction.
      * intros J. destruct (freeze_ev _ _ _ _ _ _ _ _ _ _ Hfs J). contradiction.
    + intros CV _. apply KEEP.
      * intros J. destruct (pass_ev _ _ _ _ _ _ _ _ _ _ Hfs J) as (_ & l & ->). discriminate CV.
      * intros J. destruct (freeze_ev _ _ _ _ _ _ _ _ _ _ Hfs J) as (_ & l & ->). discriminate CV.
    + intros L. contradiction.
    + intros LN CV. destruct (L3 LN CV) as [[-> EV]|(o & -> & EV)]; rewrite EV; cbn [app].
      * intros F. exfalso. eapply frz_none; eauto.
      * intros _. destruct (pass_reach _ _ R t _ IN) as [_ X]. exact X.
    + exact L2.
  - clear s. intros s t c f r e R NI HO Hst Hfs HC L F.
    destruct (child_shape _ _ _ _ _ _ _ _ _ Hfs HC) as (_ & _ & _ & _ & EV & _). rewrite EV in F. destruct F.
Qed.

Definition Jwait (tr : list event) (e : event) : Prop :=
  match e with
  | ECall w (CbFiniProcess _ _) => In (EFreeze w) (image tr) -> waited w tr
  | _ => True
  end.

Lemma wait_hist dyn s : reach dyn orderly s -> hist Jwait (s_tr s).
Proof.
  apply hist_reach; try (intros; exact I).
  clear s. intros s t c f r e R _ _ Hst LV Hfs.
  pose proof (wait_uncovered _ _ R t) as Q. rewrite Hst in Q. cbn [look] in Q.
  clear R Hst LV. q_step; cbn [e_ev justified app] in *; repeat split; cbn in *; auto.
  all: repeat match goal with |- context [if ?x then _ else _] => destruct x end; cbn; repeat split; auto.
  all: try (apply Q; reflexivity).
Qed.
