(** The last thread: proofs for LifeLastProps.v. *)
From Verif Require Import LifeLastSpec.
From Verif Require Export LifeDone.

Local Open Scope Z_scope.

(** ** pthread_exit in the main thread comes after the exit callbacks *)

Definition main_finished (g : glob) (tr : list event) (t : Z) : Prop := t = MAIN -> finished tr.

Lemma exit_local dyn t u g tsd nc f c e : frame_step dyn t u g tsd nc f c = Some e ->
  (look ending is_unwind (e_fr e) = Some true ->
     f = FPExit /\ (forall n, get_tn g tsd = Some n -> n_main (nd g n) = false)) /\
  (look ending is_unwind (e_fr e) = None -> ending f = true -> f = FEPDone) /\
  (forall st, e_new e = Some st -> look ending is_unwind st = None).
Proof.
  intros H. split; [|split].
  - intros L. fs_cases H; brk H; inversion H; subst; clear H; cbn in L |- *; try discriminate L;
      repeat match type of L with context [if ?b then _ else _] => destruct b eqn:?; cbn in L end; try discriminate L;
      (split; [reflexivity|]); intros; congruence.
  - intros L E. fs_cases H; brk H; inversion H; subst; clear H; cbn in L, E |- *; try discriminate L; try discriminate E; try reflexivity;
      repeat match type of L with context [if ?b then _ else _] => destruct b; cbn in L end; try discriminate L; try discriminate E; try reflexivity.
  - intros st E. fs_cases H; brk H; inversion H; subst; clear H; cbn in E; try discriminate; inversion E; reflexivity.
Qed.

Lemma exit_naked dyn s : reach dyn orderly s -> naked_inv ending is_unwind main_finished s.
Proof.
  apply naked_reach; try (intros; discriminate).
  - nk_init.
  - intros g tr t e t' _ F M. now apply (finished_mono _ [e]), F.
  - split; reflexivity.
  - clear s. intros s t c f r e R NI _ Hst LV Hfs HC.
    destruct (exit_local _ _ _ _ _ _ _ _ _ Hfs) as (A & B & C). destruct (done_reach _ _ R) as [_ D].
    split; [|split; [|split]].
    + intros t' F M. apply finished_mono. auto.
    + intros L ->. destruct (A L) as [-> G]. exfalso.
      pose proof (main_reach _ _ (orderly_clean _ _ R)) as [T U (N1 & N2 & _) _].
      assert (E : get_tn (s_g s) (th_tsd (s_th s MAIN)) = Some MAIN_TN).
      { unfold get_tn. destruct (g_used (s_g s)) eqn:US; [|reflexivity]. rewrite (U eq_refl), N2. reflexivity. }
      rewrite (G _ E) in N1. discriminate N1.
    + intros L E M. apply finished_mono. apply (D t). rewrite Hst, (B L E). now left.
    + exact C.
  - clear s. intros s t c f r e R NI _ Hst Hfs HC L M.
    destruct (child_shape _ _ _ _ _ _ _ _ _ Hfs HC) as (_ & _ & _ & _ & EV & _ & _ & SH).
    apply finished_mono. apply (NI t); [|exact M]. rewrite Hst. destruct SH as [(d & -> & EF)|(-> & EF)]; rewrite EF in L; exact L.
Qed.

(** ** The bottom of the main thread's stack *)

Definition root (f : frame) : bool := match f with FMain | FRealExit | FDie => true | _ => false end.

Lemma root_local dyn t u g tsd nc f c e : frame_step dyn t u g tsd nc f c = Some e ->
  root f = true -> g_dead (e_g e) = true \/ existsb root (e_fr e) = true.
Proof.
  intros H R. destruct f; try discriminate R; destruct c; cbn in H; try discriminate H;
    unfold ret, go in H; injection H as <-; cbn; auto.
Qed.

Definition last_inv (s : state) : Prop :=
  (g_dead (s_g s) = true \/ existsb root (th_stack (s_th s MAIN)) = true \/ finished (s_tr s)) /\
  (th_live (s_th s MAIN) = true \/ finished (s_tr s)) /\
  (forall a b, s_tr s = a ++ EEnd MAIN :: b -> finished b).

Lemma no_end dyn t u g tsd nc f c e w : frame_step dyn t u g tsd nc f c = Some e -> ~ In (EEnd w) (e_ev e).
Proof.
  intros H I. fs_cases H; brk H; inversion H; subst; clear H; cbn in I;
    repeat match type of I with context [if ?b then _ else _] => destruct b; cbn in I end;
    repeat (destruct I as [I|I]; [discriminate I|]); destruct I.
Qed.

Lemma end_app ev tr (P : list event -> Prop) : ~ In (EEnd MAIN) ev ->
  (forall a b, tr = a ++ EEnd MAIN :: b -> P b) -> forall a b, ev ++ tr = a ++ EEnd MAIN :: b -> P b.
Proof.
  intros N H. induction ev as [|x ev IH]; intros a b E; [eauto|].
  destruct a as [|y a]; cbn in E; injection E as -> E; [elim N; now left|].
  apply (IH (fun I => N (or_intror I)) a b E).
Qed.

Lemma last_reach dyn s : reach dyn main_not_cancelled s -> last_inv s.
Proof.
  intros RR. assert (K : reach dyn orderly s /\ last_inv s); [|apply K].
  revert s RR. apply reach_invariant.
  - split; [constructor|]. split; [|split]; [right; left; reflexivity|left; reflexivity|].
    intros a b E. destruct a; discriminate E.
  - intros s t c s' _ (R & (I1 & I2 & I3)) (HO & NC) HS. split; [eapply reach_step; eauto|].
    pose proof (exit_naked _ _ R MAIN) as EN. apply step_view in HS. destruct HS as (ND & LV & V).
    assert (FM : forall e, finished (s_tr s) -> finished (e :: s_tr s)) by (intros; now apply (finished_mono _ [e])).
    destruct I1 as [I1|I1]; [congruence|].
    destruct V as [E ->|E ->|E _ _ _ ->|f r E _ SE _ _ ->|f r E SE _ _ ->|r E SE _ ->|E SE ->|f r e SE UN _ FS ->].
    1-4: split; [|split]; cbn [set_th add_ev s_th s_tr s_g app];
      [right; rewrite upd_if; destruct (Z.eqb_spec MAIN t) as [<-|]; cbn [th_stack with_stack existsb root orb];
        destruct I1; auto
      |rewrite upd_if; destruct (Z.eqb_spec MAIN t) as [<-|]; cbn [th_live with_stack]; destruct I2; auto
      |first [exact I3|apply (end_app [EDeliver t] (s_tr s)); [intros [X|[]]; discriminate X|exact I3]]].
    + assert (t <> MAIN) by (intros ->; auto).
      split; [|split]; cbn [set_th s_th s_tr s_g]; rewrite ?(upd_other _ _ _ _ _ (not_eq_sym H)); auto.
    + destruct (Z.eqb_spec t MAIN) as [->|N].
      * assert (F : finished (s_tr s)) by (apply EN; [rewrite SE; reflexivity|reflexivity]).
        split; [|split]; cbn [set_th s_th s_tr s_g]; auto.
      * split; [|split]; cbn [set_th s_th s_tr s_g]; rewrite ?(upd_other _ _ _ _ _ (not_eq_sym N)); auto.
    + destruct (Z.eqb_spec t MAIN) as [->|N].
      * assert (F : finished (s_tr s)) by (destruct I1 as [X|X]; [rewrite SE in X; discriminate X|exact X]).
        split; [|split]; cbn [set_th add_ev s_th s_tr s_g app]; auto.
        intros a b EQ. destruct a as [|x a]; cbn in EQ; inversion EQ; subst; [exact F|eauto].
      * split; [|split]; cbn [set_th add_ev s_th s_tr s_g app]; rewrite ?(upd_other _ _ _ _ _ (not_eq_sym N)).
        -- destruct I1; auto.
        -- destruct I2; auto.
        -- apply (end_app [EEnd t] (s_tr s)); [intros [X|[]]; congruence|exact I3].
    + assert (NX : (MAIN =? s_next s) = false).
      { pose proof (who_next _ (who_reach _ _ (orderly_clean _ _ R))) as W. apply Z.eqb_neq. unfold MAIN. lia. }
      split; [|split].
      * rewrite apply_g, apply_tr. destruct I1 as [X|X]; [|right; right; now apply finished_mono].
        assert (Y : t = MAIN -> g_dead (e_g e) = true \/ existsb root (e_fr e ++ r) = true).
        { intros ->. rewrite SE in X. cbn [existsb] in X. rewrite existsb_app. apply Bool.orb_prop in X. destruct X as [X|X].
          - destruct (root_local _ _ _ _ _ _ _ _ _ FS X) as [Z|Z]; [now left|right; now rewrite Z].
          - right. rewrite X. apply Bool.orb_true_r. }
        destruct (e_child e) eqn:CH.
        -- destruct (child_shape _ _ _ _ _ _ _ _ _ FS CH) as (EC & _ & _ & _ & _ & NN & KK & _).
           rewrite (apply_stack_child _ _ _ _ _ _ CH NN KK).
           assert (t = MAIN) by (destruct HO as ((HO & _) & _); exact (proj1 (HO EC))). subst t.
           rewrite Z.eqb_refl. destruct (Y eq_refl); auto.
        -- rewrite (apply_stack _ _ _ _ _ _ CH), NX, (Z.eqb_sym MAIN t).
           destruct (Z.eqb_spec t MAIN) as [M|M]; [destruct (Y M); destruct (e_new e); auto|destruct (e_new e); auto].
      * rewrite apply_tr. destruct I2 as [X|X]; [left|right; now apply finished_mono].
        destruct (e_child e) eqn:CH.
        -- destruct (child_shape _ _ _ _ _ _ _ _ _ FS CH) as (EC & _ & _ & _ & _ & NN & KK & _).
           assert (t = MAIN) by (destruct HO as ((HO & _) & _); exact (proj1 (HO EC))). subst t.
           unfold apply_eff. rewrite CH, NN, KK. cbn [s_th]. now rewrite upd_same.
        -- rewrite (apply_live _ _ _ _ _ _ CH), NX, X. destruct (e_new e), (MAIN =? t); reflexivity.
      * rewrite apply_tr. apply end_app; [eapply no_end; exact FS|exact I3].
Qed.
