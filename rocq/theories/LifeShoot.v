(** What the exit code has seen when it goes on to fini_process. *)
From Verif Require Export LifeFreeze.

Local Open Scope nat_scope.

(** ** Registered threads of the current image, dead or alive *)

Lemma reg_reset dyn s : reach dyn clean_forks s -> existsb resetting (th_stack (s_th s MAIN)) = true ->
  forall u k, ~ In (EReg u k) (image (s_tr s)).
Proof.
  apply (reach_invariant dyn clean_forks (fun s => existsb resetting (th_stack (s_th s MAIN)) = true ->
    forall u k, ~ In (EReg u k) (image (s_tr s)))).
  - intros _ u k [].
  - clear s. intros s t c s' R HI HO HS. pose proof (who_reach _ _ R) as W.
    assert (NB : forall b, In b (th_stack (s_th s MAIN)) -> bt_frame b = false) by (intros b I; exact (who_bt _ W b I)).
    apply step_view in HS. destruct HS as (_ & LV & V).
    assert (UW : forall st, existsb resetting (unwind st) = false).
    { intros st. destruct (unwind_shape st) as [U|(n & p & U & _)]; rewrite U; reflexivity. }
    destruct V as [| | | | | | |f r e Hst Hun Hbar Hfs Es']; subst; cbn [add_ev set_th s_th s_tr app image];
      try (rewrite upd_if; destruct (Z.eqb_spec MAIN t) as [E|E]; cbn; rewrite ?UW, ?E; intros X; try discriminate X;
           intros u k J; try (destruct J as [J|J]; [discriminate J|]); revert J; apply HI; rewrite ?E; exact X).
    intros X u k J. rewrite apply_tr in J.
    destruct (e_child e) eqn:HC.
    { destruct (child_shape _ _ _ _ _ _ _ _ _ Hfs HC) as (_ & _ & _ & _ & EV & _). rewrite EV in J. destruct J. }
    rewrite image_app in J by (eapply no_fork_ev; eauto).
    assert (B : existsb resetting (th_stack (s_th s MAIN)) = true /\ t = MAIN).
    { rewrite apply_stack in X by auto.
      assert (Y : existsb resetting (if (MAIN =? t)%Z then e_fr e ++ r else th_stack (s_th s MAIN)) = true).
      { destruct (e_new e); [|exact X]. destruct (Z.eqb_spec MAIN (s_next s)) as [E|]; [|exact X].
        pose proof (born_next _ (born_reach _ _ (clean_any _ _ R))) as Z. rewrite <- E in Z. unfold MAIN in Z. lia. }
      destruct (Z.eqb_spec MAIN t) as [E|E].
      - split; [|auto]. rewrite E, Hst. apply existsb_exists in Y. destruct Y as (f' & I' & Y). apply in_app_or in I'.
        destruct I' as [I'|I'].
        + cbn. destruct (fz_local _ _ _ _ _ _ _ _ _ Hfs) as (_ & _ & _ & _ & _ & F & _). now rewrite (F HC f' I' Y).
        + apply existsb_exists. exists f'. split; [now right|exact Y].
      - exfalso. destruct (who_reset _ W MAIN Y) as (_ & _ & D). rewrite (D t) in LV by auto. discriminate. }
    destruct B as [B ->]. apply in_app_or in J. destruct J as [J|J]; [|exact (HI B u k J)].
    assert (IN : In f (th_stack (s_th s MAIN))) by (rewrite Hst; now left).
    pose proof (NB f IN) as NBF. clear - Hfs J NBF. fs_cases Hfs; try discriminate NBF; brk Hfs; inversion Hfs; subst; clear Hfs; cbn in J;
      repeat match type of J with context [if ?b then _ else _] => destruct b; cbn in J end;
      repeat (destruct J as [J|J]; [discriminate J|]); destruct J.
Qed.

Definition reg2_inv (s : state) : Prop := forall t k,
  In (EReg t k) (image (s_tr s)) ->
  (exists n, In n (g_list (s_g s)) /\ n <> MAIN_TN /\ n_self (nd (s_g s) n) = t) \/
  (exists n, In (FBT BTIns n) (th_stack (s_th s t))) \/
  fini_returned t (s_tr s).

Lemma reg2_stack s s' t ev :
  reg2_inv s -> s_g s' = s_g s -> s_tr s' = ev ++ s_tr s -> existsb is_fork ev = false ->
  (forall x k, ~ In (EReg x k) ev) ->
  (forall t', t' <> t -> s_th s' t' = s_th s t') ->
  (forall n, In (FBT BTIns n) (th_stack (s_th s t)) -> In (FBT BTIns n) (th_stack (s_th s' t))) ->
  reg2_inv s'.
Proof.
  intros H G TR NF NE O S t' k I. rewrite TR in I |- *. rewrite image_app in I by exact NF. apply in_app_or in I.
  destruct I as [I|I]; [destruct (NE _ _ I)|].
  destruct (H t' k I) as [A|[(n & A)|(d & v & A)]].
  - left. now rewrite G.
  - right. left. exists n. destruct (Z.eq_dec t' t) as [->|X]; [auto|]. now rewrite O.
  - right. right. exists d, v. rewrite in_app_iff. auto.
Qed.

Lemma reg2_reach dyn s : reach dyn clean_forks s -> reg2_inv s.
Proof.
  apply reach_invariant.
  - intros t k [].
  - clear s. intros s t c s' R HI HO HS. pose proof (who_reach _ _ R) as W.
    pose proof (nodes_reach _ _ R) as (N & _ & _). pose proof (listed_reach _ _ R) as LI.
    pose proof (data_reach _ _ R) as DA. pose proof (clean_any _ _ R) as RA.
    pose proof (fini_frames _ _ RA) as FF. pose proof (born_reach _ _ RA) as BO.
    pose proof (reg_reset _ _ R) as RR.
    apply step_view in HS. destruct HS as (_ & LV & V).
    destruct V as [| | | |f0 r0 Ec Est Enc Elk|r0 Ec Est Elk| |f r e Hst Hun Hbar Hfs Es']; subst.
    1-2: apply (reg2_stack s _ t []); auto; cbn [set_th s_th s_tr s_g];
      [intros t' X; now rewrite upd_other|intros n I; rewrite upd_same; cbn; auto].
    1-2: apply (reg2_stack s _ t [EDeliver t]); auto; unfold add_ev; cbn [set_th s_th s_tr s_g];
      [intros x k [X|[]]; discriminate X|intros t' X; now rewrite upd_other|intros n I; rewrite upd_same; cbn; auto].
    1: { apply (reg2_stack s _ t []); auto; cbn [set_th s_th s_tr s_g].
         - intros t' X; now rewrite upd_other.
         - intros n I. destruct (no_ins_locked _ _ Elk I). }
    1: { apply (reg2_stack s _ t []); auto; cbn [set_th s_th s_tr s_g].
         - intros t' X; now rewrite upd_other.
         - intros n I. rewrite Est in I. destruct I as [I|I]; [discriminate I|]. destruct (no_ins_locked _ _ Elk I). }
    1: { apply (reg2_stack s _ t [EEnd t]); auto; unfold add_ev; cbn [set_th s_th s_tr s_g].
         - intros x k [X|[]]; discriminate X.
         - intros t' X; now rewrite upd_other.
         - intros n I. match goal with Q : th_stack _ = [] |- _ => rewrite Q in I; destruct I end. }
    assert (IN : In f (th_stack (s_th s t))) by (rewrite Hst; now left).
    pose proof (DA t f IN) as QD. pose proof (FF t f IN) as QF.
    intros t' k I. rewrite apply_tr, ?apply_g in *.
    destruct (e_child e) eqn:HC.
    { destruct (child_shape _ _ _ _ _ _ _ _ _ Hfs HC) as (_ & _ & _ & _ & EV & _). rewrite EV in I. destruct I. }
    rewrite image_app in I by (eapply no_fork_ev; eauto).
    rewrite apply_stack by auto.
    apply in_app_or in I. destruct I as [I|I].
    { destruct (reg_ev _ _ _ _ _ _ _ _ _ _ _ Hfs I) as (-> & n & EF).
      right. left. exists n.
      assert (X : In (FBT BTIns n) (e_fr e ++ r)) by (rewrite EF; now left).
      rewrite Z.eqb_refl. destruct (e_new e); [|exact X].
      destruct (Z.eqb_spec t (s_next s)) as [Y|]; [|exact X]. exfalso.
      destruct (born_fresh _ BO (s_next s) (Z.le_refl _)) as (_ & B2 & _). congruence. }
    assert (NX : t' <> s_next s).
    { intros ->. destruct (born_fresh _ BO (s_next s) (Z.le_refl _)) as (_ & _ & B3). exact (B3 _ (image_in _ _ I) eq_refl). }
    assert (NRM : existsb resetting (th_stack (s_th s MAIN)) = false).
    { destruct (existsb resetting (th_stack (s_th s MAIN))) eqn:X; [|reflexivity]. destruct (RR eq_refl _ _ I). }
    assert (NRF : resetting f = false).
    { destruct (resetting f) eqn:X; [|reflexivity].
      destruct (who_reset _ W t) as (Y & _); [apply existsb_exists; eauto|]. subst t.
      pose proof (existsb_false_in _ _ _ NRM IN). congruence. }
    destruct (HI t' k I) as [(n & A & B & C)|[(n & A)|(d & v & A)]].
    + (* listed before *)
      destruct (li_fact _ LI NRM n A B) as (CF & TT).
      assert (USED : g_used (s_g s) = true).
      { destruct (g_used (s_g s)) eqn:U; [reflexivity|]. rewrite (li_used _ LI U) in A. destruct A. }
      assert (KEEP : In n (g_list (e_g e)) -> exists n0, In n0 (g_list (e_g e)) /\ n0 <> MAIN_TN /\
                       n_self (nd (e_g e) n0) = t').
      { intros K. exists n. split; [exact K|]. split; [exact B|]. rewrite <- C.
        destruct (holds n f) eqn:HO2.
        - apply (owner_step _ _ _ _ _ _ _ _ _ _ n Hfs HO2 B QD A); auto. apply (ni_q _ N t). exact IN.
        - apply (heap_local _ _ _ _ _ _ _ _ _ n Hfs B HO2). }
      destruct (list_stay _ _ _ _ _ _ _ _ _ _ Hfs A NRF USED) as [E0 | ->]; [left; now apply KEEP|].
      right. right. cbn in QD, QF. destruct QD as [(c0 & q0 & d0 & M & _ & _ & _ & S & _) _].
      rewrite C in S. subst t'. destruct (QF eq_refl) as (d & v & J). exists d, v. rewrite in_app_iff. auto.
    + (* about to be inserted *)
      destruct (Z.eq_dec t' t) as [->|X].
      * rewrite Hst in A. destruct A as [->|A].
        -- left. exists n. destruct c; try discriminate Hfs. cbn in Hfs. unfold list_insert in Hfs.
           assert (G : nd (e_g e) n = nd (s_g s) n /\ In n (g_list (e_g e))).
           { inversion Hfs; subst. cbn. destruct (memb n (g_list (s_g s))); cbn; auto. }
           destruct G as (G1 & G2). split; [exact G2|]. cbn in QD.
           destruct QD as [(c0 & q0 & d0 & M & _ & _ & _ & S & _) _]. rewrite G1.
           split; [|now apply S].
           intros ->. pose proof (holds_main _ _ _ N IN) as HM. cbn in HM. discriminate HM.
        -- right. left. exists n. rewrite Z.eqb_refl.
           assert (Y : In (FBT BTIns n) (e_fr e ++ r)) by (apply in_or_app; auto).
           destruct (e_new e); [|exact Y]. destruct (Z.eqb_spec t (s_next s)); [contradiction|exact Y].
      * right. left. exists n. destruct (Z.eqb_spec t' t); [contradiction|].
        destruct (e_new e); [|exact A]. destruct (Z.eqb_spec t' (s_next s)); [contradiction|exact A].
    + right. right. exists d, v. rewrite in_app_iff. auto.
Qed.
