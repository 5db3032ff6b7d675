(** Registered threads: every listed node belongs to one thread, and every
    registered thread that has not finished its fini_thread has a listed node. *)
From Verif Require Export LifeList.

Local Open Scope nat_scope.

Lemma listed_stack s s' ev :
  listed_inv s -> s_g s' = s_g s -> (forall t, th_tsd (s_th s' t) = th_tsd (s_th s t)) ->
  s_tr s' = ev ++ s_tr s ->
  (existsb resetting (th_stack (s_th s' MAIN)) = false ->
   existsb resetting (th_stack (s_th s MAIN)) = false) ->
  listed_inv s'.
Proof.
  intros [A B] G T TR S. constructor; rewrite ?G, ?TR; [exact A|].
  intros X n I NM. destruct (B (S X) n I NM) as (C & D). rewrite T.
  split; [|exact D]. eapply cl_mono; [apply core_refl|exact C].
Qed.

Lemma unwind_reset st : existsb resetting (unwind st) = false.
Proof. apply unwind_fine; reflexivity. Qed.

(** A listed node's thread exists. *)
Lemma listed_old dyn s n u : reach dyn any s -> cl_fact (s_tr s) u (nd (s_g s) n) -> (u < s_next s)%Z.
Proof.
  intros R (c & q & d & [M _] & _). pose proof (create_once _ _ R u) as C.
  destruct (Z.ltb_spec u (s_next s)) as [L|L]; [exact L|exfalso].
  pose proof (count_in (create_of u) _ _ M) as X. cbn in X. specialize (X (Z.eqb_refl _)). lia.
Qed.

Lemma listed_reach dyn s : reach dyn clean_forks s -> listed_inv s.
Proof.
  apply reach_invariant.
  - constructor; [reflexivity|]. intros _ n [].
  - clear s. intros s t c s' R HI HO HS. pose proof (who_reach _ _ R) as W.
    pose proof (nodes_reach _ _ R) as (N & _ & _). pose proof (main_reach _ _ R) as MI.
    pose proof (data_reach _ _ R) as DA. pose proof (clean_any _ _ R) as RA.
    apply step_view in HS. destruct HS as (_ & LV & V).
    assert (SAME : forall st, (c <> CStep \/ exists x r, th_stack (s_th s t) = x :: r /\ resetting x = false) ->
       existsb resetting (th_stack (upd (s_th s) t (with_stack (s_th s t) st) MAIN)) = false ->
       existsb resetting (th_stack (s_th s MAIN)) = false).
    { intros st D X. rewrite upd_if in X. destruct (Z.eqb_spec MAIN t) as [<-|Y]; [|exact X].
      destruct (existsb resetting (th_stack (s_th s MAIN))) eqn:RS; [exfalso|reflexivity].
      destruct D as [D|(x & r & D1 & D2)].
      - apply D. now apply HO.
      - destruct (who_reset _ W MAIN RS) as (_ & (f & r' & A & B & _) & _). rewrite D1 in A. inversion A; subst.
        congruence. }
    destruct V as [| | | | | | |f r e Hst Hun Hbar Hfs Es'].
    1: { subst. apply (listed_stack s _ []); auto; cbn [set_th s_th s_tr s_g].
         - intros t'. rewrite upd_if. destruct (Z.eqb_spec t' t) as [->|]; reflexivity.
         - apply SAME. left. discriminate. }
    1: { subst. apply (listed_stack s _ []); auto; cbn [set_th s_th s_tr s_g].
         - intros t'. rewrite upd_if. destruct (Z.eqb_spec t' t) as [->|]; reflexivity.
         - apply SAME. left. discriminate. }
    1-2: subst s' c; apply (listed_stack s _ [EDeliver t]); auto; unfold add_ev; cbn [set_th s_th s_tr s_g];
         [intros t'; rewrite upd_if; destruct (Z.eqb_spec t' t) as [->|]; reflexivity|];
         intros X; apply (SAME []); [left; discriminate|]; rewrite upd_if in *;
         destruct (Z.eqb MAIN t); [reflexivity|exact X].
    1: { subst. apply (listed_stack s _ []); auto; cbn [set_th s_th s_tr s_g].
         - intros t'. rewrite upd_if. destruct (Z.eqb_spec t' t) as [->|]; reflexivity.
         - apply SAME. left. discriminate. }
    1: { subst. apply (listed_stack s _ []); auto; cbn [set_th s_th s_tr s_g].
         - intros t'. rewrite upd_if. destruct (Z.eqb_spec t' t) as [->|]; reflexivity.
         - apply SAME. right. eauto. }
    1: { subst. apply (listed_stack s _ [EEnd t]); auto; unfold add_ev; cbn [set_th s_th s_tr s_g].
         - intros t'. rewrite upd_if. destruct (Z.eqb_spec t' t) as [->|]; reflexivity.
         - intros X. rewrite upd_if in X. destruct (Z.eqb_spec MAIN t) as [E0|]; [|exact X].
           match goal with Q : th_stack _ = [] |- _ => rewrite E0, Q; reflexivity end. }
    assert (IN : In f (th_stack (s_th s t))) by (rewrite Hst; now left).
    pose proof (DA t f IN) as QD.
    destruct (list_local _ _ _ _ _ _ _ _ _ Hfs) as (L1 & L2 & L3).
    assert (LU : g_used (e_g e) = false -> g_list (e_g e) = []).
    { intros U. destruct (L1 U) as [U0|RS].
      - pose proof (li_used _ HI U0) as LE.
        destruct L2 as [->|[(n & -> & _)|[(n & -> & ->)|[(old & -> & X & _)|X]]]]; auto.
        + destruct (Z.eq_dec t MAIN) as [->|X].
          * pose proof (who_bt _ W _ IN) as Y. discriminate Y.
          * rewrite (who_alone _ W U0 t X) in LV. discriminate LV.
        + rewrite LE. reflexivity.
        + exfalso. destruct (Z.eq_dec t MAIN) as [->|Y].
          * apply X. apply (mi_self _ MI). right. exists MAIN, (FSMain old). auto.
          * rewrite (who_alone _ W U0 t Y) in LV. discriminate LV.
      - destruct (reset_eff _ _ _ _ _ _ _ _ _ Hfs RS) as [(A & B & C)|(A & B & C)].
        + rewrite B in U. clear L3. destruct L2 as [->|[(n & -> & _)|[(n & -> & ->)|[(old & -> & X & _)|X]]]];
            try discriminate RS; auto. now apply (li_used _ HI).
        + destruct (g_used (s_g s)) eqn:U0; [auto|].
          destruct L2 as [->|[(n & -> & _)|[(n & -> & ->)|[(old & -> & X & _)|X]]]]; try discriminate RS; auto.
          now apply (li_used _ HI). }
    subst s'. constructor; rewrite ?apply_g, ?apply_tr; [exact LU|].
    intros RS' n I NM.
    destruct (e_child e) eqn:HC.
    { exfalso. destruct (child_shape _ _ _ _ _ _ _ _ _ Hfs HC) as (CC & _ & _ & _ & _ & HN & HK & SH).
      destruct (proj1 HO CC) as (-> & _).
      rewrite apply_stack_child in RS' by auto. rewrite Z.eqb_refl in RS'.
      destruct SH as [(d & _ & EF)|(_ & EF)]; rewrite EF in RS'; discriminate RS'. }
    rewrite apply_stack in RS' by auto. pose proof (who_next _ W) as W2.
    assert (RS2 : existsb resetting (if Z.eqb MAIN t then e_fr e ++ r else th_stack (s_th s MAIN)) = false).
    { destruct (e_new e); [|exact RS'].
      destruct (Z.eqb_spec MAIN (s_next s)) as [Y|]; [unfold MAIN in Y; clear - W2 Y; lia|exact RS']. }
    clear RS'. destruct (resetting f) eqn:RS.
    { exfalso. destruct (who_reset _ W t) as (-> & _); [rewrite Hst; cbn; now rewrite RS|].
      rewrite Z.eqb_refl, existsb_app in RS2. apply Bool.orb_false_iff in RS2. destruct RS2 as [RS2 _].
      destruct (reset_eff _ _ _ _ _ _ _ _ _ Hfs RS) as [(A & B & C)|(A & B & C)]; [congruence|].
      rewrite (LU A) in I. destruct I. }
    assert (RS0 : existsb resetting (th_stack (s_th s MAIN)) = false).
    { destruct (existsb resetting (th_stack (s_th s MAIN))) eqn:RM; [exfalso|reflexivity].
      destruct (Z.eqb_spec MAIN t) as [<-|Y]; [|congruence].
      destruct (who_reset _ W MAIN RM) as (_ & (f0 & r' & A & B & _) & _). rewrite Hst in A. inversion A; subst.
      congruence. }
    assert (TS : forall u, (u < s_next s)%Z -> u = t -> th_tsd (s_th s u) = Some n ->
                 (In n (g_list (s_g s))) -> e_tsd e = Some n).
    { intros u LU0 -> TT IL. destruct (tsd_local _ _ _ _ _ _ _ _ _ Hfs) as [T|[(m & ->)|[(q & -> & U)|Y]]].
      - congruence.
      - cbn in QD. destruct QD as [_ QD]. congruence.
      - rewrite (li_used _ HI U) in IL. destruct IL.
      - congruence. }
    assert (OLD : In n (g_list (s_g s)) -> cl_fact (e_ev e ++ s_tr s) (n_self (nd (e_g e) n)) (nd (e_g e) n) /\
       th_tsd (s_th (apply_eff s t (s_th s t) r e) (n_self (nd (e_g e) n))) = Some n).
    { intros IL. destruct (li_fact _ HI RS0 n IL NM) as (CF & TT).
      pose proof (listed_old _ _ _ _ RA CF) as OLDU.
      assert (X : n_self (nd (e_g e) n) = n_self (nd (s_g s) n) /\
                  cl_fact (e_ev e ++ s_tr s) (n_self (nd (s_g s) n)) (nd (e_g e) n)).
      { destruct (holds n f) eqn:HO2.
        - destruct (owner_step _ _ _ _ _ _ _ _ _ _ n Hfs HO2 NM QD IL) as (A & _ & B); auto.
          apply (ni_q _ N t). exact IN.
        - pose proof (heap_local _ _ _ _ _ _ _ _ _ n Hfs NM HO2) as SC. split; [apply SC|].
          eapply cl_mono; eauto. }
      destruct X as (-> & X). split; [exact X|].
      rewrite apply_tsd by auto.
      assert (Y : (if Z.eqb (n_self (nd (s_g s) n)) t then e_tsd e else th_tsd (s_th s (n_self (nd (s_g s) n)))) = Some n).
      { destruct (Z.eqb_spec (n_self (nd (s_g s) n)) t) as [E0|]; [|exact TT]. eapply TS; eauto. }
      destruct (e_new e); [|exact Y].
      destruct (Z.eqb_spec (n_self (nd (s_g s) n)) (s_next s)) as [E0|]; [|exact Y]. clear - OLDU E0. lia. }
    destruct L2 as [E0|[(m & -> & E0)|[(m & -> & E0)|[(old & -> & X & E0)|E0]]]]; rewrite E0 in I.
    + auto.
    + destruct I as [->|I]; [|auto]. clear OLD. cbn in QD. destruct QD as [QD TT].
      assert (X : cl_fact (s_tr s) t (nd (s_g s) n)) by (eapply bt_cl'; [|exact QD]; reflexivity).
      assert (LT : (t < s_next s)%Z) by (eapply listed_old; eauto).
      destruct c; try discriminate Hfs. cbn in Hfs. unfold list_insert in Hfs.
      assert (G : nd (e_g e) n = nd (s_g s) n /\ e_tsd e = th_tsd (s_th s t) /\ e_new e = None).
      { inversion Hfs; subst. cbn. destruct (memb n (g_list (s_g s))); auto. }
      destruct G as (-> & G & EN). pose proof X as (_ & _ & _ & _ & _ & _ & _ & SF & _). rewrite SF.
      split; [eapply cl_mono; [apply core_refl|exact X]|].
      rewrite apply_tsd by auto. rewrite EN, Z.eqb_refl, G. exact TT.
    + apply without_in in I. now apply OLD.
    + destruct I as [I|I]; [congruence|auto].
    + destruct I.
Qed.

(** ** A registered thread has a listed node until its fini_thread returned *)

Definition reg_inv (s : state) : Prop := forall t k,
  In (EReg t k) (s_tr s) -> th_live (s_th s t) = true -> t <> MAIN ->
  (exists n, In n (g_list (s_g s)) /\ n <> MAIN_TN /\ n_self (nd (s_g s) n) = t) \/
  (exists n, In (FBT BTIns n) (th_stack (s_th s t))) \/
  (exists d v, In (ERet t (CbFiniThread d) v) (s_tr s)).

Lemma reg_stack s s' t ev :
  reg_inv s -> s_g s' = s_g s -> s_tr s' = ev ++ s_tr s ->
  (forall x k, ~ In (EReg x k) ev) ->
  (forall t', t' <> t -> s_th s' t' = s_th s t') ->
  (th_live (s_th s t) = true) ->
  (forall n, In (FBT BTIns n) (th_stack (s_th s t)) -> In (FBT BTIns n) (th_stack (s_th s' t))) ->
  reg_inv s'.
Proof.
  intros H G TR NE O LV S t' k I L NM. rewrite TR in I |- *. apply in_app_or in I.
  destruct I as [I|I]; [destruct (NE _ _ I)|].
  assert (L' : th_live (s_th s t') = true).
  { destruct (Z.eq_dec t' t) as [->|X]; [exact LV|]. now rewrite O in L. }
  destruct (H t' k I L' NM) as [A|[(n & A)|(d & v & A)]].
  - left. now rewrite G.
  - right. left. exists n. destruct (Z.eq_dec t' t) as [->|X]; [auto|]. now rewrite O.
  - right. right. exists d, v. rewrite in_app_iff. auto.
Qed.

Lemma reg_ev dyn t u g tsd nc f c e x k :
  frame_step dyn t u g tsd nc f c = Some e -> In (EReg x k) (e_ev e) ->
  x = t /\ (exists n, e_fr e = [FBT BTIns n]).
Proof.
  intros H I. fs_cases H; brk H; inversion H; subst; clear H; cbn in I;
    repeat match type of I with context [if ?b then _ else _] => destruct b; cbn in I end;
    repeat (destruct I as [I|I]; [try discriminate I; inversion I; subst; cbn; eauto|]); try destruct I.
Qed.

Lemma no_ins_locked st n : existsb locked st = false -> ~ In (FBT BTIns n) st.
Proof. intros L I. pose proof (existsb_false_in _ _ _ L I) as X. discriminate X. Qed.

Lemma list_stay dyn t u g tsd nc f c e n :
  frame_step dyn t u g tsd nc f c = Some e -> In n (g_list g) -> resetting f = false ->
  g_used g = true -> In n (g_list (e_g e)) \/ f = FClean CLRemove n.
Proof.
  intros H A NRF USED.
  fs_cases H; try discriminate NRF; brk H; inversion H; subst; clear H; cbn; auto; g_brk; cbn; auto;
    try congruence.
  all: match goal with |- In _ (without ?m _) \/ _ => destruct (Z.eq_dec n m) as [->|Y]; [now right|left] end;
    now apply without_in.
Qed.

Lemma reg_reach dyn s : reach dyn clean_forks s -> reg_inv s.
Proof.
  apply reach_invariant.
  - intros t k [].
  - clear s. intros s t c s' R HI HO HS. pose proof (who_reach _ _ R) as W.
    pose proof (nodes_reach _ _ R) as (N & _ & _). pose proof (listed_reach _ _ R) as LI.
    pose proof (data_reach _ _ R) as DA. pose proof (clean_any _ _ R) as RA.
    pose proof (fini_frames _ _ RA) as FF. pose proof (born_reach _ _ RA) as BO.
    apply step_view in HS. destruct HS as (_ & LV & V).
    destruct V as [| | | |f0 r0 Ec Est Enc Elk|r0 Ec Est Elk| |f r e Hst Hun Hbar Hfs Es']; subst.
    1-2: apply (reg_stack s _ t []); auto; cbn [set_th s_th s_tr s_g];
      [intros t' X; now rewrite upd_other|intros n I; rewrite upd_same; cbn; auto].
    1-2: apply (reg_stack s _ t [EDeliver t]); auto; unfold add_ev; cbn [set_th s_th s_tr s_g];
      [intros x k [X|[]]; discriminate X|intros t' X; now rewrite upd_other|intros n I; rewrite upd_same; cbn; auto].
    1: { apply (reg_stack s _ t []); auto; cbn [set_th s_th s_tr s_g].
         - intros t' X; now rewrite upd_other.
         - intros n I. destruct (no_ins_locked _ _ Elk I). }
    1: { apply (reg_stack s _ t []); auto; cbn [set_th s_th s_tr s_g].
         - intros t' X; now rewrite upd_other.
         - intros n I. rewrite Est in I. destruct I as [I|I]; [discriminate I|]. destruct (no_ins_locked _ _ Elk I). }
    1: { apply (reg_stack s _ t [EEnd t]); auto; unfold add_ev; cbn [set_th s_th s_tr s_g].
         - intros x k [X|[]]; discriminate X.
         - intros t' X; now rewrite upd_other.
         - intros n I. match goal with Q : th_stack _ = [] |- _ => rewrite Q in I; destruct I end. }
    assert (IN : In f (th_stack (s_th s t))) by (rewrite Hst; now left).
    pose proof (DA t f IN) as QD. pose proof (FF t f IN) as QF.
    intros t' k I L NM. rewrite apply_tr, apply_g in *.
    destruct (e_child e) eqn:HC.
    { exfalso. destruct (child_shape _ _ _ _ _ _ _ _ _ Hfs HC) as (CC & _ & _ & _ & _ & HN & HK & SH).
      destruct (proj1 HO CC) as (-> & _). revert L. unfold apply_eff. rewrite HC, HN, HK. cbn [s_th].
      rewrite upd_other by auto. cbn. discriminate. }
    rewrite apply_live in L by auto. rewrite apply_stack by auto.
    apply in_app_or in I. destruct I as [I|I].
    { destruct (reg_ev _ _ _ _ _ _ _ _ _ _ _ Hfs I) as (-> & n & EF).
      right. left. exists n.
      assert (X : In (FBT BTIns n) (e_fr e ++ r)) by (rewrite EF; now left).
      rewrite Z.eqb_refl. destruct (e_new e); [|exact X].
      destruct (Z.eqb_spec t (s_next s)) as [Y|]; [|exact X]. exfalso.
      destruct (born_fresh _ BO (s_next s) (Z.le_refl _)) as (_ & B2 & _). congruence. }
    assert (NX : t' <> s_next s).
    { intros ->. destruct (born_fresh _ BO (s_next s) (Z.le_refl _)) as (_ & _ & B3). exact (B3 _ I eq_refl). }
    assert (L' : th_live (s_th s t') = true).
    { destruct (e_new e); [destruct (Z.eqb_spec t' (s_next s)); [contradiction|]|];
      destruct (Z.eqb_spec t' t); congruence. }
    assert (USED : g_used (s_g s) = true).
    { destruct (g_used (s_g s)) eqn:U; [reflexivity|]. rewrite (who_alone _ W U t' NM) in L'. discriminate L'. }
    assert (NRS : existsb resetting (th_stack (s_th s t)) = false).
    { destruct (existsb resetting (th_stack (s_th s t))) eqn:X; [|reflexivity].
      destruct (who_reset _ W t X) as (_ & _ & Y). rewrite (Y t' NM) in L'. discriminate L'. }
    assert (NRM : existsb resetting (th_stack (s_th s MAIN)) = false).
    { destruct (existsb resetting (th_stack (s_th s MAIN))) eqn:X; [|reflexivity].
      destruct (who_reset _ W MAIN X) as (_ & _ & Y). rewrite (Y t' NM) in L'. discriminate L'. }
    assert (NRF : resetting f = false).
    { rewrite Hst in NRS. cbn in NRS. now apply Bool.orb_false_iff in NRS. }
    destruct (HI t' k I L' NM) as [(n & A & B & C)|[(n & A)|(d & v & A)]].
    + (* listed before *)
      destruct (li_fact _ LI NRM n A B) as (CF & TT).
      assert (KEEP : In n (g_list (e_g e)) -> exists n0, In n0 (g_list (e_g e)) /\ n0 <> MAIN_TN /\
                       n_self (nd (e_g e) n0) = t').
      { intros K. exists n. split; [exact K|]. split; [exact B|]. rewrite <- C.
        destruct (holds n f) eqn:HO2.
        - apply (owner_step _ _ _ _ _ _ _ _ _ _ n Hfs HO2 B QD A); auto. apply (ni_q _ N t). exact IN.
        - apply (heap_local _ _ _ _ _ _ _ _ _ n Hfs B HO2). }
      destruct (list_stay _ _ _ _ _ _ _ _ _ _ Hfs A NRF USED) as [E0 | ->]; [left; now apply KEEP|].
      right. right. cbn in QD, QF. destruct QD as [(c0 & q0 & d0 & M & _ & _ & _ & S & _) _].
      rewrite C in S. subst t'. destruct (QF eq_refl) as (d & v & J). exists d, v. rewrite in_app_iff. auto.
    + (* about to be inserted *)
      destruct (Z.eq_dec t' t) as [->|X].
      * rewrite Hst in A. destruct A as [->|A].
        -- left. exists n. destruct c; try discriminate Hfs. cbn in Hfs. unfold list_insert in Hfs.
           assert (G : nd (e_g e) n = nd (s_g s) n /\ In n (g_list (e_g e))).
           { inversion Hfs; subst. cbn. destruct (memb n (g_list (s_g s))); cbn; auto. }
           destruct G as (G1 & G2). split; [exact G2|]. cbn in QD.
           destruct QD as [(c0 & q0 & d0 & M & _ & _ & _ & S & _) _]. rewrite G1.
           split; [|now apply S].
           intros ->. pose proof (holds_main _ _ _ N IN) as HM. cbn in HM. discriminate HM.
        -- right. left. exists n. rewrite Z.eqb_refl.
           assert (Y : In (FBT BTIns n) (e_fr e ++ r)) by (apply in_or_app; auto).
           destruct (e_new e); [|exact Y]. destruct (Z.eqb_spec t (s_next s)); [contradiction|exact Y].
      * right. left. exists n. destruct (Z.eqb_spec t' t); [contradiction|].
        destruct (e_new e); [|exact A]. destruct (Z.eqb_spec t' (s_next s)); [contradiction|exact A].
    + right. right. exists d, v. rewrite in_app_iff. auto.
Qed.

(** ** A thread whose start routine was entered has tn_appl_started set *)

Definition we_start (e : event) : nat := match e with EStart _ _ _ => 1 | _ => 0 end.

Lemma start_life dyn s t : reach dyn any s -> (life w_start we_start s t <= 1)%nat.
Proof. intros R. revert t. revert s R. apply life_reach; once_tac. Qed.

Definition is_run (f : frame) : bool := match f with FRun _ _ => true | _ => false end.
Definition entered (s : state) (u : Z) : Prop :=
  (exists a b, In (EStart u a b) (s_tr s)) \/ existsb is_run (th_stack (s_th s u)) = true.

Lemma wsum_in {A} (w : A -> nat) l x : In x l -> (w x <= wsum w l)%nat.
Proof. induction l as [|y l IH]; [intros []|]. cbn. intros [->|I]; [lia|]. specialize (IH I). lia. Qed.

(** A thread whose own function still is before the call has not entered. *)
Lemma not_entered dyn s u f : reach dyn any s -> In f (th_stack (s_th s u)) ->
  w_start f = 1%nat -> is_run f = false -> ~ entered s u.
Proof.
  intros R I W NR E. pose proof (start_life dyn s u R) as L. unfold life in L.
  pose proof (wsum_in w_start _ _ I) as A. destruct E as [(a & b & E)|E].
  - pose proof (wsum_in (mine we_start u) _ _ E) as B. unfold mine in B at 1. cbn in B. rewrite Z.eqb_refl in B. lia.
  - apply existsb_exists in E. destruct E as (f' & I' & E).
    assert (X : (2 <= wsum w_start (th_stack (s_th s u)))%nat); [|lia]. clear - I I' W NR E.
    assert (E' : w_start f' = 1%nat) by (destruct f'; try discriminate E; reflexivity).
    induction (th_stack (s_th s u)) as [|y l IH]; [destruct I|]. cbn.
    destruct I as [->|I]; destruct I' as [->|I'].
    + congruence.
    + pose proof (wsum_in w_start _ _ I'). lia.
    + pose proof (wsum_in w_start _ _ I). lia.
    + specialize (IH I I'). lia.
Qed.

Definition appl_inv (s : state) : Prop :=
  existsb resetting (th_stack (s_th s MAIN)) = false ->
  forall n, In n (g_list (s_g s)) -> n <> MAIN_TN -> entered s (n_self (nd (s_g s) n)) ->
  n_appl (nd (s_g s) n) = true.

Lemma start_ev dyn t u g tsd nc f c e x a b :
  frame_step dyn t u g tsd nc f c = Some e -> In (EStart x a b) (e_ev e) -> x = t /\ is_run f = true.
Proof.
  intros H I. fs_cases H; brk H; inversion H; subst; clear H; cbn in I;
    repeat match type of I with context [if ?b then _ else _] => destruct b; cbn in I end;
    repeat (destruct I as [I|I]; [try discriminate I; inversion I; subst; cbn; eauto|]); try destruct I.
Qed.
Lemma run_push dyn t u g tsd nc f c e :
  frame_step dyn t u g tsd nc f c = Some e -> existsb is_run (e_fr e) = true ->
  exists n, f = FBT BTCall n.
Proof.
  intros H I. fs_cases H; brk H; inversion H; subst; clear H; cbn in I;
    repeat match type of I with context [if ?b then _ else _] => destruct b; cbn in I end;
    try discriminate; eauto.
Qed.

Lemma entered_old dyn s t c u : reach dyn clean_forks s -> step dyn s t c <> None ->
  forall s', step dyn s t c = Some s' -> (u < s_next s)%Z -> entered s' u ->
  entered s u \/ (u = t /\ exists n r, th_stack (s_th s t) = FBT BTCall n :: r).
Proof.
  intros R _ s' HS LT E. apply step_view in HS. destruct HS as (_ & LV & V).
  destruct V as [| | | |f0 r0 Ec Est Enc Elk|r0 Ec Est Elk| |f r e Hst Hun Hbar Hfs Es']; subst;
    try (left; revert E; unfold entered, add_ev; cbn [set_th s_th s_tr];
         rewrite upd_if; intros [(a & b & E)|E];
         [left; exists a, b; cbn in E; repeat destruct E as [E|E]; try discriminate E; try destruct E; auto; fail|];
         right; destruct (Z.eqb_spec u t) as [->|]; [|exact E]; cbn in E; auto;
         rewrite unwind_fine in E by reflexivity; discriminate E).
  - left. revert E. unfold entered, add_ev. cbn [set_th s_th s_tr]. intros [(a & b & [E|E])|E]; [discriminate|eauto|].
    rewrite upd_if in E. destruct (Z.eqb u t); [discriminate E|auto].
  - destruct E as [(a & b & E)|E].
    + rewrite apply_tr in E. apply in_app_or in E. destruct E as [E|E]; [|left; left; eauto].
      destruct (start_ev _ _ _ _ _ _ _ _ _ _ _ _ Hfs E) as (-> & F). left. right. rewrite Hst. cbn. now rewrite F.
    + destruct (e_child e) eqn:HC.
      * destruct (child_shape _ _ _ _ _ _ _ _ _ Hfs HC) as (_ & _ & _ & _ & _ & HN & HK & SH).
        rewrite apply_stack_child in E by auto. destruct (Z.eqb_spec u t) as [->|]; [|discriminate E].
        left. right. rewrite Hst. cbn. rewrite existsb_app in E. apply Bool.orb_true_iff in E.
        apply Bool.orb_true_iff. right. destruct E as [E|E]; [|exact E]. exfalso.
        destruct (run_push _ _ _ _ _ _ _ _ _ Hfs E) as (n & ->). clear - Hfs HC.
        destruct c; try discriminate Hfs. cbn in Hfs. inversion Hfs; subst. discriminate HC.
      * rewrite apply_stack in E by auto.
        assert (E' : existsb is_run (if (u =? t)%Z then e_fr e ++ r else th_stack (s_th s u)) = true).
        { destruct (e_new e); [|exact E]. destruct (Z.eqb_spec u (s_next s)); [exfalso; lia|exact E]. }
        clear E. destruct (Z.eqb_spec u t) as [->|]; [|left; now right].
        rewrite existsb_app in E'. apply Bool.orb_true_iff in E'. destruct E' as [E|E].
        -- right. split; [reflexivity|]. destruct (run_push _ _ _ _ _ _ _ _ _ Hfs E) as (n & ->). eauto.
        -- left. right. rewrite Hst. cbn. rewrite E. apply Bool.orb_true_r.
Qed.

Lemma appl_reach dyn s : reach dyn clean_forks s -> appl_inv s.
Proof.
  apply reach_invariant.
  - intros _ n [].
  - clear s. intros s t c s' R HI HO HS. pose proof (who_reach _ _ R) as W.
    pose proof (nodes_reach _ _ R) as (N & _ & _). pose proof (listed_reach _ _ R) as LI.
    pose proof (data_reach _ _ R) as DA. pose proof (clean_any _ _ R) as RA.
    pose proof (born_reach _ _ RA) as BO.
    assert (R' : reach dyn clean_forks s') by (eapply reach_step; eauto).
    assert (RA' : reach dyn any s') by (eapply reach_step; eauto; exact I).
    pose proof (listed_reach _ _ R') as LI'. pose proof (data_reach _ _ R') as DA'.
    pose proof (nodes_reach _ _ R') as (N' & _ & _).
    intros NR n I NM E.
    destruct (li_fact _ LI' NR n I NM) as (CF' & TT').
    set (u := n_self (nd (s_g s') n)) in *.
    pose proof HS as HS0. apply step_view in HS. destruct HS as (_ & LV & V).
    (* a node listed before *)
    assert (OLD : In n (g_list (s_g s)) -> existsb resetting (th_stack (s_th s MAIN)) = false ->
       n_self (nd (s_g s) n) = u -> (n_appl (nd (s_g s) n) = true -> n_appl (nd (s_g s') n) = true) ->
       n_appl (nd (s_g s') n) = true).
    { intros I0 NR0 SE AP. apply AP. destruct (li_fact _ LI NR0 n I0 NM) as (CF & TT).
      rewrite SE in CF, TT.
      destruct (entered_old _ _ _ _ u R (fun X => eq_ind None (fun z => match z with None => True | Some _ => False end) Logic.I _ (eq_trans (eq_sym X) HS0)) _ HS0 (listed_old _ _ _ _ RA CF) E)
        as [E0|(EU & m & r & Hst)].
      - apply HI; auto. now rewrite SE.
      - assert (IN : In (FBT BTCall m) (th_stack (s_th s t))) by (rewrite Hst; now left).
        pose proof (DA t _ IN) as QD. cbn in QD. destruct QD as ((c0 & q0 & d0 & QD) & T0).
        cbn in T0. rewrite <- EU in T0. rewrite T0 in TT. inversion TT; subst m.
        now destruct QD as (_ & _ & _ & _ & _ & _ & X & _). }
    destruct V as [| | | |f0 r0 Ec Est Enc Elk|r0 Ec Est Elk| |f r e Hst Hun Hbar Hfs Es']; subst s'.
    1-7: apply OLD; auto.
    1-7: destruct (existsb resetting (th_stack (s_th s MAIN))) eqn:RS; [exfalso|reflexivity];
      destruct (who_reset _ W MAIN RS) as (_ & (f1 & r1 & A & B & _) & D);
      destruct (Z.eq_dec t MAIN) as [->|X]; [|rewrite (D t X) in LV; discriminate LV];
      pose proof (proj2 HO RS); try congruence.
    1: rewrite Est in A; inversion A; subst; discriminate B.
    (* a frame's step *)
    assert (IN : In f (th_stack (s_th s t))) by (rewrite Hst; now left).
    pose proof (DA t f IN) as QD.
    destruct (list_local _ _ _ _ _ _ _ _ _ Hfs) as (_ & L2 & L3).
    subst u. rewrite apply_g in *.
    destruct (existsb resetting (th_stack (s_th s MAIN))) eqn:RS.
    { exfalso. destruct (who_reset _ W MAIN RS) as (_ & (f1 & r1 & A & B & _) & D).
      destruct (Z.eq_dec t MAIN) as [->|X]; [|rewrite (D t X) in LV; discriminate LV].
      rewrite A in Hst. inversion Hst; subst f1 r1. clear Hst.
      destruct (e_child e) eqn:HC.
      { destruct (child_shape _ _ _ _ _ _ _ _ _ Hfs HC) as (-> & _).
        clear - Hfs B. destruct f; try discriminate; cbn in Hfs; discriminate. }
      rewrite apply_stack in NR by auto.
      assert (NE : existsb resetting (e_fr e) = false).
      { rewrite Z.eqb_refl in NR.
        assert (Y : (MAIN =? s_next s)%Z = false).
        { apply Z.eqb_neq. pose proof (who_next _ W). unfold MAIN. lia. }
        rewrite Y in NR. destruct (e_new e); rewrite existsb_app in NR; apply Bool.orb_false_iff in NR; apply NR. }
      destruct (g_used (s_g s)) eqn:U.
      - rewrite (L3 B NE eq_refl) in I. destruct I.
      - pose proof (li_used _ LI U) as LE.
        destruct L2 as [L2|[(m & -> & _)|[(m & -> & _)|[(old & -> & _)|L2]]]]; try discriminate B.
        + rewrite L2, LE in I. destruct I.
        + rewrite L2 in I. destruct I. }
    assert (HCf : e_child e = true -> False).
    { intros HC. revert CF' TT' E. destruct (child_shape _ _ _ _ _ _ _ _ _ Hfs HC) as (CC & _ & _ & _ & _ & HN & HK & SH).
      clear - NR HC HN HK SH Hfs HO CC. destruct (proj1 HO CC) as (-> & _).
      rewrite apply_stack_child, Z.eqb_refl in NR by auto. exfalso.
      subst c. destruct f; try discriminate Hfs; cbn in Hfs; inversion Hfs; subst; discriminate NR. }
    destruct (In_dec Z.eq_dec n (g_list (s_g s))) as [I0|I0].
    + assert (K : n_self (nd (e_g e) n) = n_self (nd (s_g s) n) /\
                  (n_appl (nd (s_g s) n) = true -> n_appl (nd (e_g e) n) = true)).
      { destruct (holds n f) eqn:HO2.
        - destruct (li_fact _ LI RS n I0 NM) as (CF & _).
          destruct (owner_step _ _ _ _ _ _ _ _ _ _ n Hfs HO2 NM QD I0 (ni_q _ N t f IN) I CF) as (A & B & _). auto.
        - pose proof (heap_local _ _ _ _ _ _ _ _ _ n Hfs NM HO2) as C.
          destruct C as (C1 & _ & _ & _ & _ & _ & _ & C8). rewrite C8. auto. }
      apply OLD; auto; [symmetry|]; apply K.
    + exfalso. destruct L2 as [L2|[(m & -> & L2)|[(m & -> & L2)|[(old & -> & _ & L2)|L2]]]]; rewrite L2 in I.
      * contradiction.
      * destruct I as [->|I]; [|contradiction].
        cbn in QD. destruct QD as ((c0 & q0 & d0 & _ & _ & _ & _ & SE & _) & _). destruct (SE eq_refl) as (SE1 & _).
        assert (SU : n_self (nd (e_g e) n) = t).
        { rewrite <- SE1. destruct c; try discriminate Hfs. cbn in Hfs. unfold list_insert in Hfs.
          inversion Hfs; subst. cbn. destruct (memb n (g_list (s_g s))); reflexivity. }
        rewrite SU in E. revert E. eapply (not_entered _ _ _ (FBT BTUnlock n)); [exact RA'| |reflexivity|reflexivity].
        rewrite apply_stack by (destruct (e_child e); [destruct (HCf eq_refl)|reflexivity]).
        destruct c; try discriminate Hfs. cbn in Hfs. inversion Hfs; subst. cbn [e_new e_fr].
        rewrite Z.eqb_refl. now left.
      * apply without_in in I. tauto.
      * destruct I as [I|I]; [now apply NM|contradiction].
      * destruct I.
Qed.
