(** Calls of pthread_create: each has its own number, and each of its callbacks is
    issued at most once; in every schedule. *)
From Verif Require Export LifeThread.

Local Open Scope nat_scope.

Definition call_id (i : Z) (e : event) : bool :=
  match e with ECreateCall _ q => (q_id q =? i)%Z | _ => false end.
Definition call_by (t i : Z) (e : event) : bool :=
  match e with ECreateCall t' q => (t' =? t)%Z && (q_id q =? i)%Z | _ => false end.

Lemma calls_local dyn t u g tsd nc f c e :
  frame_step dyn t u g tsd nc f c = Some e ->
  (exists q, e_ev e = [ECreateCall t q] /\ q_id q = g_calls g /\ g_calls (e_g e) = (g_calls g + 1)%Z) \/
  (g_calls (e_g e) = g_calls g /\ forall t' i, count (call_id i) (e_ev e) = 0 /\ count (call_by t' i) (e_ev e) = 0).
Proof.
  intros H. fs_cases H; brk H; inversion H; subst; clear H; cbn; g_brk; cbn; auto; eauto;
    right; split; auto; intros; repeat match goal with |- context [if ?b then _ else _] => destruct b end; auto.
Qed.

(** Call numbers are not reused. *)
Lemma ids_reach dyn s : reach dyn any s ->
  (0 <= g_calls (s_g s))%Z /\
  forall i, count (call_id i) (s_tr s) <= if Z.ltb i (g_calls (s_g s)) then 1 else 0.
Proof.
  revert s. apply (reach_invariant dyn any (fun s => (0 <= g_calls (s_g s))%Z /\
    forall i, count (call_id i) (s_tr s) <= if Z.ltb i (g_calls (s_g s)) then 1 else 0)).
  - split; [cbn; lia|]. intros i. cbn. lia.
  - intros s t c s' R [H0 HI] _ HS. apply step_view in HS. destruct HS as (_ & LV & V).
    destruct V as [| | | | | | |f r e Hst Hun Hbar Hfs Es']; subst; try (split; [exact H0|exact HI]).
    rewrite apply_g, apply_tr.
    destruct (calls_local _ _ _ _ _ _ _ _ _ Hfs) as [(q & -> & Q & ->)|(-> & Z0)].
    + split; [lia|]. intros i. specialize (HI i). cbn. rewrite Q.
      destruct (Z.eqb_spec (g_calls (s_g s)) i) as [<-|X].
      * rewrite Z.ltb_irrefl in HI. destruct (Z.ltb_spec (g_calls (s_g s)) (g_calls (s_g s) + 1)); lia.
      * destruct (Z.ltb_spec i (g_calls (s_g s))); destruct (Z.ltb_spec i (g_calls (s_g s) + 1)); lia.
    + split; [exact H0|]. intros i. rewrite count_app. destruct (Z0 0%Z i) as [-> _]. apply HI.
Qed.

(** Weights of frames and events that belong to call i. *)
(** The frames of a call know what has happened in it. *)
Definition real_done (t : Z) (q : creq) (tr : list event) : Prop :=
  (exists u, In (ECreate t q u true) tr) \/ In (ECreateFail t q true) tr.
Definition real_ign (t : Z) (q : creq) (tr : list event) : Prop :=
  (exists u, In (ECreate t q u false) tr) \/ In (ECreateFail t q false) tr.
Definition pre_gave (t : Z) (q : creq) (d : Z) (tr : list event) : Prop :=
  d <> IGNORE_NEW_THREAD /\ In (ERet t (CbPreCreate (q_id q)) d) tr.
Definition post_called (t : Z) (q : creq) (tr : list event) : Prop :=
  exists d, In (ECall t (CbPostCreate (q_id q) d)) tr.
Definition Qcre (g : glob) (tr : list event) (t : Z) (f : frame) : Prop :=
  match f with
  | FCb c (KPreCreate q my) => c = CbPreCreate (q_id q)
  | FPCGot q _ d => In (ERet t (CbPreCreate (q_id q)) d) tr
  | FPCLock q _ d | FPCPick q _ d | FPCTake q _ d _ | FPCArray q _ d
  | FPCInc q _ d _ | FPCZero q _ d _ | FPCUnlock q _ d _ | FPCFill q _ d _ => pre_gave t q d tr
  | FPCReal q _ _ => exists d, pre_gave t q d tr
  | FPCPost q _ _ => real_done t q tr
  | FPCEnd q _ => real_done t q tr /\ post_called t q tr
  | FPCRet q => (real_done t q tr /\ post_called t q tr) \/ real_ign t q tr
  | _ => True
  end.

Lemma Qcre_mono g g' tr ev t f : Qcre g tr t f -> Qcre g' (ev ++ tr) t f.
Proof.
  assert (M : forall e, In e tr -> In e (ev ++ tr)) by (intros; rewrite in_app_iff; auto).
  assert (RD : forall q, real_done t q tr -> real_done t q (ev ++ tr)).
  { intros q [(u & A)|A]; [left; exists u|right]; auto. }
  assert (RI : forall q, real_ign t q tr -> real_ign t q (ev ++ tr)).
  { intros q [(u & A)|A]; [left; exists u|right]; auto. }
  assert (PG : forall q d, pre_gave t q d tr -> pre_gave t q d (ev ++ tr)).
  { intros q d [A B]. split; auto. }
  assert (PC : forall q, post_called t q tr -> post_called t q (ev ++ tr)).
  { intros q (d & A). exists d; auto. }
  destruct f; cbn; auto.
  - intros (d & A). exists d. auto.
  - intros [A B]; auto.
  - intros [[A B]|A]; [left|right]; auto.
Qed.

Lemma cre_frames dyn s : reach dyn any s -> fr_inv Qcre s.
Proof.
  apply fr_reach.
  - intros t f I. cbn in I. rewrite upd_if in I. destruct (Z.eqb t MAIN); [|destruct I].
    cbn in I. repeat destruct I as [<-|I]; try exact I. all: destruct I.
  - intros g tr t f e t' _ H. apply (Qcre_mono g g tr [e]). exact H.
  - intros g tr t f I. cbn in I. repeat destruct I as [<-|I]; try exact I. all: destruct I.
  - intros g tr t n f _ _. exact I.
  - intros s0 t c f r e R FI _ Hst LV Hfs.
    assert (QF : Qcre (s_g s0) (s_tr s0) t f) by (apply FI; rewrite Hst; now left).
    split; [|split].
    + clear FI. revert QF. generalize (s_tr s0). intros tr QF.
      fs_cases Hfs; brk Hfs; inversion Hfs; subst; clear Hfs; cbn [e_fr e_ev e_g]; intros f' I';
      cbn in I'; repeat (destruct I' as [<-|I']; [cbn in *; try exact I; auto; try discriminate|]);
      try (destruct I'; fail); eauto.
      * split; [|exact QF]. intros ->. discriminate E.
      * split; [|eexists; now left]. apply (Qcre_mono (s_g s0) (s_g s0) _ [_] t (FPCPost q my n)). exact QF.
      * left. now rewrite QF.
      * right. left. eexists. now left.
      * left. eexists. now left.
      * right. right. now left.
      * right. now left.
    + intros t' f' _ Q. now apply (Qcre_mono (s_g s0)).
    + intros st f' EN I'. revert EN I'. generalize (s_tr s0). intros tr EN I'.
      fs_cases Hfs; brk Hfs; inversion Hfs; subst; clear Hfs; cbn in EN; try discriminate EN;
      inversion EN; subst; clear EN; cbn in I';
      repeat (destruct I' as [<-|I']; [exact I|]); destruct I'.
Qed.

Section Calls.
  Context (dyn : bool) (good : frame -> Prop) (wf : Z -> frame -> nat) (we : Z -> event -> nat).
  Definition calls_inv (s : state) : Prop := forall t i,
    wsum (wf i) (th_stack (s_th s t)) + wsum (fun e => if Z.eqb (actor e) t then we i e else 0) (s_tr s)
    <= count (call_by t i) (s_tr s).

  Hypothesis C0 : forall i t, wsum (wf i) (th_stack (s_th init t)) = 0.
  Hypothesis Cpush : forall i f,
    In f [FApp AppHandler; FEPGet EXIT_SIGNAL; FEndLibDyn; FSigEnd; FHGet; FWGet] -> wf i f = 0.
  Hypothesis Cunw : forall i n, wf i (FApp AppTsd) = 0 /\ wf i (FClean CLChk n) = 0.
  Hypothesis Cev : forall i t, we i (EDeliver t) = 0 /\ we i (EEnd t) = 0.
  Hypothesis Cgood : forall s t f, reach dyn any s -> In f (th_stack (s_th s t)) -> good f.
  Hypothesis Cstep : forall t u g tsd nc f c e i,
    good f -> frame_step dyn t u g tsd nc f c = Some e ->
    wsum (wf i) (e_fr e) + wsum (we i) (e_ev e) <= wf i f + count (call_by t i) (e_ev e) /\
    (forall st, e_new e = Some st -> wsum (wf i) st = 0).

  Lemma unw0 i st : wsum (wf i) (unwind st) = 0.
  Proof.
    destruct (unwind_shape st) as [U|(n & f & U & _)]; rewrite U; cbn;
      destruct (Cunw i 0) as [A _]; try destruct (Cunw i n) as [_ B]; lia.
  Qed.

  Lemma calls_reach s : reach dyn any s -> calls_inv s.
  Proof.
    apply reach_invariant.
    - intros t i. rewrite C0. cbn. lia.
    - clear s. intros s t c s' R HI _ HS. pose proof (born_reach _ _ R) as BO.
      apply step_view in HS. destruct HS as (_ & LV & V).
      assert (P1 : forall i f, In f [FApp AppHandler; FEPGet EXIT_SIGNAL; FEndLibDyn; FSigEnd; FHGet; FWGet] -> wf i f = 0) by exact Cpush.
      destruct V as [| | | | | | |f r e Hst Hun Hbar Hfs Es']; subst; intros t' i; pose proof (HI t' i) as HI'.
      1-7: unfold add_ev; cbn [set_th s_th s_g s_tr app wsum count call_by actor]; rewrite upd_if;
           destruct (Cev i t) as [CE1 CE2]; rewrite ?CE1, ?CE2;
           destruct (Z.eqb_spec t' t); [subst t'|]; rewrite ?Z.eqb_refl;
           cbn [with_stack th_stack wsum]; rewrite ?unw0, ?P1 by (cbn; tauto);
           repeat match goal with |- context [if ?b then 0 else 0] => destruct b end; lia.
      rewrite apply_tr, wsum_app, count_app.
      assert (GF : good f) by (apply (Cgood s t); [exact R|rewrite Hst; now left]).
      destruct (Cstep _ _ _ _ _ _ _ _ i GF Hfs) as (A & B).
      assert (AC : wsum (fun e0 => if Z.eqb (actor e0) t' then we i e0 else 0) (e_ev e) =
                   if Z.eqb t t' then wsum (we i) (e_ev e) else 0).
      { pose proof (ev_actor _ _ _ _ _ _ _ _ _ Hfs) as EA. clear - EA.
        induction (e_ev e) as [|x l IH]; cbn; [now destruct (Z.eqb t t')|].
        rewrite (EA x) by now left. rewrite IH by (intros y I; apply EA; now right).
        destruct (Z.eqb t t'); reflexivity. }
      rewrite AC.
      assert (CB : t' <> t -> count (call_by t' i) (e_ev e) = 0).
      { intros X. destruct (calls_local _ _ _ _ _ _ _ _ _ Hfs) as [(q & -> & _)|(_ & Z0)].
        - cbn. destruct (Z.eqb_spec t t'); [congruence|reflexivity].
        - apply Z0. }
      assert (X : wsum (wf i) (if Z.eqb t' t then e_fr e ++ r else th_stack (s_th s t')) +
        ((if Z.eqb t t' then wsum (we i) (e_ev e) else 0) +
         wsum (fun e0 => if Z.eqb (actor e0) t' then we i e0 else 0) (s_tr s)) <=
        count (call_by t' i) (e_ev e) + count (call_by t' i) (s_tr s)).
      { destruct (Z.eqb_spec t' t) as [->|N].
        - rewrite Z.eqb_refl, wsum_app. rewrite Hst in HI'. cbn [wsum] in HI'. lia.
        - destruct (Z.eqb_spec t t'); [congruence|]. lia. }
      destruct (e_child e) eqn:HC.
      + destruct (child_shape _ _ _ _ _ _ _ _ _ Hfs HC) as (_ & _ & _ & _ & _ & HN & HK & _).
        rewrite apply_stack_child by auto. destruct (Z.eqb t' t); [exact X|]. cbn. lia.
      + rewrite apply_stack by auto. destruct (e_new e) as [st|] eqn:EN; [|exact X].
        destruct (Z.eqb_spec t' (s_next s)) as [->|]; [|exact X].
        rewrite (B st eq_refl).
        assert (Z0 : (s_next s =? t)%Z = false).
        { apply Z.eqb_neq. intros E. destruct (born_fresh _ BO (s_next s) (Z.le_refl _)) as (_ & L & _). congruence. }
        rewrite Z0 in X. lia.
  Qed.
End Calls.

Lemma call_by_id t i tr : count (call_by t i) tr <= count (call_id i) tr.
Proof.
  induction tr as [|e r IH]; [reflexivity|]. cbn.
  destruct e; cbn; try exact IH. destruct (Z.eqb (q_id q) i); [|rewrite Bool.andb_false_r; exact IH].
  destruct (Z.eqb t0 t); cbn; lia.
Qed.

(** ** The stages of one call *)

(** Frames of the call before pre_create is issued, before it returns, before the
    real create, before post_create. *)
Definition id_is (i : Z) (q : creq) : nat := b2n (q_id q =? i)%Z.
Definition w_prec (i : Z) (f : frame) : nat :=
  match f with
  | FPCInit q | FPCInfo q | FPCIgn q _ | FPCSup q _ | FPCSupSet q _ | FPCPre q _ => id_is i q
  | _ => 0
  end.
Definition w_pret (i : Z) (f : frame) : nat :=
  match f with
  | FPCInit q | FPCInfo q | FPCIgn q _ | FPCSup q _ | FPCSupSet q _ | FPCPre q _ => id_is i q
  | FCb (CbPreCreate j) _ => b2n (j =? i)%Z
  | _ => 0
  end.
Definition w_real (i : Z) (f : frame) : nat :=
  match f with
  | FPCInit q | FPCInfo q | FPCIgn q _ | FPCSup q _ | FPCSupSet q _ | FPCPre q _
  | FPCGot q _ _ | FPCReal0 q | FPCLock q _ _ | FPCPick q _ _ | FPCTake q _ _ _ | FPCArray q _ _
  | FPCInc q _ _ _ | FPCZero q _ _ _ | FPCUnlock q _ _ _ | FPCFill q _ _ _ | FPCReal q _ _
  | FCb _ (KPreCreate q _) => id_is i q
  | _ => 0
  end.
Definition w_post (i : Z) (f : frame) : nat :=
  match f with FPCPost q _ _ => id_is i q | _ => w_real i f end.

Definition e_prec (i : Z) (e : event) : bool :=
  match e with ECall _ (CbPreCreate j) => (j =? i)%Z | _ => false end.
Definition e_pret (i : Z) (e : event) : bool :=
  match e with ERet _ (CbPreCreate j) _ => (j =? i)%Z | _ => false end.
Definition e_real (i : Z) (e : event) : bool :=
  match e with ECreate _ q _ _ | ECreateFail _ q _ => (q_id q =? i)%Z | _ => false end.
Definition e_post (i : Z) (e : event) : bool :=
  match e with ECall _ (CbPostCreate j _) => (j =? i)%Z | _ => false end.

Ltac calls_step :=
  let H := fresh in let G := fresh "GF" in intros t u g tsd nc f c e i G H;
  split;
  [ fs_cases H; brk H; inversion H; subst; clear H; cbn in G; try subst; cbn; unfold id_is; rewrite ?Z.eqb_refl; cbn; try lia;
    repeat match goal with
      | |- context [(?a =? ?b)%Z] => destruct (a =? b)%Z; cbn
      | |- context [if ?b then _ else _] => destruct b; cbn
      | |- context [match ?b with _ => _ end] => destruct b; cbn end; try lia
  | intros st EN; fs_cases H; brk H; inversion H; subst; clear H; cbn in EN; try discriminate EN;
    inversion EN; subst; reflexivity ].

Ltac calls_init := intros i t; cbn; rewrite upd_if; destruct (Z.eqb t MAIN); reflexivity.
Ltac calls_push := let J := fresh in intros i f J; cbn in J; destruct J as [<-|[<-|[<-|[<-|[<-|[<-|[]]]]]]]; reflexivity.

Definition stage (dyn : bool) (wf : Z -> frame -> nat) (p : Z -> event -> bool) : Prop :=
  forall s, reach dyn any s -> calls_inv wf (fun i e => b2n (p i e)) s.

Lemma stage_prec dyn : stage dyn w_prec e_prec.
Proof. intros s. apply (calls_reach _ (fun _ => True)); [calls_init|calls_push|split; reflexivity|split; reflexivity|exact (fun _ _ _ _ _ => I)|calls_step]. Qed.
Lemma stage_pret dyn : stage dyn w_pret e_pret.
Proof. intros s. apply (calls_reach _ (fun _ => True)); [calls_init|calls_push|split; reflexivity|split; reflexivity|exact (fun _ _ _ _ _ => I)|calls_step]. Qed.
Lemma stage_real dyn : stage dyn w_real e_real.
Proof. intros s. apply (calls_reach _ (fun _ => True)); [calls_init|calls_push|split; reflexivity|split; reflexivity|exact (fun _ _ _ _ _ => I)|calls_step]. Qed.
Lemma stage_post dyn : stage dyn w_post e_post.
Proof. intros s. apply (calls_reach _ (fun _ => True)); [calls_init|calls_push|split; reflexivity|split; reflexivity|exact (fun _ _ _ _ _ => I)|calls_step]. Qed.

Lemma count_pos_in p tr : 1 <= count p tr -> exists e, In e tr /\ p e = true.
Proof.
  induction tr as [|e r IH]; cbn; [lia|]. destruct (p e) eqn:P; [eauto|]. intros H.
  destruct (IH H) as (x & A & B). eauto.
Qed.

Lemma stage_once dyn wf p s i : stage dyn wf p -> reach dyn any s -> count (p i) (s_tr s) <= 1.
Proof.
  intros ST R. pose proof (ST s R) as C. destruct (ids_reach _ _ R) as (_ & D). specialize (D i).
  assert (D1 : count (call_id i) (s_tr s) <= 1) by (destruct (Z.ltb i (g_calls (s_g s))); lia). clear D.
  set (by_t t := wsum (fun e => if Z.eqb (actor e) t then b2n (p i e) else 0) (s_tr s)).
  assert (B : forall t, by_t t <= count (call_by t i) (s_tr s)).
  { intros t. specialize (C t i). unfold by_t. lia. }
  assert (ALL : forall e, In e (s_tr s) -> p i e = true -> 1 <= by_t (actor e)).
  { intros e I P. unfold by_t.
    pose proof (wsum_in (fun x => if Z.eqb (actor x) (actor e) then b2n (p i x) else 0) _ _ I) as X.
    cbn in X. rewrite Z.eqb_refl, P in X. exact X. }
  destruct (Nat.eq_dec (count (p i) (s_tr s)) 0) as [Z0|NZ]; [lia|].
  destruct (count_pos_in (p i) (s_tr s)) as (e & I & P); [lia|].
  assert (U : forall x, In x (s_tr s) -> p i x = true -> actor x = actor e).
  { intros x J Q. destruct (Z.eq_dec (actor x) (actor e)) as [|N]; [assumption|exfalso].
    pose proof (ALL _ I P) as A1. pose proof (ALL _ J Q) as A2.
    pose proof (B (actor e)) as B1. pose proof (B (actor x)) as B2.
    assert (X : forall t t' tr, t <> t' -> count (call_by t i) tr + count (call_by t' i) tr <= count (call_id i) tr).
    { clear. intros t t' tr N. induction tr as [|y r IH]; [reflexivity|]. cbn. destruct y; cbn; try exact IH.
      destruct (Z.eqb (q_id q) i); rewrite ?Bool.andb_false_r, ?Bool.andb_true_r; [|exact IH].
      destruct (Z.eqb_spec t0 t); destruct (Z.eqb_spec t0 t'); try lia; congruence. }
    specialize (X _ _ (s_tr s) N). lia. }
  assert (E : count (p i) (s_tr s) = by_t (actor e)).
  { unfold by_t. clear - U. induction (s_tr s) as [|x r IH]; [reflexivity|]. cbn.
    rewrite IH by (intros y J; apply U; now right).
    destruct (p i x) eqn:Q; cbn.
    - rewrite (U x (or_introl eq_refl) Q), Z.eqb_refl. reflexivity.
    - destruct (Z.eqb _ _); reflexivity. }
  pose proof (B (actor e)). pose proof (call_by_id (actor e) i (s_tr s)). lia.
Qed.

(** Either the call gets an application thread with callbacks (pre_create returned
    something else than the ignore value), or the real create is called with the
    application's routine; not both. *)
Definition w_alt (i : Z) (f : frame) : nat :=
  match f with
  | FPCInit q | FPCInfo q | FPCIgn q _ | FPCSup q _ | FPCSupSet q _ | FPCPre q _ | FPCReal0 q => id_is i q
  | FPCGot q _ d => if (d =? IGNORE_NEW_THREAD)%Z then id_is i q else 0
  | FCb (CbPreCreate j) _ => b2n (j =? i)%Z
  | _ => 0
  end.
Definition e_alt (i : Z) (e : event) : bool :=
  match e with
  | ERet _ (CbPreCreate j) v => (j =? i)%Z && negb (v =? IGNORE_NEW_THREAD)%Z
  | ECreate _ q _ false | ECreateFail _ q false => (q_id q =? i)%Z
  | _ => false
  end.


Definition pre_ok (f : frame) : Prop :=
  match f with FCb c (KPreCreate q _) => c = CbPreCreate (q_id q) | _ => True end.
Lemma pre_ok_reach dyn s t f : reach dyn any s -> In f (th_stack (s_th s t)) -> pre_ok f.
Proof.
  intros R I. pose proof (cre_frames _ _ R t f I) as Q. destruct f; cbn in *; try exact Logic.I.
  destruct k; try exact Logic.I. exact Q.
Qed.

Lemma stage_alt dyn : stage dyn w_alt e_alt.
Proof.
  intros s. apply (calls_reach _ pre_ok); [calls_init|calls_push|split; reflexivity|split; reflexivity|exact (pre_ok_reach dyn)|].
  calls_step.
Qed.

Lemma two_in p (a b : event) tr : In a tr -> In b tr -> a <> b -> p a = true -> p b = true -> 2 <= count p tr.
Proof.
  intros A B N PA PB. induction tr as [|x r IH]; [destruct A|]. cbn.
  destruct A as [->|A]; destruct B as [->|B].
  - contradiction.
  - rewrite PA. pose proof (count_in _ _ _ B PB). lia.
  - rewrite PB. pose proof (count_in _ _ _ A PA). lia.
  - specialize (IH A B). destruct (p x); lia.
Qed.

Definition Jcre (tr : list event) (e : event) : Prop :=
  match e with
  | ECreate t q _ true | ECreateFail t q true => exists d, pre_gave t q d tr
  | ECall t (CbPostCreate i _) => exists q, i = q_id q /\ real_done t q tr
  | ECreateRet t q => (real_done t q tr /\ post_called t q tr) \/ real_ign t q tr
  | _ => True
  end.

Lemma cre_hist dyn s : reach dyn any s -> hist Jcre (s_tr s).
Proof.
  apply hist_reach; try (intros; exact I).
  intros s0 t c f r e R HI HO Hst LV Hfs.
  assert (IN : In f (th_stack (s_th s0 t))) by (rewrite Hst; now left).
  pose proof (cre_frames _ _ R t f IN) as Q.
  j_step Hfs; cbn in Q |- *; auto.
  all: try (destruct p; exact I).
  all: try (destruct c0; exact I).
  exists q. auto.
Qed.

Lemma one_pre dyn s i t t' d d' : reach dyn any s ->
  In (ERet t (CbPreCreate i) d) (s_tr s) -> In (ERet t' (CbPreCreate i) d') (s_tr s) -> t = t' /\ d = d'.
Proof.
  intros R A B. pose proof (stage_once dyn _ _ s i (stage_pret dyn) R) as O.
  destruct (Z.eq_dec t t') as [->|N]; [destruct (Z.eq_dec d d') as [->|N]; [auto|]|]; exfalso;
    (assert (X : 2 <= count (e_pret i) (s_tr s));
     [eapply two_in; [exact A|exact B|congruence|cbn; apply Z.eqb_refl|cbn; apply Z.eqb_refl]|lia]).
Qed.

(** A thread is created once. *)
Lemma one_create dyn s u c q m c' q' m' : reach dyn any s ->
  In (ECreate c q u m) (s_tr s) -> In (ECreate c' q' u m') (s_tr s) -> c = c' /\ q = q' /\ m = m'.
Proof.
  intros R A B. pose proof (create_once dyn s R u) as O.
  assert (D : ECreate c q u m = ECreate c' q' u m' \/ ECreate c q u m <> ECreate c' q' u m').
  { repeat decide equality; apply Z.eq_dec. }
  destruct D as [E|N]; [inversion E; auto|exfalso].
  assert (X : 2 <= count (create_of u) (s_tr s)).
  { eapply two_in; [exact A|exact B|exact N|cbn; apply Z.eqb_refl|cbn; apply Z.eqb_refl]. }
  destruct (Z.ltb u (s_next s)); lia.
Qed.

(** The ignore value, and its absence. *)
Lemma ignore_value dyn s c q u c' m : reach dyn any s ->
  In (ERet c (CbPreCreate (q_id q)) IGNORE_NEW_THREAD) (s_tr s) ->
  In (ECreate c' q u m) (s_tr s) -> m = false.
Proof.
  intros R A B. destruct m; [exfalso|reflexivity].
  apply in_split in B. destruct B as (l1 & l2 & E). pose proof (cre_hist _ _ R l1 _ l2 E) as (d & N & G).
  destruct (one_pre dyn s (q_id q) c c' IGNORE_NEW_THREAD d R A) as [_ X]; [|congruence].
  rewrite E, in_app_iff. right. now right.
Qed.

Lemma monitored_post dyn s t q d : reach dyn any s ->
  In (ECreateRet t q) (s_tr s) -> pre_gave t q d (s_tr s) -> post_called t q (s_tr s).
Proof.
  intros R A (N & B). apply in_split in A. destruct A as (l1 & l2 & E).
  assert (M : forall e, In e l2 -> In e (s_tr s)) by (intros e I; rewrite E, in_app_iff; right; now right).
  destruct (cre_hist _ _ R l1 _ l2 E) as [(_ & (d' & P))|RI]; [exists d'; auto|exfalso].
  pose proof (stage_once dyn _ _ s (q_id q) (stage_alt dyn) R) as O.
  assert (V : (d =? IGNORE_NEW_THREAD)%Z = false) by now apply Z.eqb_neq.
  assert (X : 2 <= count (e_alt (q_id q)) (s_tr s)).
  { destruct RI as [(u & I)|I]; (eapply two_in; [exact B|exact (M _ I)|discriminate|cbn; rewrite Z.eqb_refl, V; reflexivity|cbn; apply Z.eqb_refl]). }
  lia.
Qed.

Lemma in_before {A} (a : A) tr : In a tr -> exists l r, tr = l ++ a :: r.
Proof. apply in_split. Qed.

Lemma create_when dyn s c q u m l e r : reach dyn any s ->
  In (ECreate c q u m) (s_tr s) -> s_tr s = l ++ e :: r -> actor e = u -> (exists c' q' m', In (ECreate c' q' u m') r) ->
  In (ECreate c q u m) r.
Proof.
  intros R I E A (c' & q' & m' & J).
  destruct (one_create dyn s u c q m c' q' m' R I) as (-> & -> & ->); [|exact J].
  rewrite E, in_app_iff. right. now right.
Qed.

(** Every thread but main was created before it does anything. *)
Lemma live_created dyn s : reach dyn any s -> forall t, th_live (s_th s t) = true ->
  t = MAIN \/ exists c q m, In (ECreate c q t m) (s_tr s).
Proof.
  revert s. apply (reach_invariant dyn any (fun s => forall t, th_live (s_th s t) = true ->
     t = MAIN \/ exists c q m, In (ECreate c q t m) (s_tr s))).
  - intros t. cbn. rewrite upd_if. destruct (Z.eqb_spec t MAIN); [auto|discriminate].
  - intros s t c s' R HI _ HS. apply step_view in HS. destruct HS as (_ & LV & V).
    destruct V as [| | | | | | |f r e Hst Hun Hbar Hfs Es']; subst; intros t' L.
    1-7: unfold add_ev in *; cbn [set_th s_th s_tr app] in *; rewrite upd_if in L;
      (assert (L' : th_live (s_th s t') = true);
        [destruct (Z.eqb_spec t' t) as [EQ|EQ]; [rewrite EQ; exact LV|exact L]|];
       destruct (HI t' L') as [|(c0 & q & m & I)]; [now left|right; exists c0, q, m; cbn; auto]).
    rewrite apply_tr. 
    assert (D : th_live (s_th s t') = true \/ exists st, e_new e = Some st /\ t' = s_next s).
    { destruct (e_child e) eqn:HC.
      - destruct (child_shape _ _ _ _ _ _ _ _ _ Hfs HC) as (_ & _ & _ & _ & _ & HN & HK & _).
        unfold apply_eff in L. rewrite HN, HK, HC in L. cbn [s_th] in L. rewrite upd_if in L.
        destruct (Z.eqb_spec t' t); [subst t'; auto|discriminate L].
      - rewrite apply_live in L by auto. destruct (e_new e) as [st|].
        + destruct (Z.eqb_spec t' (s_next s)); [right; eauto|left]. destruct (Z.eqb_spec t' t); [subst t'; auto|auto].
        + left. destruct (Z.eqb_spec t' t); [subst t'; auto|auto]. }
    destruct D as [L'|(st & EN & ->)].
    + destruct (HI t' L') as [|(c0 & q & m & I)]; [now left|right; exists c0, q, m; rewrite in_app_iff; auto].
    + right. pose proof (create_local _ _ _ _ _ _ _ _ _ Hfs) as CL. rewrite EN in CL.
      destruct CL as (q & m & CL). rewrite CL. exists t, q, m. now left.
Qed.

Lemma act_created dyn s : reach dyn any s ->
  hist (fun tr e => actor e = MAIN \/ exists c q m, In (ECreate c q (actor e) m) tr) (s_tr s).
Proof.
  apply (reach_invariant dyn any (fun s => hist (fun tr e => actor e = MAIN \/ exists c q m, In (ECreate c q (actor e) m) tr) (s_tr s))).
  - intros a e b E. destruct a; discriminate.
  - clear s. intros s t c s' R HI HO HS. apply step_view in HS. destruct HS as (_ & LV & V).
    pose proof (live_created _ _ R t LV) as LC.
    destruct V as [| | | | | | |f r e Hst Hun Hbar Hfs Es']; subst; try exact HI;
      try (cbn; apply hist_cons; auto; fail).
    rewrite apply_tr. pose proof (ev_actor _ _ _ _ _ _ _ _ _ Hfs) as EA. clear Hfs.
    induction (e_ev e) as [|x l IH]; [exact HI|]. cbn. apply hist_cons.
    + apply IH. intros y I. apply EA. now right.
    + rewrite (EA x) by now left. destruct LC as [->|(c0 & q & m & I)]; [now left|right].
      exists c0, q, m. rewrite in_app_iff. auto.
Qed.

Lemma ignored_quiet dyn s c q u : reach dyn clean_forks s -> In (ECreate c q u false) (s_tr s) ->
  (forall k d, ~ In (ECall u (CbInitThread k d)) (s_tr s)) /\
  (forall d, ~ In (ECall u (CbFiniThread d)) (s_tr s)) /\
  (forall st ar, In (EStart u st ar) (s_tr s) -> st = q_start q /\ ar = q_arg q).
Proof.
  intros R I. pose proof (clean_any _ _ R) as RA.
  assert (NM : u <> MAIN) by (intros ->; exact (main_not_created _ _ RA _ _ _ I)).
  assert (B : forall l e r, s_tr s = l ++ e :: r -> actor e = u -> In (ECreate c q u false) r).
  { intros l e r E A. eapply create_when; eauto.
    destruct (act_created _ _ RA l e r E) as [X|X]; [congruence|]. rewrite A in X. exact X. }
  split; [|split].
  - intros k d J. apply in_split in J. destruct J as (l & r & E).
    exact (ign_hist _ _ R l _ r E c q (B _ _ _ E eq_refl)).
  - intros d J. apply in_split in J. destruct J as (l & r & E).
    exact (ign_hist _ _ R l _ r E c q (B _ _ _ E eq_refl)).
  - intros st ar J. apply in_split in J. destruct J as (l & r & E).
    destruct (data_hist _ _ R l _ r E) as (c' & q' & -> & -> & [X|(d & k & v & X & _)]).
    + destruct (one_create dyn s u c q false c' q' false RA I) as (_ & -> & _); [|auto].
      rewrite E, in_app_iff. right. now right.
    + destruct (one_create dyn s u c q false c' q' true RA I) as (_ & _ & Y); [|discriminate Y].
      rewrite E, in_app_iff. right. now right.
Qed.
