(** What thread_post_create is given. *)
From Verif Require Export LifeData LifeCreate.

Local Open Scope nat_scope.

(** The created thread, or what is left of it, before init_thread returns. *)
Definition early (f : frame) : bool :=
  match f with
  | FBT p _ => match p with BTStore _ | BTStarted | BTCall | BTPop => false | _ => true end
  | FCb _ (KInitThread _) => true
  | FClean CLChk _ => true
  | _ => false
  end.

Definition begun (t : Z) (q : creq) (d : Z) (tr : list event) : Prop :=
  exists u k v, In (ECreate t q u true) tr /\ inited u k d v tr.
Definition kept (s : state) (t : Z) (q : creq) (n d : Z) : Prop :=
  n_data (nd (s_g s) n) = d /\ alloc (s_g s) n /\ ~ In n (g_free (s_g s)) /\
  forall t' f', In f' (th_stack (s_th s t')) -> holds n f' = true -> early f' = true /\ In (ECreate t q t' true) (s_tr s).
Definition post_inv (s : state) : Prop := forall t q my n,
  In (FPCPost q my n) (th_stack (s_th s t)) ->
  exists d, given t q d (s_tr s) /\ (begun t q d (s_tr s) \/ kept s t q n d).

Lemma begun_mono t q d ev tr : begun t q d tr -> begun t q d (ev ++ tr).
Proof. intros (u & k & v & A & B). exists u, k, v. split; [rewrite in_app_iff; auto|now apply inited_mono]. Qed.

(** New holders of a node. *)
Lemma holder_new dyn t u g tsd nc f c e n :
  frame_step dyn t u g tsd nc f c = Some e -> Qlist g f ->
  (g_chunks g = g_chunk g + 1 /\ 0 <= g_chunk g /\ 0 <= g_pos g <= TN_ARRAY_SIZE)%Z ->
  (exists f', (In f' (e_fr e) \/ exists st, e_new e = Some st /\ In f' st) /\ holds n f' = true) ->
  holds n f = true \/ In n (g_free g) \/ ~ alloc g n.
Proof.
  intros H Q C (f' & I & HN). unfold alloc, array_node, TN_ARRAY_SIZE in *.
  fs_cases H; brk H; inversion H; subst; clear H; cbn in I;
    repeat match type of I with context [if ?b then _ else _] => destruct b; cbn in I end;
    (destruct I as [I|(st & X & I)]; [|try discriminate X; inversion X; subst; clear X; cbn in I]);
    repeat (destruct I as [<-|I]; [cbn in HN |- *; try discriminate HN; auto|]); try (destruct I; fail);
    try (apply Z.eqb_eq in HN; subst; cbn in Q; auto).
  all: right; right; try (destruct Q as [-> Q]); cbn in *; unfold TN_ARRAY_SIZE in *; try lia.
  all: repeat match goal with X : (_ <? _)%Z = _ |- _ => first [apply Z.ltb_lt in X|apply Z.ltb_ge in X] end; unfold array_node, TN_ARRAY_SIZE in *; lia.
Qed.

Lemma alloc_keep dyn t u g tsd nc f c e n :
  frame_step dyn t u g tsd nc f c = Some e -> g_used g = true -> resetting f = false ->
  (g_chunks g = g_chunk g + 1 /\ 0 <= g_chunk g /\ 0 <= g_pos g <= TN_ARRAY_SIZE)%Z ->
  alloc g n -> alloc (e_g e) n.
Proof.
  intros H U NR C A. destruct (lister f) eqn:L.
  - unfold alloc in *. fs_cases H; try discriminate L; try discriminate NR; brk H; inversion H; subst; clear H; cbn in *;
      try congruence; unfold list_insert, list_delete in *; g_brk; cbn; try lia;
      repeat match goal with X : (_ <? _)%Z = _ |- _ => first [apply Z.ltb_lt in X|apply Z.ltb_ge in X] end; unfold TN_ARRAY_SIZE in *; try lia.
  - destruct (lister_local _ _ _ _ _ _ _ _ _ H L) as ((_ & _ & P & K & _) & _). unfold alloc in *. now rewrite P, K.
Qed.

Lemma free_new dyn t u g tsd nc f c e n :
  frame_step dyn t u g tsd nc f c = Some e -> In n (g_free (e_g e)) -> In n (g_free g) \/ f = FClean CLFree n.
Proof.
  intros H I. destruct (lister f) eqn:L.
  - fs_cases H; try discriminate L; brk H; inversion H; subst; clear H; cbn in *; auto;
      revert I; unfold list_insert, list_delete, reset_list; g_brk; cbn; auto; intros I;
      try (destruct I as [->|I]; auto; fail); try (apply without_in in I; tauto); try (destruct I; fail).
  - destruct (lister_local _ _ _ _ _ _ _ _ _ H L) as ((_ & F & _) & _). rewrite F in I. auto.
Qed.

(** An early holder keeps the data; or init_thread returns, or has returned. *)
Lemma early_step dyn t u g tr tsd nc f c e n :
  frame_step dyn t u g tsd nc f c = Some e -> early f = true -> holds n f = true -> Qdata g tr tsd t f ->
  (n_data (nd (e_g e) n) = n_data (nd g n) /\
   forall f', In f' (e_fr e) -> holds n f' = true -> early f' = true) \/
  exists k d v, inited t k d v (e_ev e ++ tr) /\ exists c q, made c q d t tr.
Proof.
  intros H E HN Q.
  fs_cases H; cbn in E; try discriminate E; cbn in HN; try discriminate HN.
  all: try (apply Z.eqb_eq in HN; subst n0).
  all: brk H; inversion H; subst; clear H; cbn [e_g e_fr e_ev].
  all: try (left; split;
    [first [reflexivity | unfold nd; cbn; g_brk; cbn; rewrite ?upd_same; reflexivity]
    |let I := fresh in intros f' I X; cbn in I; repeat (destruct I as [<-|I]; [first [reflexivity|discriminate X|exact E]|]); destruct I]; fail).
  - right. cbn in Q. destruct Q as [(c0 & q & d & M & _ & _ & MG & _ & _ & _ & AP & _) _].
    exists (n_num (nd g n)), d, (n_data (nd g n)). split; [|eauto]. apply AP.
    rewrite MG in *. destruct (n_appl (nd g n)); [reflexivity|discriminate].
  - right. cbn in Q. destruct Q as ((c1 & q & d & M & _ & _ & _ & _ & _ & _ & D & _) & -> & _). cbn in D.
    exists (n_num (nd g n)), d, v. split; [left; now rewrite D|eauto].
Qed.

Lemma post_new dyn t u g tsd nc f c e q my n :
  frame_step dyn t u g tsd nc f c = Some e ->
  (In (FPCPost q my n) (e_fr e) -> f = FPCReal q my n /\ e_g e = g /\ e_fr e = [FPCPost q my n] /\
    ((e_new e = Some [FBT BTSelf n; FApp AppTsd] /\ e_ev e = [ECreate t q u true]) \/ e_new e = None)) /\
  (forall st, e_new e = Some st -> In (FPCPost q my n) st -> False).
Proof.
  intros H. split.
  - intros I. fs_cases H; brk H; inversion H; subst; clear H; cbn in I;
      repeat match type of I with context [if ?b then _ else _] => destruct b; cbn in I end;
      repeat (destruct I as [I|I]; [try discriminate I; inversion I; subst; cbn; auto 6|]); try (destruct I; fail).
  - intros st EN I. fs_cases H; brk H; inversion H; subst; clear H; cbn in EN; try discriminate EN; inversion EN; subst;
      repeat (destruct I as [I|I]; [discriminate I|]); destruct I.
Qed.

Lemma stack_post s s' t st :
  s_g s' = s_g s -> (forall e, In e (s_tr s) -> In e (s_tr s')) ->
  (forall t', t' <> t -> th_stack (s_th s' t') = th_stack (s_th s t')) -> th_stack (s_th s' t) = st ->
  (forall f, In f st -> In f (th_stack (s_th s t)) \/ (forall n, holds n f = false) /\ creating f = false \/
     exists n p, f = FClean CLChk n /\ pushed_frame n p /\ In p (th_stack (s_th s t))) ->
  post_inv s -> post_inv s'.
Proof.
  intros G TR OS ST H P t1 q my n I.
  assert (I0 : In (FPCPost q my n) (th_stack (s_th s t1))).
  { destruct (Z.eq_dec t1 t) as [->|N]; [|now rewrite OS in I]. rewrite ST in I.
    destruct (H _ I) as [J|[(_ & J)|(m & p & J & _)]]; [exact J|discriminate J|discriminate J]. }
  destruct (P t1 q my n I0) as (d & GV & [(u & k & v & A & B)|(K1 & K2 & K3 & K4)]); exists d; (split; [apply TR; exact GV|]).
  - left. exists u, k, v. split; apply TR; auto.
  - right. unfold kept. rewrite G. repeat (split; [assumption|]). intros t' f' I' HN.
    destruct (Z.eq_dec t' t) as [->|N].
    + rewrite ST in I'. destruct (H _ I') as [J|[(J & _)|(m & p & -> & PF & J)]].
      * destruct (K4 _ _ J HN). auto.
      * rewrite J in HN. discriminate HN.
      * cbn in HN. apply Z.eqb_eq in HN. subst m. split; [reflexivity|]. apply TR. apply (K4 t p J).
        destruct PF as [(x & -> & _)|(x & ->)]; cbn; apply Z.eqb_refl.
    + rewrite OS in I' by auto. destruct (K4 _ _ I' HN). auto.
Qed.

Lemma post_reach dyn s : reach dyn clean_forks s -> post_inv s.
Proof.
  apply reach_invariant.
  - intros t q my n I. cbn in I. rewrite upd_if in I. destruct (Z.eqb t MAIN); [|destruct I].
    repeat (destruct I as [I|I]; [discriminate I|]). destruct I.
  - clear s. intros s t c s' R HI HO HS. pose proof HS as HS0. apply step_view in HS. destruct HS as (_ & LV & V).
    assert (UW : forall l, (forall f, In f l -> In f (th_stack (s_th s t))) -> forall f, In f (unwind l) -> 
      In f (th_stack (s_th s t)) \/ (forall n, holds n f = false) /\ creating f = false \/
      exists n p, f = FClean CLChk n /\ pushed_frame n p /\ In p (th_stack (s_th s t))).
    { intros l IL f I. destruct (unwind_shape l) as [U|(n & p & U & IB & P)]; rewrite U in I.
      - destruct I as [<-|[]]. right. left. auto.
      - destruct I as [<-|[<-|[]]]; [|right; left; auto]. right. right. exists n, p. auto. }
    destruct V as [| | | |f1 r1 Ec Est Enc Elk|r1 Ec Est Elk| |f r e Hst Hun Hbar Hfs Es'].
    1-7: subst; eapply (stack_post s _ t); [reflexivity|cbn; auto|intros t' N; cbn; now rewrite upd_other|cbn; rewrite upd_same; reflexivity| |exact HI].
    + intros f [<-|I]; auto.
    + intros f [<-|[<-|[<-|I]]]; auto.
    + intros f [<-|I]; auto.
    + intros ff [<-|I]; auto.
    + apply UW; auto.
    + apply UW. intros f I. rewrite Est. now right.
    + intros f [].
    + subst s'. pose proof (clean_any _ _ R) as RA. pose proof (who_reach _ _ R) as W.
      pose proof (nodes_reach _ _ R) as (N & _ & _).
      assert (IN : In f (th_stack (s_th s t))) by (rewrite Hst; now left).
      pose proof (ni_q _ N t f IN) as QL. pose proof (ni_chunk _ N) as CH. pose proof (data_reach _ _ R t f IN) as QD.
      assert (OLD : e_child e = false -> forall t1 q my n, In (FPCPost q my n) (th_stack (s_th s t1)) -> post_inv s ->
        exists d, given t1 q d (e_ev e ++ s_tr s) /\
          (begun t1 q d (e_ev e ++ s_tr s) \/
           (n_data (nd (e_g e) n) = d /\ alloc (e_g e) n /\ ~ In n (g_free (e_g e)) /\
            forall t' f', In f' (th_stack (s_th (apply_eff s t (s_th s t) r e) t')) -> holds n f' = true ->
              early f' = true /\ In (ECreate t1 q t' true) (e_ev e ++ s_tr s)))).
      { intros HC t1 q my n J _. destruct (HI t1 q my n J) as (d & GV & [B|(K1 & K2 & K3 & K4)]);
          exists d; (split; [now apply given_mono|]); [left; now apply begun_mono|].
        assert (U : g_used (s_g s) = true) by (eapply who_create; [exact W|exact J|reflexivity]).
        assert (NR : resetting f = false).
        { destruct (resetting f) eqn:E; [|reflexivity]. exfalso.
          destruct (who_reset _ W t) as (-> & (f0 & r0 & E0 & _ & _ & CR) & DD); [rewrite Hst; cbn; now rewrite E|].
          destruct (Z.eq_dec t1 MAIN) as [->|NM].
          - rewrite E0 in J. destruct J as [->|J]; [rewrite Hst in E0; inversion E0; subst; discriminate E|].
            pose proof (existsb_false_in _ _ _ CR J) as X. discriminate X.
          - rewrite (who_dead _ W t1 (DD t1 NM)) in J. destruct J. }
        assert (AL : alloc (e_g e) n) by (eapply alloc_keep; eauto).
        assert (MN : n <> MAIN_TN) by (intros ->; unfold alloc, MAIN_TN in K2; clear - K2; lia).
        destruct (holds n f) eqn:HF.
        - destruct (K4 t f IN HF) as (EA & EC).
          destruct (early_step _ _ _ _ _ _ _ _ _ _ _ Hfs EA HF QD) as [(DS & EF)|(k & d1 & v & IV & c1 & q1 & M1 & M2)].
          + right. split; [now rewrite DS|]. split; [exact AL|]. split.
            { intros X. destruct (free_new _ _ _ _ _ _ _ _ _ _ Hfs X) as [X'| ->]; [auto|discriminate EA]. }
            intros t' f' I' HN.
            assert (MO : forall e0, In e0 (s_tr s) -> In e0 (e_ev e ++ s_tr s)) by (intros; rewrite in_app_iff; auto).
            destruct (ins_cases s t _ r e t' f' W LV HC Hst I') as [(-> & [K|K])|[(N1 & N2 & K)|(-> & NE & st & EN & K)]].
            * split; [now apply EF|auto].
            * destruct (K4 t f') as [A B]; [rewrite Hst; now right|exact HN|auto].
            * destruct (K4 t' f' K HN); auto.
            * exfalso. destruct f; try discriminate EA; destruct c; try discriminate Hfs; cbn in Hfs;
                revert Hfs; try (destruct p); cbn; g_brk; intros Hfs; inversion Hfs; subst; discriminate EN.
          + left. exists t, k, v. 
            destruct (one_create dyn s t t1 q true c1 q1 true RA EC M1) as (-> & -> & _).
            destruct (one_pre dyn s (q_id q1) c1 c1 d d1 RA GV M2) as (_ & ->).
            split; [rewrite in_app_iff; auto|exact IV].
        - right. pose proof (heap_local _ _ _ _ _ _ _ _ _ n Hfs MN HF) as (_ & _ & _ & _ & _ & -> & _).
          split; [exact K1|]. split; [exact AL|]. split.
          { intros X. destruct (free_new _ _ _ _ _ _ _ _ _ _ Hfs X) as [X'| ->]; [auto|]. cbn in HF. rewrite Z.eqb_refl in HF. discriminate HF. }
          intros t' f' I' HN.
          assert (MO : forall e0, In e0 (s_tr s) -> In e0 (e_ev e ++ s_tr s)) by (intros; rewrite in_app_iff; auto).
          assert (NEW : (In f' (e_fr e) \/ exists st, e_new e = Some st /\ In f' st) -> False).
          { intros X. destruct (holder_new _ _ _ _ _ _ _ _ _ n Hfs QL CH) as [Y|[Y|Y]]; [eauto|congruence|auto|auto]. }
          destruct (ins_cases s t _ r e t' f' W LV HC Hst I') as [(-> & [K|K])|[(N1 & N2 & K)|(-> & NE & st & EN & K)]].
          + elim NEW. auto.
          + destruct (K4 t f') as [A B]; [rewrite Hst; now right|exact HN|auto].
          + destruct (K4 t' f' K HN); auto.
          + elim NEW. eauto. }
      intros t1 q my n I. unfold kept. rewrite apply_tr, apply_g.
      destruct (e_child e) eqn:HC.
      { exfalso. destruct (child_shape _ _ _ _ _ _ _ _ _ Hfs HC) as (-> & FS & _ & _ & _ & EN & EK & EE).
        rewrite apply_stack_child in I by auto. destruct HO as [HO _]. destruct (HO eq_refl) as (-> & NC).
        destruct (Z.eqb t1 MAIN); [|destruct I].
        assert (IR : In (FPCPost q my n) r).
        { apply in_app_or in I. destruct I as [I|I]; [|exact I]. destruct EE as [(d & _ & E)|(_ & E)]; rewrite E in I;
            repeat (destruct I as [I|I]; [discriminate I|]); destruct I. }
        assert (X : creating (FPCPost q my n) = false) by (eapply existsb_false_in; [exact NC|rewrite Hst; now right]). discriminate X. }
      pose proof (ins_cases s t f r e t1 (FPCPost q my n) W LV HC Hst I) as IC.
      destruct (post_new _ _ _ _ _ _ _ _ _ q my n Hfs) as (PN & PNN).
      destruct IC as [(-> & [J|J])|[(N1 & N2 & J)|(_ & _ & st & EN & J)]].
      * (* the real create has just returned *)
        destruct (PN J) as (-> & EG & EF & CS). rewrite EG. cbn in QD. destruct QD as ((d & GV & ND) & _).
        exists d. split; [now apply given_mono|]. right.
        destruct (held_alloc s t _ n N IN) as (AL & NF); [cbn; apply Z.eqb_refl|].
        repeat (split; [assumption|]). intros t' f' I' HN.
        destruct (ins_cases s t _ r e t' f' W LV HC Hst I') as [(-> & [K|K])|[(N1 & N2 & K)|(-> & NE & st & EN & K)]].
        -- rewrite EF in K. destruct K as [<-|[]]. discriminate HN.
        -- rewrite (own_unique s t _ r n t f' N Hst) in HN; [discriminate HN|cbn; apply Z.eqb_refl|auto].
        -- rewrite (own_unique s t _ r n t' f' N Hst) in HN; [discriminate HN|cbn; apply Z.eqb_refl|auto].
        -- destruct CS as [(EN' & ->)|EN']; [|congruence]. rewrite EN' in EN. inversion EN; subst st.
           destruct K as [<-|[<-|[]]]; [|discriminate HN]. split; [reflexivity|now left].
      * assert (J' : In (FPCPost q my n) (th_stack (s_th s t))) by (rewrite Hst; now right).
        apply (OLD eq_refl t q my n J'). exact HI.
      * apply (OLD eq_refl t1 q my n J). exact HI.
      * elim (PNN _ EN J).
Qed.

Definition Jpost (tr : list event) (e : event) : Prop :=
  match e with
  | ECall t (CbPostCreate i x) => exists q d, i = q_id q /\ given t q d tr /\ (x = d \/ begun t q d tr)
  | _ => True
  end.
Lemma post_hist dyn s : reach dyn clean_forks s -> hist Jpost (s_tr s).
Proof.
  apply hist_reach; try (intros; exact I).
  intros s0 t c f r e R HI HO Hst LV Hfs.
  assert (IN : In f (th_stack (s_th s0 t))) by (rewrite Hst; now left).
  pose proof (post_reach _ _ R t) as Q.
  j_step Hfs; cbn; auto.
  all: try (destruct p; exact I).
  all: try (destruct c0; exact I).
  destruct (Q q my n IN) as (d & GV & [B|(K & _)]); exists q, d; auto.
Qed.

(** Of which call a post_create is. *)
Lemma post_data dyn s t i x l1 l2 : reach dyn clean_forks s -> s_tr s = l1 ++ ECall t (CbPostCreate i x) :: l2 ->
  exists q d, i = q_id q /\ given t q d l2 /\ (x = d \/ begun t q d l2).
Proof. intros R E. exact (post_hist _ _ R l1 _ l2 E). Qed.

Lemma post_when dyn s t i x l1 l2 : reach dyn any s -> s_tr s = l1 ++ ECall t (CbPostCreate i x) :: l2 ->
  exists q, i = q_id q /\ real_done t q l2.
Proof. intros R E. exact (cre_hist _ _ R l1 _ l2 E). Qed.

Lemma ret_post dyn s t q l1 l2 d : reach dyn any s -> s_tr s = l1 ++ ECreateRet t q :: l2 ->
  In (ERet t (CbPreCreate (q_id q)) d) (s_tr s) -> d <> IGNORE_NEW_THREAD -> exists x, In (ECall t (CbPostCreate (q_id q) x)) l2.
Proof.
  intros R E A N. assert (IR : In (ECreateRet t q) (s_tr s)) by (rewrite E, in_app_iff; right; now left).
  pose proof (cre_hist _ _ R l1 _ l2 E) as [(_ & P)|RI]; [exact P|].
  exfalso. assert (M : forall e, In e l2 -> In e (s_tr s)) by (intros e I; rewrite E, in_app_iff; right; now right).
  pose proof (stage_once dyn _ _ s (q_id q) (stage_alt dyn) R) as O.
  assert (V : (d =? IGNORE_NEW_THREAD)%Z = false) by now apply Z.eqb_neq.
  assert (X : 2 <= count (e_alt (q_id q)) (s_tr s)).
  { destruct RI as [(u & I)|I]; (eapply two_in; [exact A|exact (M _ I)|discriminate|cbn; rewrite Z.eqb_refl, V; reflexivity|cbn; apply Z.eqb_refl]). }
  lia.
Qed.
