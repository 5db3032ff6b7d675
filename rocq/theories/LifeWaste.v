(** Proofs: every record handed out is in use or on the free list. *)
From Verif Require Export LifeWasteSpec LifeOwn LifeFiniOnce.

Local Open Scope Z_scope.

Lemma parked_holds f n : parked f = true -> holds n f = true -> f = FBT BTPop n.
Proof.
  destruct f; cbn; try discriminate.
  - destruct k; discriminate.
  - destruct p; try discriminate. intros _ H. apply Z.eqb_eq in H. now subst.
Qed.

Lemma thrifty_b_ok s t c : thrifty_b s t c = true -> thrifty s t c.
Proof.
  unfold thrifty_b. intros H. apply andb_prop in H. destruct H as [H D].
  apply andb_prop in H. destruct H as [H C]. apply andb_prop in H. destruct H as [A B].
  split; [now apply clean_b_ok|]. split; [intros ->; discriminate|].
  split; [now apply negb_true_iff in B|]. split; [|split].
  - intros q my n r E ->. rewrite E in D. discriminate.
  - intros L f n I X. destruct L as [->|(-> & r & E)].
    + rewrite forallb_forall in C. apply parked_holds; auto.
    + rewrite E in D, I. rewrite forallb_forall in D. destruct I as [<-|I]; [discriminate|].
      apply parked_holds; auto.
  - intros n r E. rewrite E in D. now apply negb_true_iff in D.
Qed.

Lemma thrifty_run dyn l s : run_ok thrifty_b dyn init l = Some s -> reach dyn thrifty s.
Proof. intros H. eapply run_ok_reach; [exact thrifty_b_ok|apply reach_init|exact H]. Qed.

Lemma thrifty_clean dyn s : reach dyn thrifty s -> reach dyn clean_forks s.
Proof. apply reach_weaken. intros ? ? ? H. apply H. Qed.

(** ** Before the exit, none of the exit code is on a stack *)

Definition odd (f : frame) : bool :=
  match f with
  | FBPCas _ true | FBPReset _ | FRFReset => true
  | FEPWin _ _ | FEPBegin _ | FEPFini _ | FEPLose _ | FEPWait | FEPDone => true
  | FCb _ (KBeginExit _) | FCb _ KFiniProcess | FCb _ (KFiniOwn _ _) | FCb _ (KFiniHandler _ _) => true
  | FSUsed | FSLock _ | FSSet _ | FSUnlock _ | FSInstall _ | FSMain _ | FSPass _ | FSNode _ _
  | FSStarted _ _ _ | FSDone _ _ _ | FSEnd _ | FSOwn _ | FSOwnCall _ _ | FSOwnDone _ _ | FSRestore _ => true
  | FHGet | FHChk _ | FHDone _ | FHSet _ | FHCall _ _ | FHEnd _ _ | FWGet => true
  | FBT BTRefuse _ | FClean CLMark1 _ | FClean CLMark2 _ => true
  | _ => false
  end.

Record calm (s : state) : Prop := mkcalm {
  ca_fr : forall t f, In f (th_stack (s_th s t)) -> odd f = false;
  ca_inexit : g_inexit (s_g s) = false;
  ca_ftdone : g_ftdone (s_g s) = false;
  ca_pend : forall t, th_pend (s_th s t) = false
}.

Lemma calm_local dyn t u g tsd nc f c e :
  frame_step dyn t u g tsd nc f c = Some e -> e_child e = false -> odd f = false ->
  g_inexit g = false -> g_ftdone g = false -> g_cookie (e_g e) = false ->
  (forall f', In f' (e_fr e) -> odd f' = false) /\
  (forall st f', e_new e = Some st -> In f' st -> odd f' = false) /\
  g_inexit (e_g e) = false /\ g_ftdone (e_g e) = false /\ e_kill e = None.
Proof.
  intros H HC O IE FT CK.
  fs_cases H; cbn in O; try discriminate O; brk H; inversion H; subst; clear H;
    cbn in HC, CK |- *; try discriminate HC; try congruence;
    (split; [|split; [|split; [|split]]]); g_brk; auto; try congruence;
    try (intros f' I'; repeat (destruct I' as [<-|I']; [try reflexivity; try exact O; auto|]);
         try (destruct I'; fail));
    try (intros EN J; try discriminate EN; inversion EN; subst; clear EN;
         repeat (destruct J as [<-|J]; [reflexivity|]); destruct J).
Qed.

Lemma cookie_local dyn t u g tsd nc f c e :
  frame_step dyn t u g tsd nc f c = Some e -> g_cookie (e_g e) = false -> g_cookie g = false.
Proof.
  intros H C. destruct (g_cookie g) eqn:X; [|reflexivity].
  destruct (pre_local _ _ _ _ _ _ _ _ _ H) as (P & _). rewrite (P X) in C. discriminate.
Qed.

Lemma unwind_odd st : forall f, In f (unwind st) -> odd f = false.
Proof.
  intros f I. destruct (unwind_shape st) as [U|(m & x & U & _)]; rewrite U in I.
  - destruct I as [<-|[]]. reflexivity.
  - destruct I as [<-|[<-|[]]]; reflexivity.
Qed.

Lemma calm_stack s t x ev : calm s -> (forall f, In f (th_stack x) -> odd f = false) -> th_pend x = false ->
  calm (add_ev ev (set_th s t x)).
Proof.
  intros C H P. constructor; cbn; try apply C.
  - intros t' f. rewrite upd_if. destruct (Z.eqb t' t); [apply H|apply C].
  - intros t'. rewrite upd_if. destruct (Z.eqb t' t); [exact P|apply C].
Qed.

Lemma calm_step dyn s t c s' :
  reach dyn thrifty s -> calm s -> thrifty s t c -> step dyn s t c = Some s' ->
  g_cookie (s_g s') = false -> calm s'.
Proof.
  intros R C HO HS CK. pose proof (thrifty_clean _ _ R) as RC. pose proof (who_reach _ _ RC) as W.
  destruct HO as (_ & NC & _ & _ & _ & _).
  apply step_view in HS. destruct HS as (_ & LV & V).
  destruct V as [E1 E2|E1 E2|E1 E2|f r E1 E2|f r E1 E2 E3 E4 E5|r E1 E2 E3 E4|E1 E2 E3|f r e Hst Hun Hbar Hfs Es']; subst.
  - apply (calm_stack s t _ []); auto; [|apply C]. intros f [<-|I]; [reflexivity|]. eapply ca_fr; eauto.
  - apply (calm_stack s t _ []); auto; [|apply C].
    intros f [<-|[<-|[<-|I]]]; try reflexivity. eapply ca_fr; eauto.
  - rewrite (ca_pend _ C) in E2. discriminate.
  - rewrite (ca_pend _ C) in E2. discriminate.
  - apply (calm_stack s t _ []); auto; [|apply C]. apply unwind_odd.
  - apply (calm_stack s t _ []); auto; [|apply C]. apply unwind_odd.
  - apply (calm_stack s t _ [EEnd t]); auto; [|apply C]. intros f [].
  - rewrite apply_g in CK.
    assert (HC : e_child e = false).
    { destruct (e_child e) eqn:X; [|reflexivity].
      destruct (child_shape _ _ _ _ _ _ _ _ _ Hfs X) as (Y & _). congruence. }
    assert (OF : odd f = false) by (apply (ca_fr _ C t); rewrite Hst; now left).
    destruct (calm_local _ _ _ _ _ _ _ _ _ Hfs HC OF (ca_inexit _ C) (ca_ftdone _ C) CK)
      as (A & B & D & F & K).
    constructor; rewrite ?apply_g; auto.
    + intros t' f' I. destruct (ins_cases _ _ _ _ _ _ _ W LV HC Hst I)
        as [(-> & [J|J])|[(N1 & N2 & J)|(-> & _ & st & EN & J)]]; eauto.
      * apply (ca_fr _ C t). rewrite Hst. now right.
      * eapply ca_fr; eauto.
    + intros t'. destruct (th_pend (s_th (apply_eff s t (s_th s t) r e) t')) eqn:P; [|reflexivity].
      apply apply_pend in P; auto. destruct P as [P|P]; [|congruence].
      now rewrite (ca_pend _ C) in P.
Qed.

Lemma calm_reach dyn s : reach dyn thrifty s -> g_cookie (s_g s) = false -> calm s.
Proof.
  apply (reach_invariant dyn thrifty (fun s => g_cookie (s_g s) = false -> calm s)).
  - intros _. constructor; cbn; auto.
    + intros t f. rewrite upd_if. destruct (Z.eqb t MAIN); cbn; [|intros []].
      intros I. repeat (destruct I as [<-|I]; [reflexivity|]). destruct I.
    + intros t. rewrite upd_if. destruct (Z.eqb t MAIN); reflexivity.
  - clear s. intros s t c s' R HI HO HS CK. eapply calm_step; eauto. apply HI. apply HO.
Qed.

(** ** What the record of a frame says *)

Definition made (f : frame) : bool :=
  match f with FPCZero _ _ _ _ | FClean CLFree _ => false | _ => true end.
Definition begun (f : frame) : bool :=
  match f with FBT BTCall _ | FBT BTPop _ | FClean CLChk _ => true | _ => false end.
Definition cleaning (f : frame) : bool :=
  match f with
  | FPCZero _ _ _ _ => true
  | FClean CLChk _ | FClean CLDone _ | FClean CLSet _ => false
  | FClean _ _ | FCb _ (KFiniCleanup _) => true
  | _ => false
  end.

Definition Qrec (g : glob) (f : frame) : Prop :=
  forall n, holds n f = true ->
    (made f = true -> n_magic (nd g n) = true) /\ (begun f = true -> n_appl (nd g n) = true) /\
    (n_fstart (nd g n) = true -> cleaning f = true).

Definition rec_same (g g' : glob) (n : Z) : Prop :=
  n_magic (nd g' n) = n_magic (nd g n) /\ n_appl (nd g' n) = n_appl (nd g n) /\
  n_fstart (nd g' n) = n_fstart (nd g n).

Lemma nd_set g m fn n : nd (set_node m fn g) n = if n =? m then fn (nd g m) else nd g n.
Proof. unfold nd, set_node. cbn. now rewrite upd_if. Qed.

(** A step leaves alone the records its frame does not hold. *)
Lemma rec_other dyn t u g tsd nc f c e n :
  frame_step dyn t u g tsd nc f c = Some e -> odd f = false -> n <> MAIN_TN -> holds n f = false ->
  rec_same g (e_g e) n.
Proof.
  unfold rec_same. intros H O NM HF.
  fs_cases H; cbn in O, HF; try discriminate O; brk H; inversion H; subst; clear H; cbn [e_g];
    try (cbn; auto; fail);
    try (unfold list_init);
    repeat match goal with
    | |- context [if ?x then _ else _] => lazymatch x with Z.eqb _ _ => fail | _ => destruct x end
    | |- context [match get_tn ?a ?b with _ => _ end] => destruct (get_tn a b)
    | |- context [match ?x with Some _ => _ | None => _ end] => destruct x
    end;
    repeat match goal with |- context [nd (?s ?v ?g0) ?m] =>
      lazymatch s with set_node _ => fail | _ => change (nd (s v g0) m) with (nd g0 m) end end;
    try (cbn; auto; fail).
  all: rewrite ?nd_set; try (destruct (Z.eqb_spec n MAIN_TN); [contradiction|]); try (cbn; auto; fail).
  all: try rewrite HF; try (cbn; auto; fail).
  all: match goal with |- context [Z.eqb ?a ?m] => destruct (Z.eqb_spec a m); subst end; cbn; auto.
Qed.

Lemma rec_local dyn t u g tsd nc f c e :
  frame_step dyn t u g tsd nc f c = Some e -> e_child e = false -> odd f = false ->
  g_inexit g = false -> Qrec g f ->
  (forall f', In f' (e_fr e) -> Qrec (e_g e) f') /\
  (forall st f', e_new e = Some st -> In f' st -> Qrec (e_g e) f').
Proof.
  intros H HC O IE Q.
  fs_cases H; cbn in O; try discriminate O; brk H; inversion H; subst; clear H; cbn [e_g e_fr e_new e_child] in *;
    try discriminate HC; (split; [intros f' I'|intros st f' EN I'; try discriminate EN; inversion EN; subst; clear EN]);
    try (repeat (destruct I' as [<-|I']; [try (intros n0 X; discriminate X)|]); try (destruct I'; fail); fail);
    repeat (destruct I' as [<-|I']; [try (intros n0 X; discriminate X)|]); try (destruct I'; fail);
    try exact Q; try congruence;
    intros n0 X; cbn in X; try discriminate X; apply Z.eqb_eq in X; subst n0;
    try (specialize (Q _ (Z.eqb_refl _)));
    rewrite ?nd_set, ?Z.eqb_refl; cbn in Q |- *; rewrite ?upd_same; cbn; intuition (try congruence; auto).
Qed.

(** A step keeps the record of its frame in use, unless it puts it on the free list. *)
Lemma hold_keep dyn t u g tsd nc f c e n :
  frame_step dyn t u g tsd nc f c = Some e -> e_child e = false -> odd f = false ->
  g_inexit g = false -> g_ftdone g = false -> Qrec g f ->
  (forall q my m, f = FPCReal q my m -> c <> CFail) ->
  (forall m, f = FClean CLChk m -> n_block (nd g m) = false) ->
  holds n f = true ->
  (exists f', In f' (e_fr e) /\ holds n f' = true) \/
  (exists st f', e_new e = Some st /\ In f' st /\ holds n f' = true) \/
  (f = FClean CLFree n).
Proof.
  intros H HC O IE FT Q NF NB HF.
  fs_cases H; cbn in O; try discriminate O;
    try (match type of HF with holds _ (FCb ?cc ?k) = true =>
           is_var k; brk H; inversion H; subst; left; exists (FCb cc k);
           (split; [cbn; repeat (first [left; reflexivity | right])|exact HF]) end);
    cbn in HF; try discriminate HF;
    apply Z.eqb_eq in HF; subst;
    try (exfalso; eapply NF; reflexivity);
    try (right; right; reflexivity).
  all: try (specialize (Q _ (Z.eqb_refl _))); try (specialize (NB _ eq_refl)).
  all: rewrite ?IE, ?FT in H.
  all: try (match type of H with context [n_magic] =>
         destruct Q as (Q1 & Q2 & Q3); rewrite (Q1 eq_refl), (Q2 eq_refl), NB in H; cbn [negb orb] in H;
         destruct (n_fstart (nd g n0)) eqn:FS; [discriminate (Q3 eq_refl)|cbn [orb] in H] end).
  all: brk H; inversion H; subst; clear H; cbn [e_fr e_new e_child] in *; try discriminate HC; try congruence.
  all: first [ left; eexists; split; [left; reflexivity|cbn; apply Z.eqb_refl]
             | left; eexists; split; [right; left; reflexivity|cbn; apply Z.eqb_refl]
             | right; left; do 2 eexists; split; [reflexivity|]; split; [left; reflexivity|]; cbn; apply Z.eqb_refl ].
Qed.

(** ** Every record handed out is in use or free *)

Record waste_inv (s : state) : Prop := mkwaste {
  wa_acc : forall n, handed_out (s_g s) n -> In n (g_free (s_g s)) \/ in_use s n;
  wa_rec : forall t f, In f (th_stack (s_th s t)) -> Qrec (s_g s) f;
  wa_none : g_used (s_g s) = false -> forall n, ~ handed_out (s_g s) n;
  wa_array : forall t q my d, In (FPCArray q my d) (th_stack (s_th s t)) -> g_free (s_g s) = []
}.

(** A stack that changes without a step of the top frame. *)
Lemma waste_stack s t x ev :
  waste_inv s ->
  (forall f, In f (th_stack x) -> Qrec (s_g s) f) ->
  (forall f n, In f (th_stack (s_th s t)) -> holds n f = true -> exists f', In f' (th_stack x) /\ holds n f' = true) ->
  (forall q my d, In (FPCArray q my d) (th_stack x) -> In (FPCArray q my d) (th_stack (s_th s t))) ->
  waste_inv (add_ev ev (set_th s t x)).
Proof.
  intros WI Q HK AR. constructor; cbn [add_ev set_th s_g s_th].
  - intros n H. destruct (wa_acc _ WI n H) as [F|(t' & f & I & X)]; [auto|]. right.
    destruct (Z.eq_dec t' t) as [->|N].
    + destruct (HK _ _ I X) as (f' & I' & X'). exists t, f'. cbn. now rewrite upd_same.
    + exists t', f. cbn. rewrite upd_other by auto. auto.
  - intros t' f. rewrite upd_if. destruct (Z.eqb t' t); [apply Q|apply WI].
  - apply WI.
  - intros t' q my d. rewrite upd_if. destruct (Z.eqb_spec t' t) as [->|N]; intros I.
    + eapply wa_array; eauto.
    + eapply wa_array; eauto.
Qed.

Lemma unwind_waste s t st r0 : waste_inv s -> based st ->
  th_stack (s_th s t) = r0 ++ st -> (forall f n, In f r0 -> holds n f = false) ->
  (forall f n, In f st -> holds n f = true -> f = FBT BTPop n) ->
  (forall f, In f (unwind st) -> Qrec (s_g s) f) /\
  (forall f n, In f (th_stack (s_th s t)) -> holds n f = true -> exists f', In f' (unwind st) /\ holds n f' = true).
Proof.
  intros WI B Hst R0 L. split.
  - intros f I. destruct (unwind_shape st) as [U|(m & x & U & J & P)]; rewrite U in I.
    + destruct I as [<-|[]]. intros n X. discriminate.
    + destruct I as [<-|[<-|[]]]; [|intros n X; discriminate].
      assert (X : holds m x = true) by (destruct P as [(q & -> & _)|(q & ->)]; cbn; apply Z.eqb_refl).
      pose proof (L _ _ J X) as ->.
      assert (Q : Qrec (s_g s) (FBT BTPop m)).
      { eapply wa_rec; [exact WI|]. rewrite Hst. apply in_or_app. right. exact J. }
      intros n Y. destruct (Q n Y) as (Q1 & Q2 & Q3). cbn in *. intuition (auto; congruence).
  - intros f n I X. rewrite Hst in I. apply in_app_or in I. destruct I as [I|I].
    + rewrite (R0 _ _ I) in X. discriminate.
    + pose proof (L _ _ I X) as ->. clear X Hst R0 WI L.
      induction st as [|x st IH]; [destruct I|]. destruct I as [->|I].
      * exists (FClean CLChk n). cbn. rewrite Z.eqb_refl. auto.
      * destruct B as [B1 B2].
        assert (BX : bt_frame x = false).
        { destruct (bt_frame x); [|reflexivity]. rewrite B1 in I by reflexivity.
          destruct I as [I|[]]. discriminate. }
        destruct (IH B2 I) as (f' & I' & X').
        exists f'. split; [|exact X'].
        destruct x; cbn in BX |- *; try discriminate BX; auto.
        destruct k; try discriminate BX; auto.
Qed.

(** *** One step and the lists *)

Lemma free_keep dyn t u g tsd nc f c e n :
  frame_step dyn t u g tsd nc f c = Some e -> odd f = false -> In n (g_free g) ->
  In n (g_free (e_g e)) \/ (exists q my d, f = FPCTake q my d n /\ In (FPCZero q my d n) (e_fr e)) \/
  (exists q, f = FPCInit q /\ g_used g = false).
Proof.
  intros H O I. destruct (lister f) eqn:L.
  - destruct f; cbn in L, O; try discriminate L; try discriminate O;
      destruct c; cbn [frame_step auto_step] in H; try discriminate H.
    + destruct p; try discriminate L. cbn in H. unfold ret, list_insert in H. inversion H; subst; cbn.
      destruct (memb n0 (g_list g)); auto.
    + destruct p; try discriminate L; cbn in H; unfold ret, list_insert, list_delete in H; inversion H; subst; cbn.
      * destruct (memb n0 (g_list g)); auto.
      * auto.
    + destruct (g_used g) eqn:U; [|eauto 6]. inversion H; subst; auto.
    + unfold ret, list_delete in H. inversion H; subst; cbn.
      destruct (Z.eq_dec n n0) as [->|N]; [right; left; eauto 8|]. left. now apply without_in.
    + destruct (g_pos g <? TN_ARRAY_SIZE); unfold go, ret in H; inversion H; subst; auto.
    + unfold ret in H. inversion H; subst; auto.
  - left. destruct (lister_local _ _ _ _ _ _ _ _ _ H L) as ((_ & F & _) & _). now rewrite F.
Qed.

Lemma free_same dyn t u g tsd nc f c e :
  frame_step dyn t u g tsd nc f c = Some e -> odd f = false -> locked f = false ->
  g_free (e_g e) = g_free g \/ (exists q, f = FPCInit q /\ g_used g = false).
Proof.
  intros H O K. destruct (lister f) eqn:L.
  - destruct f; cbn in L, O, K; try discriminate L; try discriminate O; try discriminate K;
      destruct c; cbn [frame_step auto_step] in H; try discriminate H.
    + destruct p; discriminate.
    + destruct p; discriminate.
    + destruct (g_used g) eqn:U; [|eauto 6]. inversion H; subst; auto.
  - left. destruct (lister_local _ _ _ _ _ _ _ _ _ H L) as ((_ & F & _) & _). exact F.
Qed.

Lemma out_local dyn t u g tsd nc f c e n :
  frame_step dyn t u g tsd nc f c = Some e -> odd f = false -> Qlist g f ->
  g_chunks g = g_chunk g + 1 -> 0 <= g_pos g <= TN_ARRAY_SIZE -> handed_out (e_g e) n ->
  handed_out g n \/ (creating f = true /\ exists q my d, In (FPCZero q my d n) (e_fr e)).
Proof.
  unfold handed_out. intros H O Q C1 C2 A. destruct (lister f) eqn:L.
  - destruct f; cbn in L, O; try discriminate L; try discriminate O;
      destruct c; cbn [frame_step auto_step] in H; try discriminate H.
    + destruct p; try discriminate L. cbn in H. unfold ret, list_insert in H. inversion H; subst; cbn in A.
      destruct (memb n0 (g_list g)); auto.
    + destruct p; try discriminate L; cbn in H; unfold ret, list_insert, list_delete in H; inversion H; subst; cbn in A.
      * destruct (memb n0 (g_list g)); auto.
      * destruct (memb n0 (g_free g)); auto.
    + destruct (g_used g) eqn:U; inversion H; subst; auto. cbn in A. left. lia.
    + unfold ret, list_delete in H. inversion H; subst; cbn in A. destruct (memb n0 (g_free g)); auto.
    + destruct (Z.ltb_spec (g_pos g) TN_ARRAY_SIZE); unfold go, ret in H; inversion H; subst; auto.
      cbn in A. rewrite C1 in A |- *. unfold TN_ARRAY_SIZE, array_node in *.
      destruct (Z.eq_dec n ((g_chunk g + 1) * 600 + 1)) as [->|N].
      * right. split; [reflexivity|]. exists q, my, d. cbn. left. unfold array_node, TN_ARRAY_SIZE. f_equal. lia.
      * left. lia.
    + unfold ret in H. inversion H; subst. cbn in A, Q |- *.
      destruct Q as (Q1 & Q2). unfold array_node in Q1.
      destruct (Z.eq_dec n n0) as [->|N]; [right; eauto 6|]. left. lia.
  - left. destruct (lister_local _ _ _ _ _ _ _ _ _ H L) as ((_ & _ & P & K & _) & _). now rewrite P, K in A.
Qed.

Lemma array_local dyn t u g tsd nc f c e q my d :
  frame_step dyn t u g tsd nc f c = Some e -> In (FPCArray q my d) (e_fr e) -> g_free g = [] /\ e_g e = g.
Proof.
  intros H I. fs_cases H; brk H; inversion H; subst; clear H; cbn in I;
    repeat (destruct I as [I|I]; [try discriminate I; auto|]); try (destruct I; fail).
Qed.

Lemma waste_frame dyn s t c f r e :
  reach dyn thrifty s -> waste_inv s -> thrifty s t c -> th_live (s_th s t) = true ->
  th_stack (s_th s t) = f :: r -> e_child e = false ->
  frame_step dyn t (s_next s) (s_g s) (th_tsd (s_th s t)) (th_nc (s_th s t)) f c = Some e ->
  waste_inv (apply_eff s t (s_th s t) r e).
Proof.
  intros R WI HO LV Hst HC Hfs.
  destruct HO as (_ & _ & CK & NF & _ & NB).
  pose proof (thrifty_clean _ _ R) as RC. pose proof (clean_any _ _ RC) as RA.
  pose proof (who_reach _ _ RC) as W. pose proof (nodes_reach _ _ RC) as (N & _ & _).
  pose proof (lock_reach _ _ RA) as LI. pose proof (calm_reach _ _ R CK) as CA.
  assert (IF : In f (th_stack (s_th s t))) by (rewrite Hst; now left).
  pose proof (ca_fr _ CA t f IF) as OF. pose proof (wa_rec _ WI t f IF) as QF.
  pose proof (ni_q _ N t f IF) as LQ. pose proof (ni_chunk _ N) as (C1 & C2 & C3).
  assert (ST := fun t' => apply_stack s t (s_th s t) r e t' HC).
  assert (TN : t <> s_next s).
  { intros ->. destruct (who_fresh _ W (s_next s)) as [_ X]; [apply Z.le_refl|]. rewrite LV in X. discriminate. }
  assert (FRESH : th_stack (s_th s (s_next s)) = []) by (apply (who_fresh _ W); apply Z.le_refl).
  assert (ONFR : forall f', In f' (e_fr e) -> In f' (th_stack (s_th (apply_eff s t (s_th s t) r e) t))).
  { intros f' I. rewrite ST, Z.eqb_refl. destruct (e_new e); [destruct (Z.eqb_spec t (s_next s)); [contradiction|]|];
      apply in_or_app; auto. }
  assert (ONR : forall t' f', (t' = t /\ In f' r) \/ (t' <> t /\ In f' (th_stack (s_th s t'))) ->
                In f' (th_stack (s_th (apply_eff s t (s_th s t) r e) t'))).
  { intros t' f' D. rewrite ST. destruct D as [[-> I]|[X I]].
    - rewrite Z.eqb_refl. destruct (e_new e); [destruct (Z.eqb_spec t (s_next s)); [contradiction|]|];
        apply in_or_app; auto.
    - assert (t' <> s_next s) by (intros ->; rewrite FRESH in I; destruct I).
      destruct (Z.eqb_spec t' t); [contradiction|]. destruct (e_new e); [|exact I].
      destruct (Z.eqb_spec t' (s_next s)); [contradiction|exact I]. }
  assert (ONN : forall st f', e_new e = Some st -> In f' st ->
                In f' (th_stack (s_th (apply_eff s t (s_th s t) r e) (s_next s)))).
  { intros st f' E I. rewrite ST, E, Z.eqb_refl. exact I. }
  assert (USE : forall n, in_use s n -> in_use (apply_eff s t (s_th s t) r e) n \/ f = FClean CLFree n).
  { intros n (t' & f' & I & X).
    assert (D : (t' = t /\ f' = f) \/ ((t' = t /\ In f' r) \/ (t' <> t /\ In f' (th_stack (s_th s t'))))).
    { destruct (Z.eq_dec t' t) as [->|Y]; [|auto]. rewrite Hst in I. destruct I as [->|I]; auto. }
    destruct D as [[-> ->]|D]; [|left; exists t', f'; auto].
    destruct (hold_keep _ _ _ _ _ _ _ _ _ n Hfs HC OF (ca_inexit _ CA) (ca_ftdone _ CA) QF)
      as [(f' & I' & X')|[(st & f' & E & I' & X')| ->]]; auto.
    - intros q my m ->. eapply NF; eauto.
    - intros m ->. eapply NB; eauto.
    - left. exists t, f'. auto.
    - left. exists (s_next s), f'. split; [|exact X']. eapply ONN; eauto. }
  destruct (rec_local _ _ _ _ _ _ _ _ _ Hfs HC OF (ca_inexit _ CA) QF) as (RE & RN).
  constructor.
  - rewrite apply_g. intros n A.
    destruct (out_local _ _ _ _ _ _ _ _ _ n Hfs OF LQ C1 C3 A) as [A'|(_ & q & my & d & I)].
    2:{ right. exists t, (FPCZero q my d n). split; [auto|]. cbn. apply Z.eqb_refl. }
    destruct (wa_acc _ WI n A') as [F|U].
    + destruct (free_keep _ _ _ _ _ _ _ _ _ n Hfs OF F) as [F'|[(q & my & d & _ & I)|(q & -> & U)]]; auto.
      * right. exists t, (FPCZero q my d n). split; [auto|]. cbn. apply Z.eqb_refl.
      * exfalso. eapply wa_none; eauto.
    + destruct (USE n U) as [U'| ->]; [auto|]. left.
      destruct c; cbn [frame_step] in Hfs; try discriminate Hfs. cbn in Hfs. unfold ret, list_insert in Hfs.
      inversion Hfs; subst. cbn. auto.
  - rewrite apply_g. intros t' f' I. destruct (ins_cases _ _ _ _ _ _ _ W LV HC Hst I)
      as [(-> & [J|J])|[(N1 & N2 & J)|(-> & _ & st & EN & J)]]; eauto.
    + intros n X. assert (I2 : In f' (th_stack (s_th s t))) by (rewrite Hst; now right).
      destruct (held_alloc _ _ _ _ N I2 X) as [AL _].
      assert (HF : holds n f = false).
      { destruct (holds n f) eqn:Y; [|reflexivity].
        rewrite (own_unique s t f r n t f' N Hst Y) in X; auto. }
      assert (NM : n <> MAIN_TN) by (unfold alloc, MAIN_TN in *; lia).
      destruct (rec_other _ _ _ _ _ _ _ _ _ n Hfs OF NM HF) as (S1 & S2 & S3). rewrite S1, S2, S3.
      apply (wa_rec _ WI t f' I2 n X).
    + intros n X. destruct (held_alloc _ _ _ _ N J X) as [AL _].
      assert (HF : holds n f = false).
      { destruct (holds n f) eqn:Y; [|reflexivity].
        rewrite (own_unique s t f r n t' f' N Hst Y) in X; auto. }
      assert (NM : n <> MAIN_TN) by (unfold alloc, MAIN_TN in *; lia).
      destruct (rec_other _ _ _ _ _ _ _ _ _ n Hfs OF NM HF) as (S1 & S2 & S3). rewrite S1, S2, S3.
      apply (wa_rec _ WI t' f' J n X).
  - rewrite apply_g. intros U n A.
    assert (U0 : g_used (s_g s) = false).
    { destruct (g_used (s_g s)) eqn:X; [|reflexivity]. exfalso. clear - Hfs OF X U.
      fs_cases Hfs; cbn in OF; try discriminate OF; brk Hfs; inversion Hfs; subst; clear Hfs; cbn in U;
        try congruence; revert U; g_brk; congruence. }
    destruct (out_local _ _ _ _ _ _ _ _ _ n Hfs OF LQ C1 C3 A) as [A'|(CR & _)].
    + eapply wa_none; eauto.
    + rewrite (who_create _ W t f IF CR) in U0. discriminate.
  - rewrite apply_g. intros t' q my d I.
    assert (OLD : (t' = t /\ In (FPCArray q my d) r) \/ (t' <> t /\ In (FPCArray q my d) (th_stack (s_th s t'))) ->
                  In (FPCArray q my d) (th_stack (s_th s t')) -> g_free (e_g e) = []).
    { intros D I'. pose proof (wa_array _ WI _ _ _ _ I') as F.
      destruct (locked f) eqn:K.
      - pose proof (lock_one s t f r t' (FPCArray q my d) LI Hst K D) as X. discriminate X.
      - destruct (free_same _ _ _ _ _ _ _ _ _ Hfs OF K) as [S|(q' & _ & U)]; [congruence|].
        pose proof (who_create _ W t' _ I' eq_refl). congruence. }
    destruct (ins_cases _ _ _ _ _ _ _ W LV HC Hst I)
      as [(-> & [J|J])|[(N1 & N2 & J)|(-> & _ & st & EN & J)]].
    + destruct (array_local _ _ _ _ _ _ _ _ _ _ _ _ Hfs J) as (F & G). now rewrite G.
    + apply OLD; auto. rewrite Hst. now right.
    + apply OLD; auto.
    + exfalso. clear - Hfs EN J.
      fs_cases Hfs; brk Hfs; inversion Hfs; subst; clear Hfs; cbn in EN; try discriminate EN; inversion EN; subst;
        cbn in J; repeat (destruct J as [J|J]; [discriminate J|]); destruct J.
Qed.

Lemma waste_reach dyn s : reach dyn thrifty s -> waste_inv s.
Proof.
  apply reach_invariant.
  - constructor; cbn.
    + unfold handed_out. cbn. lia.
    + intros t f. rewrite upd_if. destruct (Z.eqb t MAIN); cbn; [|intros []].
      intros I. repeat (destruct I as [<-|I]; [intros n X; discriminate X|]). destruct I.
    + unfold handed_out. cbn. lia.
    + reflexivity.
  - clear s. intros s t c s' R WI HO HS.
    pose proof (based_reach _ _ (clean_any _ _ (thrifty_clean _ _ R)) t) as BA.
    pose proof (calm_reach _ _ R (proj1 (proj2 (proj2 HO)))) as CA.
    apply step_view in HS. destruct HS as (_ & LV & V).
    destruct V as [E1 E2|E1 E2|E1 E2|f r E1 E2|f r E1 E2 E3 E4 E5|r E1 E2 E3 E4|E1 E2 E3|f r e Hst Hun Hbar Hfs Es']; subst.
    + apply (waste_stack s t _ []); auto.
      * intros f [<-|I]; [intros n X; discriminate X|]. eapply wa_rec; eauto.
      * intros f n I X. exists f. split; [right; exact I|exact X].
      * intros q my d [X|I]; [discriminate X|exact I].
    + apply (waste_stack s t _ []); auto.
      * intros f [<-|[<-|[<-|I]]]; try (intros n X; discriminate X). eapply wa_rec; eauto.
      * intros f n I X. exists f. split; [do 3 right; exact I|exact X].
      * intros q my d [X|[X|[X|I]]]; try discriminate X. exact I.
    + rewrite (ca_pend _ CA) in E2. discriminate.
    + rewrite (ca_pend _ CA) in E2. discriminate.
    + destruct HO as (_ & _ & _ & _ & L & _).
      destruct (unwind_waste s t (th_stack (s_th s t)) [] WI BA eq_refl) as (A & B).
      * intros x n [].
      * apply L. now left.
      * apply (waste_stack s t _ []); auto. cbn [with_stack th_stack]. intros q my d I.
        destruct (unwind_shape (th_stack (s_th s t))) as [U|(m & x & U & _)]; rewrite U in I; cbn in I;
          intuition discriminate.
    + destruct HO as (_ & _ & _ & _ & L & _). rewrite E2 in BA. destruct BA as [_ BA].
      destruct (unwind_waste s t r [FUnwind] WI BA E2) as (A & B).
      * intros x n [<-|[]]. reflexivity.
      * intros x n I. apply L; [right; eauto|]. rewrite E2. now right.
      * apply (waste_stack s t _ []); auto. cbn [with_stack th_stack]. intros q my d I.
        destruct (unwind_shape r) as [U|(m & x & U & _)]; rewrite U in I; cbn in I;
          intuition discriminate.
    + apply (waste_stack s t _ [EEnd t]); auto.
      * intros f [].
      * rewrite E2. intros f n [].
      * intros q my d [].
    + assert (HC : e_child e = false).
      { destruct (e_child e) eqn:X; [|reflexivity].
        destruct (child_shape _ _ _ _ _ _ _ _ _ Hfs X) as (Y & _).
        destruct HO as (_ & NC & _). congruence. }
      eapply waste_frame; eauto.
Qed.

(** ** A lost record stays lost *)

Lemma reset_none dyn t u g tsd nc f c e :
  frame_step dyn t u g tsd nc f c = Some e -> e_child e = false -> resetting f = false ->
  (forall f', In f' (e_fr e) -> resetting f' = false) /\
  (forall st f', e_new e = Some st -> In f' st -> resetting f' = false).
Proof.
  intros H HC O.
  fs_cases H; cbn in O; try discriminate O; brk H; try discriminate O; inversion H; subst; clear H;
    cbn in HC |- *; try discriminate HC;
    (split; [intros f' J|intros st f' EN J; try discriminate EN; inversion EN; subst; clear EN]);
    repeat (destruct J as [<-|J]; [try reflexivity|]); try (destruct J; fail).
Qed.

Lemma pos_none dyn t u g tsd nc f c e :
  frame_step dyn t u g tsd nc f c = Some e -> resetting f = false ->
  (creating f = true -> g_used g = true) ->
  (g_used g = false -> g_pos g = 0 /\ g_chunk g = 0) ->
  g_used (e_g e) = false -> g_pos (e_g e) = 0 /\ g_chunk (e_g e) = 0.
Proof.
  intros H O CR P U.
  fs_cases H; cbn in O; try discriminate O; brk H; inversion H; subst; clear H;
    cbn in U |- *; auto; try (cbn in CR; rewrite CR in U by reflexivity; discriminate U);
    revert U; g_brk; auto; try congruence.
Qed.

(** What a step says of the frames it replaces; used for both kinds of fork. *)
Lemma no_child_eff dyn t u g tsd nc f c e :
  frame_step dyn t u g tsd nc f c = Some e -> c <> CChild -> e_child e = false.
Proof.
  intros H N. destruct (e_child e) eqn:X; [|reflexivity].
  destruct (child_shape _ _ _ _ _ _ _ _ _ H X) as (Y & _). congruence.
Qed.

Lemma unwind_reset st f : In f (unwind st) -> resetting f = false.
Proof.
  intros I. destruct (unwind_shape st) as [U|(m & x & U & _)]; rewrite U in I; cbn in I;
    intuition (subst; reflexivity).
Qed.

Lemma resets_none dyn s : reach dyn no_child s ->
  (forall t f, In f (th_stack (s_th s t)) -> resetting f = false).
Proof.
  apply (reach_invariant dyn no_child (fun s => forall t f, In f (th_stack (s_th s t)) -> resetting f = false)).
  - intros t f. cbn. rewrite upd_if. destruct (Z.eqb t MAIN); cbn; [|intros []].
    intros I. repeat (destruct I as [<-|I]; [reflexivity|]). destruct I.
  - clear s. intros s t c s' R HI HO HS. apply step_view in HS. destruct HS as (_ & LV & V).
    assert (P : forall x, (forall f, In f (th_stack x) -> resetting f = false) ->
              forall t' f, In f (th_stack (upd (s_th s) t x t')) -> resetting f = false).
    { intros x H t' f. rewrite upd_if. destruct (Z.eqb t' t); [apply H|apply HI]. }
    destruct V as [E1 E2|E1 E2|E1 E2|f r E1 E2|f r E1 E2 E3 E4 E5|r E1 E2 E3 E4|E1 E2 E3|f r e Hst Hun Hbar Hfs Es'];
      subst; cbn [add_ev set_th s_th].
    1-7: apply P; cbn; intros x I.
    + destruct I as [<-|I]; [reflexivity|eauto].
    + destruct I as [<-|[<-|[<-|I]]]; try reflexivity; eauto.
    + destruct I as [<-|I]; [reflexivity|eauto].
    + destruct I as [<-|I]; [reflexivity|eauto].
    + eapply unwind_reset; eauto.
    + eapply unwind_reset; eauto.
    + destruct I.
    + pose proof (no_child_eff _ _ _ _ _ _ _ _ _ Hfs HO) as HC.
      assert (OF : resetting f = false) by (apply (HI t); rewrite Hst; now left).
      destruct (reset_none _ _ _ _ _ _ _ _ _ Hfs HC OF) as (A & B).
      intros t' f' I. rewrite apply_stack in I by auto.
      assert (D : forall x, In x (e_fr e ++ r) -> resetting x = false).
      { intros x J. apply in_app_or in J. destruct J as [J|J]; [auto|]. apply (HI t). rewrite Hst. now right. }
      destruct (e_new e) as [st|] eqn:EN; [destruct (Z.eqb t' (s_next s)); [eapply B; eauto|]|];
        (destruct (Z.eqb t' t); [now apply D|eapply HI; eauto]).
Qed.

Lemma no_child_clean dyn s : reach dyn no_child s -> reach dyn clean_forks s.
Proof.
  induction 1 as [|s t c s' R IH HO HS]; [apply reach_init|].
  eapply reach_step; [exact IH| |exact HS]. split; [intros ->; now elim HO|].
  intros X. apply existsb_exists in X. destruct X as (f & I & Y).
  rewrite (resets_none _ _ R _ _ I) in Y. discriminate.
Qed.

Lemma lone_reach dyn s : reach dyn no_child s ->
  g_used (s_g s) = false -> g_pos (s_g s) = 0 /\ g_chunk (s_g s) = 0.
Proof.
  apply (reach_invariant dyn no_child (fun s => g_used (s_g s) = false -> g_pos (s_g s) = 0 /\ g_chunk (s_g s) = 0)).
  - intros _. auto.
  - clear s. intros s t c s' R HI HO HS. pose proof (resets_none _ _ R) as RN.
    pose proof (who_reach _ _ (no_child_clean _ _ R)) as W.
    apply step_view in HS. destruct HS as (_ & LV & V).
    destruct V as [E1 E2|E1 E2|E1 E2|f r E1 E2|f r E1 E2 E3 E4 E5|r E1 E2 E3 E4|E1 E2 E3|f r e Hst Hun Hbar Hfs Es'];
      subst; try exact HI.
    rewrite apply_g. apply (pos_none _ _ _ _ _ _ _ _ _ Hfs); [| |exact HI].
    + apply (RN t). rewrite Hst. now left.
    + apply (who_create _ W t). rewrite Hst. now left.
Qed.

(** The records a lister takes or puts. *)
Lemma lister_holds dyn t u g tsd nc f c e n :
  frame_step dyn t u g tsd nc f c = Some e -> e_child e = false -> resetting f = false -> Qlist g f ->
  g_chunks g = g_chunk g + 1 -> 0 <= g_pos g <= TN_ARRAY_SIZE ->
  (g_used g = false -> g_pos g = 0 /\ g_chunk g = 0) ->
  handed_out g n -> ~ In n (g_free g) -> holds n f = false ->
  handed_out (e_g e) n /\ ~ In n (g_free (e_g e)) /\
  (forall f', In f' (e_fr e) -> holds n f' = false) /\
  (forall st f', e_new e = Some st -> In f' st -> holds n f' = false).
Proof.
  unfold handed_out. intros H HC O Q C1 C2 P A F X. destruct (lister f) eqn:L.
  - destruct f; cbn in L, O; try discriminate L; try discriminate O;
      destruct c; cbn [frame_step auto_step] in H; try discriminate H.
    + unfold go, ret in H. cbv zeta in H. destruct (n_self (nd g MAIN_TN) =? t); inversion H; subst; cbn.
      * repeat split; try lia; auto; [intros f' [<-|[]]; reflexivity|discriminate].
      * destruct (memb _ _); cbn;
          (repeat split; try lia; auto; [intros f' [<-|[]]; reflexivity|discriminate]).
    + destruct p; try discriminate L. cbn in H. unfold ret, list_insert in H. inversion H; subst; cbn.
      destruct (memb n0 (g_list g)); cbn;
        (repeat split; try lia; auto; [intros f' [<-|[]]; exact X|discriminate]).
    + destruct p; try discriminate L; cbn in H; unfold ret, list_insert, list_delete in H; inversion H; subst; cbn in X |- *.
      * destruct (memb n0 (g_list g)); cbn;
          (repeat split; try lia; auto; [intros f' [<-|[]]; exact X|discriminate]).
      * destruct (memb n0 (g_free g)); cbn;
          (repeat split; try lia; [|intros f' [<-|[]]; reflexivity|discriminate];
           intros [->|I]; [rewrite Z.eqb_refl in X; discriminate|now apply F]).
    + destruct (g_used g) eqn:U; inversion H; subst; cbn.
      * repeat split; try lia; auto; [intros f' [<-|[]]; reflexivity|discriminate].
      * destruct (P eq_refl). lia.
    + unfold ret, list_delete in H. inversion H; subst; cbn in Q |- *.
      assert (N : n <> n0) by (intros ->; now apply F).
      destruct (memb n0 (g_free g)); cbn;
        (repeat split; try lia; [rewrite without_in; tauto|intros f' [<-|[]]; cbn; now apply Z.eqb_neq|discriminate]).
    + destruct (Z.ltb_spec (g_pos g) TN_ARRAY_SIZE); unfold go, ret in H; inversion H; subst; cbn.
      * repeat split; try lia; auto; [intros f' [<-|[]]; reflexivity|discriminate].
      * unfold TN_ARRAY_SIZE in *.
        repeat split; try lia; auto; [|discriminate].
        intros f' [<-|[]]. cbn. apply Z.eqb_neq. unfold array_node, TN_ARRAY_SIZE. lia.
    + unfold ret in H. inversion H; subst. cbn in Q |- *. destruct Q as (-> & Q).
      repeat split; try lia; auto; [|discriminate].
      intros f' [<-|[]]. cbn. apply Z.eqb_neq. unfold array_node. lia.
  - destruct (lister_local _ _ _ _ _ _ _ _ _ H L) as ((_ & E1 & E2 & E3 & _) & _). rewrite E1, E2, E3.
    pose proof (LifeNode.own_local _ _ _ _ _ _ _ _ _ H L HC n) as OW. unfold own at 3 in OW. rewrite X in OW. cbn in OW.
    split; [exact A|]. split; [exact F|]. split.
    + intros f' I. destruct (holds n f') eqn:Y; [|reflexivity]. pose proof (own_pos _ _ _ I Y). lia.
    + intros st f' EN I. rewrite EN in OW. destruct (holds n f') eqn:Y; [|reflexivity].
      pose proof (own_pos _ _ _ I Y). lia.
Qed.

Lemma lost_step dyn s t c s' n :
  reach dyn no_child s -> no_child s t c -> step dyn s t c = Some s' -> lost s n -> lost s' n.
Proof.
  intros R HO HS (A & F & U). pose proof (no_child_clean _ _ R) as RC.
  pose proof (who_reach _ _ RC) as W. pose proof (nodes_reach _ _ RC) as (N & _ & _).
  assert (UU : forall t f, In f (th_stack (s_th s t)) -> holds n f = false).
  { intros t' f I. destruct (holds n f) eqn:X; [|reflexivity]. elim U. exists t', f. auto. }
  apply step_view in HS. destruct HS as (_ & LV & V).
  assert (P : forall x ev, (forall f, In f (th_stack x) -> holds n f = false) -> lost (add_ev ev (set_th s t x)) n).
  { intros x ev H. split; [exact A|]. split; [exact F|]. intros (t' & f & I & X). cbn in I. rewrite upd_if in I.
    destruct (Z.eqb t' t); [rewrite H in X by auto|rewrite (UU _ _ I) in X]; discriminate. }
  assert (UW : forall st, (forall f, In f st -> holds n f = false) -> forall f, In f (unwind st) -> holds n f = false).
  { intros st H f I. destruct (holds n f) eqn:X; [|reflexivity].
    pose proof (unwind_own st n) as OW. pose proof (own_pos _ _ _ I X).
    rewrite (own_zero st n) in OW; [lia|]. intros x J. unfold own. now rewrite (H x J). }
  destruct V as [E1 E2|E1 E2|E1 E2|f r E1 E2|f r E1 E2 E3 E4 E5|r E1 E2 E3 E4|E1 E2 E3|f r e Hst Hun Hbar Hfs Es'];
      subst.
  - apply (P _ []). intros f [<-|I]; [reflexivity|eauto].
  - apply (P _ []). intros f [<-|[<-|[<-|I]]]; try reflexivity; eauto.
  - apply (P _ [EDeliver t]). intros f [<-|I]; [reflexivity|eauto].
  - apply (P _ [EDeliver t]). intros x [<-|I]; [reflexivity|eauto].
  - apply (P _ []). apply UW. eauto.
  - apply (P _ []). apply UW. intros f I. apply (UU t). rewrite E2. now right.
  - apply (P _ [EEnd t]). intros f [].
  - pose proof (no_child_eff _ _ _ _ _ _ _ _ _ Hfs HO) as HC.
    assert (IF : In f (th_stack (s_th s t))) by (rewrite Hst; now left).
    pose proof (ni_chunk _ N) as (C1 & C2 & C3).
    destruct (lister_holds _ _ _ _ _ _ _ _ _ n Hfs HC (resets_none _ _ R _ _ IF) (ni_q _ N _ _ IF) C1 C3
                (lone_reach _ _ R) A F (UU _ _ IF)) as (A' & F' & U1 & U2).
    split; [now rewrite apply_g|]. split; [now rewrite apply_g|].
    intros (t' & f' & I & X). destruct (ins_cases _ _ _ _ _ _ _ W LV HC Hst I)
        as [(-> & [J|J])|[(N1 & N2 & J)|(-> & _ & st & EN & J)]].
    + rewrite (U1 _ J) in X. discriminate.
    + rewrite (UU t f') in X; [discriminate|]. rewrite Hst. now right.
    + rewrite (UU t' f' J) in X. discriminate.
    + rewrite (U2 _ _ EN J) in X. discriminate.
Qed.

(** ** Counting *)

Definition rec_of (f : frame) : Z :=
  match f with
  | FPCZero _ _ _ m | FPCUnlock _ _ _ m | FPCFill _ _ _ m | FPCReal _ _ m => m
  | FBT _ m | FClean _ m => m
  | FCb _ (KInitThread m) | FCb _ (KFiniCleanup m) => m
  | _ => 0
  end.
Lemma rec_of_holds f n : holds n f = true -> rec_of f = n.
Proof.
  destruct f; cbn; try discriminate; try (intros X; apply Z.eqb_eq in X; congruence).
  - destruct k; try discriminate; intros X; apply Z.eqb_eq in X; congruence.
  - destruct p; try discriminate; intros X; apply Z.eqb_eq in X; congruence.
Qed.

Lemma count_uses s (us : list (Z * frame)) m : 0 <= m ->
  (forall n, 1 <= n <= m -> in_use s n) ->
  (forall t f n, In f (th_stack (s_th s t)) -> holds n f = true -> In (t, f) us) ->
  m <= Z.of_nat (length us).
Proof.
  intros M H C. set (ns := map (fun k => Z.of_nat k + 1) (seq 0 (Z.to_nat m))).
  assert (ND : NoDup ns).
  { apply FinFun.Injective_map_NoDup; [|apply seq_NoDup]. intros a b. lia. }
  assert (IC : incl ns (map (fun p => rec_of (snd p)) us)).
  { intros n I. unfold ns in I. apply in_map_iff in I. destruct I as (k & <- & I). apply in_seq in I.
    destruct (H (Z.of_nat k + 1)) as (t & f & J & X); [lia|].
    apply in_map_iff. exists (t, f). split; [now apply rec_of_holds|]. eapply C; eauto. }
  pose proof (NoDup_incl_length ND IC) as LE. unfold ns in LE. rewrite !map_length, seq_length in LE. lia.
Qed.

Lemma new_array dyn s t c s' : reach dyn thrifty s -> thrifty s t c -> step dyn s t c = Some s' ->
  g_chunks (s_g s') <> g_chunks (s_g s) ->
  forall n, 1 <= n <= g_chunks (s_g s) * TN_ARRAY_SIZE -> in_use s n.
Proof.
  intros R HO HS NE n B. pose proof (waste_reach _ _ R) as WI.
  pose proof (nodes_reach _ _ (thrifty_clean _ _ R)) as (N & _ & _). pose proof (ni_chunk _ N) as (C1 & C2 & C3).
  pose proof (calm_reach _ _ R (proj1 (proj2 (proj2 HO)))) as CA.
  apply step_view in HS. destruct HS as (_ & LV & V).
  destruct V as [E1 E2|E1 E2|E1 E2|f r E1 E2|f r E1 E2 E3 E4 E5|r E1 E2 E3 E4|E1 E2 E3|f r e Hst Hun Hbar Hfs Es'];
      subst; try (exfalso; now apply NE).
  rewrite apply_g in NE. assert (IF : In f (th_stack (s_th s t))) by (rewrite Hst; now left).
  assert (X : exists q my d, f = FPCArray q my d /\ g_pos (s_g s) = TN_ARRAY_SIZE).
  { pose proof (ca_fr _ CA _ _ IF) as OF. clear - Hfs NE C3 OF. destruct (lister f) eqn:L.
    - destruct f; cbn in L, OF; try discriminate L; try discriminate OF;
        destruct c; cbn [frame_step auto_step] in Hfs; try discriminate Hfs.
      + destruct p; try discriminate L. cbn in Hfs. unfold ret, list_insert in Hfs. inversion Hfs; subst; cbn in NE.
        destruct (memb _ _); now elim NE.
      + destruct p; try discriminate L; cbn in Hfs; unfold ret, list_insert, list_delete in Hfs; inversion Hfs; subst; cbn in NE;
          destruct (memb _ _); now elim NE.
      + destruct (g_used (s_g s)); inversion Hfs; subst; now elim NE.
      + unfold ret, list_delete in Hfs. inversion Hfs; subst; cbn in NE. destruct (memb _ _); now elim NE.
      + destruct (Z.ltb_spec (g_pos (s_g s)) TN_ARRAY_SIZE); unfold go, ret in Hfs; inversion Hfs; subst.
        * now elim NE.
        * exists q, my, d. split; [reflexivity|lia].
      + unfold ret in Hfs. inversion Hfs; subst. now elim NE.
    - destruct (lister_local _ _ _ _ _ _ _ _ _ Hfs L) as ((_ & _ & _ & _ & E) & _). now elim NE. }
  destruct X as (q & my & d & -> & PE).
  destruct (wa_acc _ WI n) as [F|U]; [|rewrite (wa_array _ WI _ _ _ _ IF) in F; destruct F|exact U].
  unfold handed_out. rewrite C1 in B. lia.
Qed.
