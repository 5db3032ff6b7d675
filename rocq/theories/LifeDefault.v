(** Default callbacks: proofs for LifeDefaultProps.v. *)
From Verif Require Import LifeDefaultSpec.
From Verif Require Export LifeBase.

Local Open Scope Z_scope.

(** ** The value a callback returned *)

Definition ret_ok (f : cb -> bool) (e : event) : Prop :=
  match e with ERet _ x v => f x = true -> v = default_ret x | _ => True end.

Lemma ret_local f dyn t u g tsd nc fr c e :
  frame_step dyn t u g tsd nc fr c = Some e ->
  (forall x k v, fr = FCb x k -> c = CRet v -> f x = true -> v = default_ret x) ->
  forall ev, In ev (e_ev e) -> ret_ok f ev.
Proof.
  intros H D ev I.
  fs_cases H; brk H; inversion H; subst; clear H; cbn in I;
    repeat (destruct I as [<-|I]; [|]); try (now destruct I); cbn; auto;
    intros X; eapply D; eauto.
Qed.

Lemma ret_reach f dyn s :
  reach dyn (undefined f) s -> forall ev, In ev (s_tr s) -> ret_ok f ev.
Proof.
  revert s. apply (reach_invariant dyn (undefined f) (fun s => forall ev, In ev (s_tr s) -> ret_ok f ev)).
  - cbn. intros ev I. repeat (destruct I as [<-|I]; [exact Logic.I|]). destruct I.
  - intros s t c s' _ IH OK ST. apply step_view in ST. destruct ST as (_ & _ & V).
    destruct V as [E ->|E ->|E _ _ _ ->|fr r E _ _ _ _ ->|fr r E _ _ _ ->|r E _ _ ->|E _ ->|fr r e E _ _ FS ->];
      cbn [set_th s_tr add_ev app]; auto;
      try (intros ev [<-|I]; [exact Logic.I|auto]; fail).
    rewrite apply_tr. intros ev I. apply in_app_or in I. destruct I as [I|I]; [|auto].
    eapply ret_local; [exact FS| |exact I]. intros x k v -> -> F. eapply OK; eauto.
Qed.

(** ** All data is null *)

Definition zero_cb (c : cb) : bool := match cb_data c with Some d => d =? 0 | None => true end.
Definition zero_frame (f : frame) : bool :=
  match f with
  | FCb c _ => zero_cb c
  | FCall (PPostFork d) => d =? 0
  | FBPCas d _ | FBPReset d | FBPLib d | FBPDone d | FBPInit d | FBPStore d => d =? 0
  | FPCGot _ _ d | FPCLock _ _ d | FPCPick _ _ d | FPCArray _ _ d => d =? 0
  | FPCTake _ _ d _ | FPCInc _ _ d _ | FPCZero _ _ d _ | FPCUnlock _ _ d _ | FPCFill _ _ d _ => d =? 0
  | FForkGo d => d =? 0
  | FBT (BTStore v) _ => v =? 0
  | _ => true
  end.
Definition zero_ev (e : event) : Prop := forall d, data_of e = Some d -> d = 0.
Definition zero_nodes (g : glob) : Prop := forall n, n_data (nd g n) = 0.

Lemma default_zero c : zero_cb c = true -> default_ret c = 0.
Proof. unfold zero_cb. destruct c; cbn; intros; try reflexivity; now apply Z.eqb_eq. Qed.

Lemma zero_set n f g :
  zero_nodes g -> (forall x, n_data x = 0 -> n_data (f x) = 0) -> zero_nodes (set_node n f g).
Proof.
  intros Z F m. unfold set_node, nd. cbn. rewrite upd_if. destruct (Z.eqb_spec m n); [|apply Z].
  apply F. apply Z.
Qed.

Lemma zero_reset tsd g : zero_nodes g -> zero_nodes (reset_list tsd g).
Proof.
  intros Z. unfold reset_list. destruct (g_used g); [|exact Z]. cbv zeta.
  assert (Y : zero_nodes match get_tn g tsd with
    | Some n => if n =? MAIN_TN then g else set_node MAIN_TN
       (fun _ => set_n_bottom (n_bottom (nd g n)) (set_n_data (n_data (nd g n)) node_main)) g
    | None => g end).
  { destruct (get_tn g tsd) as [n|]; [|exact Z]. destruct (n =? MAIN_TN); [exact Z|].
    apply zero_set; [exact Z|]. intros x _. cbn. apply Z. }
  intros m. apply (Y m).
Qed.

Lemma zero_local dyn t u g tsd nc f c e :
  frame_step dyn t u g tsd nc f c = Some e ->
  (forall x k v, f = FCb x k -> c = CRet v -> v = default_ret x) ->
  zero_nodes g -> zero_frame f = true ->
  zero_nodes (e_g e) /\ forallb zero_frame (e_fr e) = true /\
  Forall zero_ev (e_ev e) /\
  (forall l, e_new e = Some l -> forallb zero_frame l = true).
Proof.
  intros H D Z F.
  assert (DV : forall x k v, f = FCb x k -> c = CRet v -> v = 0).
  { intros x k v E1 E2. rewrite (D x k v E1 E2). subst f. now apply default_zero. }
  clear D.
  fs_cases H; brk H; inversion H; subst; clear H; cbn in F;
    try (specialize (DV _ _ _ eq_refl eq_refl)); subst;
    (split; [|split; [|split]]); cbn [e_g e_fr e_ev e_new];
    try (cbn; rewrite ?F; unfold zero_cb; cbn; rewrite ?Z; cbn; rewrite ?F; reflexivity);
    try (intros ? X; discriminate X);
    try (intros ? X; injection X as <-; reflexivity);
    try exact Z;
    try (repeat constructor; intros d' EE; cbn in EE; try discriminate EE; try (injection EE as <-);
         try apply Z.eqb_eq in F; auto; fail);
    try (intros m; apply Z);
    try (apply zero_set; [try exact Z; try (intros m; apply Z); try apply zero_reset; try (intros m; apply Z)|intros x' X; cbn; try apply Z.eqb_eq in F; auto]; fail);
    try (apply zero_reset; exact Z).
  (* a query *)
  repeat constructor. intros d EE. destruct q; try discriminate EE. cbn in EE. injection EE as <-.
  destruct (get_tn g tsd); auto.
Qed.

Lemma zero_unwind st : forallb zero_frame st = true -> forallb zero_frame (unwind st) = true.
Proof. intros _. destruct (unwind_shape st) as [->|(n & f & -> & _)]; reflexivity. Qed.

Definition zero_inv (s : state) : Prop :=
  zero_nodes (s_g s) /\ (forall t, forallb zero_frame (th_stack (s_th s t)) = true) /\ Forall zero_ev (s_tr s).

Lemma zero_reach dyn s : reach dyn (undefined every) s -> zero_inv s.
Proof.
  revert s. apply reach_invariant.
  - split; [|split].
    + intros n. unfold nd. cbn. unfold upd. destruct (n =? _); reflexivity.
    + intros t. cbn. rewrite upd_if. destruct (t =? _); reflexivity.
    + constructor.
  - intros s t c s' _ (IN & IT & IE) OK ST. apply step_view in ST. destruct ST as (_ & _ & V).
    assert (SET : forall x, forallb zero_frame (th_stack x) = true ->
              forall t', forallb zero_frame (th_stack (s_th (set_th s t x) t')) = true).
    { intros x X t'. cbn. rewrite upd_if. destruct (t' =? t); auto. }
    destruct V as [E ->|E ->|E _ _ _ ->|fr r E _ SE _ _ ->|fr r E SE _ _ ->|r E SE _ ->|E SE ->|fr r e SE _ _ FS ->];
      try (split; [exact IN|split; [intros t'; cbn [add_ev s_th]; apply SET; cbn [th_stack with_stack forallb zero_frame]|
        cbn [set_th add_ev s_tr app]; repeat (constructor; [intros d D; discriminate D|]); exact IE]]);
      try (apply IT); try reflexivity.
    + apply zero_unwind, IT.
    + apply zero_unwind. specialize (IT t). rewrite SE in IT. apply andb_prop in IT. apply IT.
    + pose proof (IT t) as IT'. rewrite SE in IT'. apply andb_prop in IT'. destruct IT' as [F R].
      destruct (zero_local _ _ _ _ _ _ _ _ _ FS) as (A & B & C & D); auto.
      { intros x k v -> ->. eapply OK; eauto. }
      split; [|split].
      * now rewrite apply_g.
      * intros t'. destruct (e_child e) eqn:CH.
        -- destruct (child_shape _ _ _ _ _ _ _ _ _ FS CH) as (_ & _ & _ & _ & _ & N & K & _).
           unfold apply_eff. rewrite CH, N, K. cbn [s_th]. rewrite upd_if. destruct (t' =? t); [|reflexivity].
           cbn [th_stack]. now rewrite forallb_app, B.
        -- rewrite (apply_stack _ _ _ _ _ _ CH).
           destruct (e_new e) as [l|] eqn:NE; repeat match goal with |- context [Z.eqb ?a ?b] => destruct (Z.eqb a b) end;
             auto; rewrite ?forallb_app, ?B; auto.
      * rewrite apply_tr. apply Forall_app. auto.
Qed.

(** ** Where the argument of init_process and post_fork comes from *)

Definition fork_value (tr : list event) (t d : Z) : Prop := In (ERet t CbPreFork d) tr.
Definition src_frame (g : glob) (tr : list event) (t : Z) (f : frame) : Prop :=
  match f with
  | FCb x KPreFork => x = CbPreFork
  | FForkGo d | FCall (PPostFork d) => fork_value tr t d
  | FBPCas d _ | FBPReset d | FBPLib d | FBPDone d | FBPInit d => d = 0 \/ fork_value tr t d
  | _ => True
  end.

Lemma src_more g g' tr ev t f : src_frame g tr t f -> src_frame g' (ev ++ tr) t f.
Proof.
  assert (K : forall d, fork_value tr t d -> fork_value (ev ++ tr) t d).
  { intros d. unfold fork_value. intros. apply in_or_app. now right. }
  destruct f; cbn; auto; try (intros [H|H]; auto). destruct p; cbn; auto.
Qed.

Lemma src_reach dyn s : reach dyn any s -> fr_inv src_frame s.
Proof.
  apply fr_reach.
  - intros t f I. cbn in I. rewrite upd_if in I. destruct (t =? _); cbn in I;
      repeat (destruct I as [<-|I]; [exact Logic.I|]); destruct I.
  - intros g tr t f e t' _ H. exact (src_more _ _ _ [e] _ _ H).
  - intros g tr t f I. repeat (destruct I as [<-|I]; [exact Logic.I|]). destruct I.
  - intros. exact Logic.I.
  - clear s. intros s t c f r e R HI _ ST _ FS.
    assert (HF : src_frame (s_g s) (s_tr s) t f) by (apply HI; rewrite ST; now left).
    split; [|split].
    + intros f' I. fs_cases FS; brk FS; inversion FS; subst; clear FS; cbn in I;
        repeat (destruct I as [<-|I]; [|]); try (now destruct I); cbn in HF |- *; subst; auto;
        unfold fork_value in *; cbn in HF |- *; intuition.
    + intros t' f' _ H. eapply src_more. exact H.
    + intros st f' N I. fs_cases FS; brk FS; inversion FS; subst; clear FS; cbn in N; try discriminate N;
        injection N as <-; cbn in I; repeat (destruct I as [<-|I]; [exact Logic.I|]); destruct I.
Qed.

Definition src_ev (b : list event) (e : event) : Prop :=
  match e with
  | ECall t (CbInitProcess d) => d = 0 \/ fork_value b t d
  | ECall t (CbPostFork d) => fork_value b t d
  | _ => True
  end.
Lemma src_hist dyn s : reach dyn any s -> hist src_ev (s_tr s).
Proof.
  apply hist_reach; try (intros; exact Logic.I).
  clear s. intros s t c f r e R _ _ ST _ FS.
  assert (HF : src_frame (s_g s) (s_tr s) t f) by (apply (src_reach _ _ R); rewrite ST; now left).
  fs_cases FS; brk FS; inversion FS; subst; clear FS; cbn in HF |- *; auto.
Qed.
