(** What a thread's frames know about its node: creation, number, data. *)
From Verif Require Export LifeFacts.

Local Open Scope nat_scope.

(** At most one frame of a stack belongs to the thread's own function. *)
Lemma bt_once dyn s t : reach dyn any s -> wsum (fun f => b2n (bt_frame f)) (th_stack (s_th s t)) <= 1.
Proof.
  intros R.
  assert (L : life (fun f => b2n (bt_frame f)) (fun _ => 0) s t <= 1).
  { revert t. revert s R. apply life_reach; try once_tac.
    intros st. destruct (unwind_shape st) as [U|(n & f & U & I & P)]; rewrite U; cbn; [lia|].
    clear U. induction st as [|x st IH]; [destruct I|]. cbn. destruct I as [->|I].
    - assert (E : bt_frame f = true) by (destruct P as [(q & -> & _)|(q & ->)]; reflexivity).
      rewrite E. cbn. lia.
    - specialize (IH I). lia. }
  unfold life in L. lia.
Qed.

Lemma bt_alone dyn s t f r f' : reach dyn any s -> th_stack (s_th s t) = f :: r ->
  bt_frame f = true -> In f' r -> bt_frame f' = false.
Proof.
  intros R Hst B I. pose proof (bt_once dyn s t R) as O. rewrite Hst in O. cbn [wsum] in O.
  rewrite B in O. cbn in O. destruct (bt_frame f') eqn:B'; [|reflexivity]. exfalso.
  assert (X : 1 <= wsum (fun f => b2n (bt_frame f)) r).
  { clear - I B'. induction r as [|x r IH]; [destruct I|]. cbn. destruct I as [->|I].
    - rewrite B'. cbn. lia.
    - specialize (IH I). lia. }
  clear - O X. lia.
Qed.

(** ** The fields only the owner writes *)

Definition same_core (x y : node) : Prop :=
  n_self x = n_self y /\ n_start x = n_start y /\ n_magic x = n_magic y /\ n_num x = n_num y /\
  n_arg x = n_arg y /\ n_data x = n_data y /\ n_bottom x = n_bottom y /\ n_appl x = n_appl y.

Lemma core_refl x : same_core x x.
Proof. repeat split. Qed.

Lemma core_set n m F g : same_core (F (nd g m)) (nd g m) -> same_core (nd (set_node m F g) n) (nd g n).
Proof.
  intros H. unfold nd, set_node. cbn. rewrite upd_if. destruct (Z.eqb_spec n m) as [->|]; [exact H|].
  apply core_refl.
Qed.
Lemma nd_set_other n m F g : n <> m -> nd (set_node m F g) n = nd g n.
Proof. intros N. unfold nd, set_node. cbn. now rewrite upd_other. Qed.
Lemma nd_set_same n F g : nd (set_node n F g) n = F (nd g n).
Proof. unfold nd, set_node. cbn. now rewrite upd_same. Qed.

Lemma heap_local dyn t u g tsd nc f c e n :
  frame_step dyn t u g tsd nc f c = Some e -> n <> MAIN_TN -> holds n f = false ->
  same_core (nd (e_g e) n) (nd g n).
Proof.
  intros H N O.
  fs_cases H; cbn in O; brk H; inversion H; subst; clear H; cbn [e_g];
    try apply core_refl; try (apply Z.eqb_neq in O);
    try (match goal with |- same_core (nd (set_node _ _ _) _) _ => idtac end;
         first [ rewrite nd_set_other by (first [exact O|exact N]); apply core_refl
               | apply core_set; repeat split]).
  all: unfold reset_list, list_init, get_tn, nd, set_node; cbn; g_brk; cbn;
    rewrite ?upd_other by exact N; rewrite ?upd_other by exact O; try apply core_refl; try (rewrite upd_if;
      match goal with |- context [Z.eqb ?a ?b] => destruct (Z.eqb_spec a b); subst end; repeat split).
Qed.

(** ** Facts of frames *)

(** pre_create of call q returned d in thread c. *)
Definition given (c : Z) (q : creq) (d : Z) (tr : list event) : Prop :=
  In (ERet c (CbPreCreate (q_id q)) d) tr.
(** Thread t was created by call q of thread c, for which pre_create returned d. *)
Definition made (c : Z) (q : creq) (d t : Z) (tr : list event) : Prop :=
  In (ECreate c q t true) tr /\ given c q d tr.
(** init_thread of t was given k and d and returned v. *)
Definition inited (t k d v : Z) (tr : list event) : Prop := In (ERet t (CbInitThread k d) v) tr.

Definition numbered (p : btpc) : bool :=
  match p with BTIns | BTUnlock | BTInit | BTStore _ | BTStarted | BTCall | BTPop => true | _ => false end.
Definition stored (p : btpc) : bool :=
  match p with BTStarted | BTCall | BTPop => true | _ => false end.
Definition started (p : btpc) : bool := match p with BTCall | BTPop => true | _ => false end.
Definition selfless (p : btpc) : bool := match p with BTSelf => true | _ => false end.
Definition keyless (p : btpc) : bool := match p with BTSelf | BTTsd => true | _ => false end.

Definition bt_fact (tr : list event) (t : Z) (p : btpc) (x : node) : Prop :=
  exists c q d, made c q d t tr /\ n_start x = q_start q /\ n_arg x = q_arg q /\ n_magic x = true /\
    (selfless p = false -> n_self x = t /\ n_bottom x = t) /\
    (numbered p = true -> In (EReg t (n_num x)) tr) /\ n_appl x = started p /\
    (if stored p then inited t (n_num x) d (n_data x) tr else n_data x = d) /\
    match p with BTStore v => inited t (n_num x) d v tr | _ => True end.

Definition cl_fact (tr : list event) (t : Z) (x : node) : Prop :=
  exists c q d, made c q d t tr /\ n_start x = q_start q /\ n_arg x = q_arg q /\ n_magic x = true /\
    n_self x = t /\ n_bottom x = t /\ In (EReg t (n_num x)) tr /\
    (n_appl x = true -> inited t (n_num x) d (n_data x) tr) /\
    (n_data x = d \/ inited t (n_num x) d (n_data x) tr).

Definition fresh_node (x : node) : Prop := n_magic x = true /\ n_num x = (-1)%Z /\ n_appl x = false.

Definition run_fact (tr : list event) (t s a : Z) : Prop :=
  (exists c q, In (ECreate c q t false) tr /\ s = q_start q /\ a = q_arg q) \/
  (exists c q d k v, made c q d t tr /\ In (EReg t k) tr /\ inited t k d v tr /\
                     s = q_start q /\ a = q_arg q).

Definition Qdata (g : glob) (tr : list event) (tsd : option Z) (t : Z) (f : frame) : Prop :=
  match f with
  | FCb c (KPreCreate q _) => c = CbPreCreate (q_id q)
  | FPCGot q _ d | FPCLock q _ d | FPCPick q _ d | FPCTake q _ d _ | FPCArray q _ d
  | FPCInc q _ d _ | FPCZero q _ d _ => given t q d tr
  | FPCUnlock q _ d n | FPCFill q _ d n => given t q d tr /\ fresh_node (nd g n)
  | FPCReal q _ n => (exists d, given t q d tr /\ n_data (nd g n) = d) /\
      n_start (nd g n) = q_start q /\ n_arg (nd g n) = q_arg q /\ fresh_node (nd g n)
  | FBT p n => bt_fact tr t p (nd g n) /\ tsd = (if keyless p then None else Some n)
  | FCb c (KInitThread n) =>
      bt_fact tr t BTInit (nd g n) /\ c = CbInitThread (n_num (nd g n)) (n_data (nd g n)) /\ tsd = Some n
  | FCb c (KFiniCleanup n) =>
      cl_fact tr t (nd g n) /\ c = CbFiniThread (n_data (nd g n)) /\ tsd = Some n
  | FClean p n => match p with
                  | CLFree | CLUnlock => True
                  | _ => cl_fact tr t (nd g n) /\ tsd = Some n
                  end
  | FRun s a => run_fact tr t s a
  | _ => True
  end.

Lemma given_mono c q d tr ev : given c q d tr -> given c q d (ev ++ tr).
Proof. unfold given. rewrite in_app_iff. auto. Qed.
Lemma made_mono c q d t tr ev : made c q d t tr -> made c q d t (ev ++ tr).
Proof. intros [A B]. split; [rewrite in_app_iff; auto|now apply given_mono]. Qed.
Lemma inited_mono t k d v tr ev : inited t k d v tr -> inited t k d v (ev ++ tr).
Proof. unfold inited. rewrite in_app_iff. auto. Qed.

Lemma bt_mono tr ev t p x y : same_core y x -> bt_fact tr t p x -> bt_fact (ev ++ tr) t p y.
Proof.
  intros (C1 & C2 & C3 & C4 & C5 & C6 & C7 & C8) (c & q & d & M & A1 & A2 & A3 & A4 & A5 & A6 & A7 & A8).
  exists c, q, d. rewrite C1, C2, C3, C4, C5, C6, C7, C8.
  split; [now apply made_mono|]. do 4 (split; [assumption|]).
  split; [intros N; rewrite in_app_iff; auto|]. split; [assumption|].
  split; [destruct (stored p); [now apply inited_mono|assumption]|].
  destruct p; auto. now apply inited_mono.
Qed.
Lemma cl_mono tr ev t x y : same_core y x -> cl_fact tr t x -> cl_fact (ev ++ tr) t y.
Proof.
  intros (C1 & C2 & C3 & C4 & C5 & C6 & C7 & C8) (c & q & d & M & A1 & A2 & A3 & A4 & A5 & A6 & A7 & A8).
  exists c, q, d. rewrite C1, C2, C3, C4, C5, C6, C7, C8.
  split; [now apply made_mono|]. do 5 (split; [assumption|]).
  split; [rewrite in_app_iff; auto|]. split; [intros; now apply inited_mono; auto|].
  destruct A8; [now left|right]. now apply inited_mono.
Qed.
Lemma run_mono tr ev t s a : run_fact tr t s a -> run_fact (ev ++ tr) t s a.
Proof.
  intros [(c & q & A & B)|(c & q & d & k & v & A & B & C & D)].
  - left. exists c, q. rewrite in_app_iff. auto.
  - right. exists c, q, d, k, v. split; [now apply made_mono|]. split; [rewrite in_app_iff; auto|].
    split; [now apply inited_mono|exact D].
Qed.

Lemma Qdata_mono g g' tr ev tsd tsd' t f :
  (forall n, holds n f = true -> same_core (nd g' n) (nd g n)) ->
  (bt_frame f = true -> tsd' = tsd) ->
  Qdata g tr tsd t f -> Qdata g' (ev ++ tr) tsd' t f.
Proof.
  intros H T. destruct f; cbn in *; auto; try apply given_mono; try apply run_mono.
  - destruct k; cbn in *; auto.
    + specialize (H n (Z.eqb_refl _)). intros (A & B & C). split; [eapply bt_mono; eauto|].
      destruct H as (_ & _ & _ & -> & _ & -> & _). split; [exact B|]. rewrite T; auto.
    + specialize (H n (Z.eqb_refl _)). intros (A & B & C). split; [eapply cl_mono; eauto|].
      destruct H as (_ & _ & _ & _ & _ & -> & _). split; [exact B|]. rewrite T; auto.
  - specialize (H n (Z.eqb_refl _)). intros (A & B). split; [eapply bt_mono; eauto|]. rewrite T; auto.
  - destruct p; auto; (specialize (H n (Z.eqb_refl _)); intros (A & B); split; [eapply cl_mono; eauto|rewrite T; auto]).
  - specialize (H n (Z.eqb_refl _)). intros (A & B). split; [now apply given_mono|].
    unfold fresh_node in *. destruct H as (_ & _ & -> & -> & _ & _ & _ & ->). exact B.
  - specialize (H n (Z.eqb_refl _)). intros (A & B). split; [now apply given_mono|].
    unfold fresh_node in *. destruct H as (_ & _ & -> & -> & _ & _ & _ & ->). exact B.
  - specialize (H n (Z.eqb_refl _)). intros ((x & A & B) & C & D & E).
    unfold fresh_node in *. destruct H as (_ & -> & -> & -> & -> & -> & _ & ->).
    split; [|auto]. exists x. split; [now apply given_mono|exact B].
Qed.

(** The new frames of a step. *)
Ltac bt_open Q :=
  destruct Q as ((c0 & q0 & d0 & M & A1 & A2 & A3 & A4 & A5 & A6 & A7 & A8) & B); cbn in A4, A5, A6, A7, A8;
  rewrite ?upd_same; split; [exists c0, q0, d0; unfold nd in *; cbn|cbn; auto].
Ltac bt_rest := try (split; [assumption|]); repeat split; auto; intros; try discriminate; try match goal with A : _ -> _ /\ _ |- _ => now apply A end; auto.

Lemma bt_cl tr t p x : pushed p = true -> bt_fact tr t p x -> cl_fact tr t x.
Proof.
  intros P (c & q & d & M & A1 & A2 & A3 & A4 & A5 & A6 & A7 & A8).
  exists c, q, d. destruct A4 as [S1 S2]; [destruct p; try discriminate P; reflexivity|].
  split; [exact M|]. do 5 (split; [assumption|]).
  split; [apply A5; destruct p; try discriminate P; reflexivity|].
  rewrite A6. split.
  - intros S. assert (X : stored p = true) by (destruct p; try discriminate; reflexivity).
    rewrite X in A7. exact A7.
  - destruct (stored p); [right|left]; exact A7.
Qed.

Lemma made_cons c q d t tr e : made c q d t tr -> made c q d t (e :: tr).
Proof. apply (made_mono _ _ _ _ _ [e]). Qed.

Lemma bt_cons tr e t p x : bt_fact tr t p x -> bt_fact (e :: tr) t p x.
Proof. apply (bt_mono tr [e]). apply core_refl. Qed.
Lemma cl_cons tr e t x : cl_fact tr t x -> cl_fact (e :: tr) t x.
Proof. apply (cl_mono tr [e]). apply core_refl. Qed.
Lemma cl_core tr t x y : same_core y x -> cl_fact tr t x -> cl_fact tr t y.
Proof. apply (cl_mono tr []). Qed.

Lemma Qdata_new dyn t u g tr tsd nc f c e :
  frame_step dyn t u g tsd nc f c = Some e -> Qdata g tr tsd t f ->
  forall f', In f' (e_fr e) -> Qdata (e_g e) (e_ev e ++ tr) (e_tsd e) t f'.
Proof.
  intros H Q.
  fs_cases H; brk H; inversion H; subst; clear H; cbn [e_g e_fr e_ev e_tsd]; intros f' I';
    cbn in I'; repeat (destruct I' as [<-|I']; [cbn in Q |- *; try exact I; auto|]); try (destruct I'; fail).
  - bt_open Q. bt_rest.
  - bt_open Q. bt_rest.
  - bt_open Q. split; [now apply made_cons|]. do 3 (split; [assumption|]). repeat split; auto; intros; try (apply A4; reflexivity); auto.
  - destruct Q as [Q B]. split; [now apply bt_cons|auto].
  - bt_open Q. bt_rest.
  - bt_open Q. bt_rest.
  - destruct Q as ((c0 & q0 & d0 & M & A1 & A2 & A3 & A4 & A5 & A6 & A7 & A8) & B). cbn in *.
    right. exists c0, q0, d0, (n_num (nd g n)), (n_data (nd g n)). auto.
  - destruct Q as [Q B]. split; [|exact B]. eapply bt_cl; [|exact Q]. reflexivity.
  - destruct Q as [Q B]. split; [|exact B]. rewrite upd_same. eapply cl_core; [|exact Q]. repeat split.
  - destruct Q as [Q B]. split; [now apply cl_cons|auto].
  - destruct Q as [Q B]. split; [|exact B]. rewrite upd_same. eapply cl_core; [|exact Q]. repeat split.
  - destruct Q as [Q B]. split; [|exact B]. rewrite upd_same. eapply cl_core; [|exact Q]. repeat split.
  - split; [exact Q|]. rewrite upd_same. repeat split.
  - destruct Q as [Q (B1 & B2 & B3)]. rewrite upd_same. cbn. split; [eauto|]. repeat split; auto.
  - unfold nd in *. destruct k; cbn in *; auto; destruct Q as (A & B & C);
      (split; [first [now apply bt_cons|now apply cl_cons]|auto]).
  - left. now rewrite Q.
  - destruct Q as ((c0 & q0 & d0 & M & A1 & A2 & A3 & A4 & A5 & A6 & A7 & A8) & B & C). cbn in *.
    split; [|exact C]. exists c0, q0, d0. split; [now apply made_cons|].
    do 4 (split; [assumption|]). split; [intros; right; auto|]. split; [assumption|].
    split; [assumption|]. left. now rewrite B, A7.
  - destruct Q as (A & B & C). split; [now apply cl_cons|exact C].
Qed.

Lemma Qdata_born dyn t u g tr tsd nc f c e :
  frame_step dyn t u g tsd nc f c = Some e -> Qdata g tr tsd t f ->
  forall st f', e_new e = Some st -> In f' st -> Qdata (e_g e) (e_ev e ++ tr) None u f'.
Proof.
  intros H Q.
  fs_cases H; brk H; inversion H; subst; clear H; cbn [e_g e_fr e_ev e_tsd e_new]; intros st f' EQN I';
    try discriminate; inversion EQN; subst; clear EQN; cbn in I';
    repeat (destruct I' as [<-|I']; [cbn in Q |- *; try exact I; auto|]); try (destruct I'; fail).
  - left. exists t, q. split; [now left|auto].
  - destruct Q as ((d & A & B) & C & D & E1 & E2 & E3). split; [|reflexivity].
    exists t, q, d. split; [split; [now left|right; exact A]|].
    repeat split; auto; intros; discriminate.
Qed.

Definition clean_data := ft_inv Qdata.

Lemma clean_any dyn s : reach dyn clean_forks s -> reach dyn any s.
Proof. apply reach_weaken. intros. exact I. Qed.

Lemma tsd_local dyn t u g tsd nc f c e :
  frame_step dyn t u g tsd nc f c = Some e ->
  e_tsd e = tsd \/ (exists n, f = FBT BTTsd n) \/ (exists q, f = FPCInit q /\ g_used g = false) \/
  resetting f = true.
Proof.
  intros H. fs_cases H; brk H; inversion H; subst; clear H; cbn; auto; eauto 6.
Qed.

Lemma data_reach dyn s : reach dyn clean_forks s -> clean_data s.
Proof.
  apply ft_reach.
  - intros t f I. cbn in I. rewrite upd_if in I. destruct (Z.eqb t MAIN); [|destruct I].
    cbn in I. repeat destruct I as [<-|I]; try exact I. all: destruct I.
  - intros g tr d t f e t' _ Q. apply (Qdata_mono g g tr [e] d d); auto. intros. apply core_refl.
  - intros s0 t c f _ _ _ _ _ _ I. cbn in I. repeat destruct I as [<-|I]; try exact I. all: destruct I.
  - intros. exact I.
  - intros g tr d t n f P Q. cbn. destruct P as [(p & -> & P)|(c & ->)]; cbn in Q.
    + destruct Q as [Q T]. split; [eapply bt_cl; eauto|]. rewrite T. destruct p; try discriminate P; reflexivity.
    + destruct Q as (Q & _ & T). split; [|exact T]. eapply bt_cl; [|exact Q]. reflexivity.
  - intros s0 t c f r e R FI HO Hst LV Hfs.
    pose proof (clean_any _ _ R) as RA. pose proof (who_reach _ _ R) as W.
    pose proof (nodes_reach _ _ R) as (N & _ & _).
    assert (IN : In f (th_stack (s_th s0 t))) by (rewrite Hst; now left).
    assert (CORE : forall t' f', (t' = t /\ In f' r) \/ (t' <> t /\ In f' (th_stack (s_th s0 t'))) ->
              forall n, holds n f' = true -> same_core (nd (e_g e) n) (nd (s_g s0) n)).
    { intros t' f' D n H'. eapply heap_local; [exact Hfs| |].
      - assert (AL : alloc (s_g s0) n).
        { destruct D as [[-> J]|[X J]]; [apply (held_alloc s0 t f')|apply (held_alloc s0 t' f')]; auto.
          rewrite Hst. now right. }
        intros ->. unfold alloc, MAIN_TN in AL. clear - AL. lia.
      - destruct (holds n f) eqn:Hf; [|reflexivity].
        rewrite (own_unique s0 t f r n t' f' N Hst Hf D) in H'. discriminate. }
    split; [|split; [|split]].
    + eapply Qdata_new; eauto.
    + intros f' J. apply Qdata_mono; [apply (CORE t f'); auto|].
      intros B. destruct (tsd_local _ _ _ _ _ _ _ _ _ Hfs) as [T|[(n & ->)|[(q & -> & U)|RS]]].
      * exact T.
      * rewrite (bt_alone dyn s0 t _ r f' RA Hst eq_refl J) in B. discriminate.
      * destruct (Z.eq_dec t MAIN) as [->|X].
        -- rewrite (who_bt _ W f') in B; [discriminate|]. rewrite Hst. now right.
        -- rewrite (who_alone _ W U t X) in LV. discriminate.
      * destruct (who_reset _ W t) as (-> & _); [rewrite Hst; cbn; now rewrite RS|].
        rewrite (who_bt _ W f') in B; [discriminate|]. rewrite Hst. now right.
    + intros HC t' f' X J. apply Qdata_mono; [apply (CORE t' f'); auto|auto].
    + eapply Qdata_born; eauto.
Qed.
