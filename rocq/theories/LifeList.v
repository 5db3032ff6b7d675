(** The registered threads: what the thread list says about each of them. *)
From Verif Require Export LifeData.

Local Open Scope nat_scope.

(** ** Frames after fini_thread *)

Definition after_fini (p : clpc) : bool :=
  match p with CLChk | CLDone | CLSet | CLCall => false | _ => true end.

Definition Qfini (_ : glob) (tr : list event) (t : Z) (f : frame) : Prop :=
  match f with
  | FCb c (KFiniCleanup _) => exists d, c = CbFiniThread d
  | FClean p _ => after_fini p = true -> exists d v, In (ERet t (CbFiniThread d) v) tr
  | _ => True
  end.

Lemma Qfini_mono g g' tr ev t f : Qfini g tr t f -> Qfini g' (ev ++ tr) t f.
Proof.
  destruct f; cbn; auto. intros H P. destruct (H P) as (d & v & J). exists d, v.
  rewrite in_app_iff. auto.
Qed.

Lemma fini_frames dyn s : reach dyn any s -> fr_inv Qfini s.
Proof.
  apply fr_reach.
  - intros t f I. cbn in I. rewrite upd_if in I. destruct (Z.eqb t MAIN); [|destruct I].
    cbn in I. repeat destruct I as [<-|I]; try exact I. all: destruct I.
  - intros g tr t f e t' _ H. apply (Qfini_mono g g tr [e]). exact H.
  - intros g tr t f I. cbn in I. repeat destruct I as [<-|I]; try exact I. all: destruct I.
  - intros g tr t n f _ _. cbn. discriminate.
  - intros s0 t c f r e R FI _ Hst LV Hfs.
    assert (QF : Qfini (s_g s0) (s_tr s0) t f) by (apply FI; rewrite Hst; now left).
    split; [|split].
    + clear FI. revert QF. generalize (s_tr s0). intros tr QF.
      fs_cases Hfs; brk Hfs; inversion Hfs; subst; clear Hfs; cbn [e_fr e_ev e_g]; intros f' I';
      cbn in I'; repeat (destruct I' as [<-|I']; [cbn in *; try exact I; auto; try discriminate|]);
      try (destruct I'; fail); eauto.
      intros _. destruct QF as (d & ->). exists d, v. now left.
    + intros t' f' _ Q. now apply (Qfini_mono (s_g s0)).
    + intros st f' EN I'. revert EN I'. generalize (s_tr s0). intros tr EN I'.
      fs_cases Hfs; brk Hfs; inversion Hfs; subst; clear Hfs; cbn in EN; try discriminate EN;
      inversion EN; subst; clear EN; cbn in I';
      repeat (destruct I' as [<-|I']; [exact I|]); destruct I'.
Qed.

(** ** The nodes on the list *)

Record listed_inv (s : state) : Prop := mklisted {
  li_used : g_used (s_g s) = false -> g_list (s_g s) = [];
  li_fact : existsb resetting (th_stack (s_th s MAIN)) = false ->
    forall n, In n (g_list (s_g s)) -> n <> MAIN_TN ->
      cl_fact (s_tr s) (n_self (nd (s_g s) n)) (nd (s_g s) n) /\
      th_tsd (s_th s (n_self (nd (s_g s) n))) = Some n
}.

Lemma bt_cl' tr t p x : numbered p = true -> bt_fact tr t p x -> cl_fact tr t x.
Proof.
  intros P (c & q & d & M & A1 & A2 & A3 & A4 & A5 & A6 & A7 & A8).
  exists c, q, d. destruct A4 as [S1 S2]; [destruct p; try discriminate P; reflexivity|].
  split; [exact M|]. do 5 (split; [assumption|]).
  split; [apply A5; destruct p; try discriminate P; reflexivity|].
  rewrite A6. split.
  - intros S. assert (X : stored p = true) by (destruct p; try discriminate; reflexivity).
    rewrite X in A7. exact A7.
  - destruct (stored p); [right|left]; exact A7.
Qed.

(** The list after a step. *)
Lemma list_local dyn t u g tsd nc f c e :
  frame_step dyn t u g tsd nc f c = Some e ->
  (g_used (e_g e) = false -> g_used g = false \/ resetting f = true) /\
  (g_list (e_g e) = g_list g \/ (exists n, f = FBT BTIns n /\ g_list (e_g e) = n :: g_list g) \/
   (exists n, f = FClean CLRemove n /\ g_list (e_g e) = without n (g_list g)) \/
   (exists old, f = FSMain old /\ n_self (nd g MAIN_TN) <> t /\ g_list (e_g e) = MAIN_TN :: g_list g) \/
   (g_list (e_g e) = [])) /\
  (resetting f = true -> existsb resetting (e_fr e) = false -> g_used g = true -> g_list (e_g e) = []).
Proof.
  intros H. split; [|split].
  - fs_cases H; brk H; inversion H; subst; clear H; cbn; auto; g_brk; auto; intros; try discriminate; auto; congruence.
  - fs_cases H; brk H; inversion H; subst; clear H; cbn; auto; g_brk; auto; eauto 8.
    all: right; right; right; left; exists old; split; [reflexivity|]; split; [now apply Z.eqb_neq|reflexivity].
  - fs_cases H; brk H; inversion H; subst; clear H; cbn; intros A B C; try discriminate;
      unfold reset_list; rewrite ?C; cbn; auto; g_brk; auto.
  all: congruence.
Qed.

(** The owner's step keeps the facts of its node while the node is listed. *)
Lemma owner_step dyn t u g tr tsd nc f c e n :
  frame_step dyn t u g tsd nc f c = Some e -> holds n f = true -> n <> MAIN_TN ->
  Qdata g tr tsd t f -> In n (g_list g) -> Qlist g f -> In n (g_list (e_g e)) ->
  cl_fact tr (n_self (nd g n)) (nd g n) ->
  n_self (nd (e_g e) n) = n_self (nd g n) /\
  (n_appl (nd g n) = true -> n_appl (nd (e_g e) n) = true) /\
  cl_fact (e_ev e ++ tr) (n_self (nd g n)) (nd (e_g e) n).
Proof.
  intros H HO NM Q IN QL IN' CF.
  assert (D : same_core (nd (e_g e) n) (nd g n) \/
     (exists v, f = FBT (BTStore v) n) \/ f = FBT BTStarted n).
  { fs_cases H; cbn in HO; try discriminate HO; try (apply Z.eqb_eq in HO; subst); brk H; inversion H; subst;
      clear H; cbn [e_g e_fr] in *; cbn in QL; try (contradiction); try (left; apply core_refl); eauto;
      try (left; unfold nd; cbn; rewrite ?upd_same; repeat split; fail).
    all: left; unfold nd; cbn; try apply core_refl.
    all: destruct (g_inexit g); apply core_refl. }
  destruct D as [D|[(v & ->)| ->]].
  - pose proof D as (S & _ & _ & _ & _ & _ & _ & AP). split; [exact S|]. split; [now rewrite AP|].
    apply cl_mono with (x := nd g n); [exact D|exact CF].
  - destruct c; try discriminate H. cbn in H. inversion H; subst; clear H. cbn [e_g e_ev app].
    rewrite nd_set_same. cbn in Q |- *. split; [reflexivity|]. split; [auto|].
    destruct Q as [(c & q & d & M & A1 & A2 & A3 & A4 & A5 & A6 & A7 & A8) T]. cbn in *.
    destruct (A4 eq_refl) as [S1 S2]. rewrite S1.
    exists c, q, d. cbn. repeat (split; [assumption|]). split; [apply A5; reflexivity|].
    split; [intros; exact A8|right; exact A8].
  - destruct c; try discriminate H. cbn in H. inversion H; subst; clear H. cbn [e_g e_ev app].
    rewrite nd_set_same. cbn in Q |- *. split; [reflexivity|]. split; [auto|].
    destruct Q as [(c & q & d & M & A1 & A2 & A3 & A4 & A5 & A6 & A7 & A8) T]. cbn in *.
    destruct (A4 eq_refl) as [S1 S2]. rewrite S1.
    exists c, q, d. cbn. repeat (split; [assumption|]). split; [apply A5; reflexivity|].
    split; [intros; exact A7|right; exact A7].
Qed.

(** ** The main thread's node *)

(** thread_shootdown before it reads the main node. *)
Definition shooting (f : frame) : bool :=
  match f with FSLock _ | FSSet _ | FSUnlock _ | FSInstall _ | FSMain _ => true | _ => false end.

Record main_inv (s : state) : Prop := mkmain {
  mi_tsd : th_tsd (s_th s MAIN) = None \/ th_tsd (s_th s MAIN) = Some MAIN_TN;
  mi_used : g_used (s_g s) = true -> th_tsd (s_th s MAIN) = Some MAIN_TN;
  mi_node : n_main (nd (s_g s) MAIN_TN) = true /\ n_magic (nd (s_g s) MAIN_TN) = true /\
            n_num (nd (s_g s) MAIN_TN) = 0%Z;
  mi_self : g_used (s_g s) = true \/ (exists t f, In f (th_stack (s_th s t)) /\ shooting f = true) ->
            n_self (nd (s_g s) MAIN_TN) = MAIN
}.

(** What a step does to the main node. *)
Definition main_same (x y : node) : Prop :=
  n_main x = n_main y /\ n_magic x = n_magic y /\ n_num x = n_num y.

Lemma ms_refl x : main_same x x.
Proof. repeat split. Qed.

Lemma reset_main tsd g n : tsd = None \/ tsd = Some MAIN_TN -> nd (reset_list tsd g) n = nd g n.
Proof.
  intros T. unfold reset_list, get_tn. destruct (g_used g) eqn:U; [|reflexivity].
  destruct T as [-> | ->]; cbn; [reflexivity|]. destruct (n_magic (nd g MAIN_TN)); reflexivity.
Qed.

Lemma main_local dyn t u g tsd nc f c e :
  frame_step dyn t u g tsd nc f c = Some e -> holds MAIN_TN f = false ->
  (resetting f = true -> tsd = None \/ tsd = Some MAIN_TN) ->
  main_same (nd (e_g e) MAIN_TN) (nd g MAIN_TN) /\
  (n_self (nd (e_g e) MAIN_TN) = n_self (nd g MAIN_TN) \/ (g_used g = false /\ exists q, f = FPCInit q)) /\
  (forall q, f = FPCInit q -> g_used g = false ->
     n_self (nd (e_g e) MAIN_TN) = t /\ g_used (e_g e) = true /\ e_tsd e = Some MAIN_TN).
Proof.
  intros H O T. assert (T' : resetting f = true -> forall n, nd (reset_list tsd g) n = nd g n).
  { intros R n. apply reset_main. auto. }
  clear T. split; [|split].
  - fs_cases H; cbn [holds] in O; try (apply Z.eqb_neq in O); brk H; inversion H; subst; clear H; cbn [e_g];
      try apply ms_refl;
      try (rewrite nd_set_other by exact O; apply ms_refl);
      try (specialize (T' eq_refl); rewrite ?nd_set_same, ?T'; repeat split; fail);
      unfold nd, main_same; cbn; rewrite ?upd_other by exact O; g_brk; rewrite ?upd_if;
      repeat match goal with |- context [Z.eqb ?a ?b] => destruct (Z.eqb_spec a b); subst end;
      cbn; try apply ms_refl.
  - fs_cases H; cbn [holds] in O; try (apply Z.eqb_neq in O); brk H; inversion H; subst; clear H; cbn [e_g];
      auto; eauto;
      try (left; rewrite nd_set_other by exact O; reflexivity);
      try (left; specialize (T' eq_refl); rewrite ?nd_set_same, ?T'; reflexivity);
      left; unfold nd; cbn; rewrite ?upd_other by exact O; g_brk; rewrite ?upd_if;
      repeat match goal with |- context [Z.eqb ?a ?b] => destruct (Z.eqb_spec a b); subst end;
      cbn; try reflexivity.
  - intros q -> U. cbn in H. destruct c; try discriminate H. cbn in H. rewrite U in H. inversion H; subst; cbn.
    unfold nd. cbn. now rewrite ?upd_same.
Qed.

Lemma reset_eff dyn t u g tsd nc f c e :
  frame_step dyn t u g tsd nc f c = Some e -> resetting f = true ->
  (e_tsd e = tsd /\ g_used (e_g e) = g_used g /\ existsb resetting (e_fr e) = true) \/
  (g_used (e_g e) = false /\ existsb resetting (e_fr e) = false /\ (e_tsd e = None \/ e_tsd e = tsd)).
Proof.
  intros H R. fs_cases H; try discriminate R; cbn in R; try (destruct is_fork0; discriminate R);
    brk H; inversion H; subst; clear H; cbn; auto; try discriminate R;
    unfold reset_list; rewrite ?E; cbn; auto.
Qed.

Lemma shooting_local dyn t u g tsd nc f c e :
  frame_step dyn t u g tsd nc f c = Some e ->
  (existsb shooting (e_fr e) = true -> shooting f = true \/ g_used g = true) /\
  (forall st, e_new e = Some st -> existsb shooting st = false).
Proof.
  intros H. split.
  - intros X. fs_cases H; brk H; inversion H; subst; clear H; cbn in X; try discriminate X; cbn; auto;
      repeat match type of X with context [if ?b then _ else _] => destruct b; try discriminate X end; auto.
  - intros st N. fs_cases H; brk H; inversion H; subst; clear H; cbn in N; try discriminate N;
      inversion N; reflexivity.
Qed.

Lemma holds_main s t f : node_inv s -> In f (th_stack (s_th s t)) -> holds MAIN_TN f = false.
Proof.
  intros N I. destruct (holds MAIN_TN f) eqn:H; [|reflexivity].
  destruct (held_alloc _ _ _ _ N I H) as [A _]. unfold alloc, MAIN_TN in A. lia.
Qed.

Lemma used_up dyn t u g tsd nc f c e :
  frame_step dyn t u g tsd nc f c = Some e -> g_used g = false -> g_used (e_g e) = true ->
  (exists q, f = FPCInit q) /\ e_tsd e = Some MAIN_TN.
Proof.
  intros H U0 U. fs_cases H; brk H; inversion H; subst; clear H; cbn in U |- *; eauto;
    try congruence; unfold reset_list in U;
    repeat match type of U with context [if ?b then _ else _] => destruct b eqn:?
           | context [match ?b with _ => _ end] => destruct b eqn:? end; cbn in U; congruence.
Qed.

(** How the main thread's data and the threads-in-use flag move together. *)
Lemma tsd_used dyn s t c f r e :
  who_inv s -> th_live (s_th s t) = true -> th_stack (s_th s t) = f :: r ->
  frame_step dyn t (s_next s) (s_g s) (th_tsd (s_th s t)) (th_nc (s_th s t)) f c = Some e ->
  (e_tsd e = th_tsd (s_th s t) /\ (g_used (e_g e) = true -> g_used (s_g s) = true)) \/
  (t <> MAIN) \/ (e_tsd e = Some MAIN_TN /\ g_used (e_g e) = true) \/
  ((e_tsd e = None \/ e_tsd e = th_tsd (s_th s t)) /\ g_used (e_g e) = false).
Proof.
  intros W LV Hst Hfs. destruct (Z.eq_dec t MAIN) as [->|X]; [|auto].
  destruct (resetting f) eqn:RS.
  - destruct (reset_eff _ _ _ _ _ _ _ _ _ Hfs RS) as [(A & B & _)|(A & B & C)].
    + left. split; [exact A|]. now rewrite B.
    + auto.
  - destruct (g_used (s_g s)) eqn:U0.
    + destruct (tsd_local _ _ _ _ _ _ _ _ _ Hfs) as [T|[(n & ->)|[(q & -> & U)|Y]]].
      * auto.
      * assert (B : bt_frame (FBT BTTsd n) = false) by (apply (who_bt _ W); rewrite Hst; now left). discriminate B.
      * rewrite U0 in U. discriminate U.
      * rewrite Y in RS. discriminate RS.
    + destruct (g_used (e_g e)) eqn:U1.
      * destruct (used_up _ _ _ _ _ _ _ _ _ Hfs U0 U1) as (_ & T). auto.
      * destruct (tsd_local _ _ _ _ _ _ _ _ _ Hfs) as [T|[(n & ->)|[(q & -> & U)|Y]]].
        -- auto.
        -- assert (B : bt_frame (FBT BTTsd n) = false) by (apply (who_bt _ W); rewrite Hst; now left). discriminate B.
        -- destruct c; try discriminate Hfs. cbn in Hfs. rewrite U in Hfs. inversion Hfs; subst. discriminate U1.
        -- rewrite Y in RS. discriminate RS.
Qed.

Lemma main_stack s s' :
  main_inv s -> s_g s' = s_g s -> th_tsd (s_th s' MAIN) = th_tsd (s_th s MAIN) ->
  (forall t f, In f (th_stack (s_th s' t)) -> shooting f = true -> In f (th_stack (s_th s t))) ->
  main_inv s'.
Proof.
  intros [A B C D] G T S. constructor; rewrite ?G, ?T; auto.
  intros [U|(t & f & I & X)]; apply D; [now left|right]. eauto.
Qed.

Lemma unwind_sub_shoot st f : In f (unwind st) -> shooting f = false.
Proof.
  intros I. destruct (unwind_shape st) as [U|(n & p & U & _)]; rewrite U in I; cbn in I;
    repeat destruct I as [<-|I]; try reflexivity; destruct I.
Qed.

Lemma apply_tsd_main dyn s t c f r e :
  who_inv s ->
  frame_step dyn t (s_next s) (s_g s) (th_tsd (s_th s t)) (th_nc (s_th s t)) f c = Some e ->
  th_tsd (s_th (apply_eff s t (s_th s t) r e) MAIN) =
  if Z.eqb MAIN t then e_tsd e else if e_child e then None else th_tsd (s_th s MAIN).
Proof.
  intros W Hfs. destruct (e_child e) eqn:HC.
  - destruct (child_shape _ _ _ _ _ _ _ _ _ Hfs HC) as (_ & _ & _ & _ & _ & HN & HK & _).
    unfold apply_eff. rewrite HC, HN, HK. cbn [s_th]. rewrite upd_if.
    destruct (Z.eqb MAIN t); reflexivity.
  - rewrite apply_tsd by auto. destruct (e_new e) as [st|]; [|reflexivity].
    pose proof (who_next _ W) as W2. destruct (Z.eqb_spec MAIN (s_next s)) as [Y|]; [|reflexivity].
    unfold MAIN in Y. clear - W2 Y. lia.
Qed.

Lemma main_reach dyn s : reach dyn clean_forks s -> main_inv s.
Proof.
  apply reach_invariant.
  - constructor; cbn; auto; try discriminate.
    intros [U|(t & f & I & X)]; [discriminate|]. rewrite upd_if in I. destruct (Z.eqb t MAIN); [|destruct I].
    cbn in I. repeat destruct I as [<-|I]; try discriminate X. destruct I.
  - clear s. intros s t c s' R HI HO HS. pose proof (who_reach _ _ R) as W.
    pose proof (nodes_reach _ _ R) as (N & _ & _).
    apply step_view in HS. destruct HS as (_ & LV & V).
    destruct V as [| | | | | | |f r e Hst Hun Hbar Hfs Es']; subst.
    1-7: apply (main_stack s); auto; unfold add_ev; cbn [set_th s_th s_tr s_g];
      [rewrite upd_if; destruct (Z.eqb_spec MAIN t) as [<-|]; reflexivity|];
      intros t' f' I X; rewrite upd_if in I; destruct (Z.eqb_spec t' t) as [E0|]; [rewrite E0 in *|exact I];
      cbn in I; try (apply unwind_sub_shoot in I; congruence);
      repeat (destruct I as [<-|I]; [discriminate X|]); try exact I; destruct I.
    assert (IN : In f (th_stack (s_th s t))) by (rewrite Hst; now left).
    destruct (main_local _ _ _ _ _ _ _ _ _ Hfs (holds_main _ _ _ N IN)) as (M1 & M2 & M3).
    { intros RS. destruct (who_reset _ W t) as (-> & _); [rewrite Hst; cbn; now rewrite RS|].
      exact (mi_tsd _ HI). }
    destruct (mi_node _ HI) as (N1 & N2 & N3). destruct M1 as (S1 & S2 & S3).
    destruct (shooting_local _ _ _ _ _ _ _ _ _ Hfs) as (SL1 & SL2).
    pose proof (apply_tsd_main _ _ _ _ _ r _ W Hfs) as T'.
    pose proof (tsd_used _ _ _ _ _ _ _ W LV Hst Hfs) as ALL.
    assert (TC : e_child e = true -> t = MAIN).
    { intros HC. destruct (child_shape _ _ _ _ _ _ _ _ _ Hfs HC) as (-> & _). now apply HO. }
    assert (UU : g_used (e_g e) = true -> g_used (s_g s) = false -> t = MAIN).
    { intros U U0. destruct (Z.eq_dec t MAIN) as [|X]; [assumption|].
      rewrite (who_alone _ W U0 t X) in LV. discriminate LV. }
    constructor; rewrite ?apply_g, ?T'.
    + destruct (Z.eqb_spec MAIN t) as [<-|X].
      * destruct ALL as [[A _]|[A|[[A _]|[[A|A] _]]]]; rewrite ?A; auto; try contradiction; exact (mi_tsd _ HI).
      * destruct (e_child e); [auto|exact (mi_tsd _ HI)].
    + intros U. destruct (Z.eqb_spec MAIN t) as [<-|X].
      * destruct ALL as [[A B]|[A|[[A _]|[[A|A] B]]]]; rewrite ?A; auto; try contradiction; try congruence.
        exact (mi_used _ HI (B U)).
      * destruct (e_child e) eqn:HC; [destruct (X (eq_sym (TC eq_refl)))|].
        apply (mi_used _ HI). destruct (g_used (s_g s)) eqn:U0; [reflexivity|].
        destruct (X (eq_sym (UU U eq_refl))).
    + rewrite S1, S2, S3. auto.
    + intros D.
      destruct (g_used (s_g s)) eqn:U0.
      * destruct M2 as [->|[X _]]; [|discriminate X]. apply (mi_self _ HI). now left.
      * assert (D' : (exists t f, In f (th_stack (s_th s t)) /\ shooting f = true) \/ g_used (e_g e) = true).
        { destruct D as [D|(t' & f' & I & X)]; [now right|left].
          assert (J : In f' (th_stack (s_th s t')) \/ (t' = t /\ In f' (e_fr e))).
          { destruct (e_child e) eqn:HC.
            - destruct (child_shape _ _ _ _ _ _ _ _ _ Hfs HC) as (_ & _ & _ & _ & _ & HN & HK & _).
              rewrite apply_stack_child in I by auto. destruct (Z.eqb_spec t' t) as [->|]; [|destruct I].
              apply in_app_or in I. destruct I as [I|I]; [auto|left]. rewrite Hst. now right.
            - destruct (ins_cases _ _ _ _ _ _ _ W LV HC Hst I) as [[-> [A|A]]|[(_ & _ & A)|(-> & _ & st & EN & A)]];
                auto.
              + left. rewrite Hst. now right.
              + exfalso. pose proof (SL2 st EN) as Y. pose proof (existsb_false_in _ _ _ Y A). congruence. }
          destruct J as [J|[-> J]]; [eauto|].
          destruct SL1 as [A|A]; [apply existsb_exists; eauto| |discriminate A]. eauto. }
        destruct M2 as [Mq|(_ & q & ->)].
        -- destruct (g_used (e_g e)) eqn:U1.
           ++ destruct (used_up _ _ _ _ _ _ _ _ _ Hfs U0 U1) as ((q & ->) & _).
              destruct (M3 q eq_refl eq_refl) as (-> & _). now apply UU.
           ++ rewrite Mq. apply (mi_self _ HI). right. destruct D' as [D'|X]; [exact D'|discriminate X].
        -- destruct (M3 q eq_refl eq_refl) as (-> & Z1 & _). now apply UU.
Qed.
