(** Numbers, data hand-over, queries and ignored threads: proofs. *)
From Verif Require Export LifeMine.

Local Open Scope nat_scope.

(** ** Numbers *)

Lemma numbers_in tr k : In k (numbers tr) <-> exists t, In (EReg t k) tr.
Proof.
  induction tr as [|e r IH]; cbn.
  - split; [intros []|intros (t & [])].
  - assert (O : (forall t k', e <> EReg t k') -> (exists t, In (EReg t k) r) <-> (exists t, e = EReg t k \/ In (EReg t k) r)).
    { intros N. split; intros (t & A); exists t; [now right|]. destruct A as [A|A]; [destruct (N _ _ A)|exact A]. }
    destruct e; try (rewrite IH; apply O; discriminate).
    rewrite in_app_iff, IH. cbn. split.
    + intros [(t' & A)|[->|[]]]; eauto.
    + intros (t' & [A|A]); [inversion A; auto|eauto].
Qed.

Lemma num_unique dyn l s : run dyn init l = Some s ->
  forall t t' k k', In (EReg t k) (s_tr s) -> In (EReg t' k') (s_tr s) -> (t = t' <-> k = k').
Proof.
  intros H. pose proof (numbers_in_order _ _ _ H) as NO. apply reach_run in H.
  assert (ND : NoDup (numbers (s_tr s))).
  { rewrite NO. apply FinFun.Injective_map_NoDup; [|apply seq_NoDup]. intros a b E. lia. }
  clear NO. pose proof (fun t => reg_once _ _ t H) as RO. clear H. revert ND RO.
  induction (s_tr s) as [|e r IH]; [intros _ _ t t' k k' []|].
  intros ND RO t t' k k' I I'.
  assert (RO' : forall t, count (reg_of t) r <= 1).
  { intros x. specialize (RO x). cbn in RO. destruct (reg_of x e); lia. }
  assert (IN : forall x y k1 k2, In (EReg x k1) r -> e = EReg y k2 -> (x = y <-> k1 = k2)).
  { intros x y k1 k2 J ->. cbn in ND. split; intros ->.
    - exfalso. pose proof (count_in (reg_of y) _ _ J) as C. cbn in C. specialize (C (Z.eqb_refl _)).
      specialize (RO y). cbn in RO. rewrite Z.eqb_refl in RO. lia.
    - exfalso. assert (X : In k2 (numbers r)) by (apply numbers_in; eauto).
      apply NoDup_remove_2 in ND. rewrite app_nil_r in ND. contradiction. }
  assert (ND' : NoDup (numbers r)).
  { destruct e; cbn in ND; auto. apply NoDup_remove_1 in ND. now rewrite app_nil_r in ND. }
  destruct I as [->|I]; destruct I' as [E|I'].
  - inversion E; subst. tauto.
  - specialize (IN _ _ _ _ I' eq_refl). split; intros; symmetry; apply IN; auto.
  - exact (IN _ _ _ _ I E).
  - exact (IH ND' RO' _ _ _ _ I I').
Qed.

Lemma num_pos dyn l s t k : run dyn init l = Some s -> In (EReg t k) (s_tr s) -> (1 <= k)%Z.
Proof.
  intros H I. apply numbers_in_order in H. assert (X : In k (numbers (s_tr s))) by (apply numbers_in; eauto).
  rewrite H in X. apply in_map_iff in X. destruct X as (m & <- & Y). apply in_seq in Y. lia.
Qed.

(** ** What a registered thread's queries see *)

Definition fini_returned (t : Z) (tr : list event) : Prop := exists d v, In (ERet t (CbFiniThread d) v) tr.

Lemma main_not_created dyn s : reach dyn any s -> forall c q m, ~ In (ECreate c q MAIN m) (s_tr s).
Proof.
  revert s. apply (reach_invariant dyn any (fun s => forall c q m, ~ In (ECreate c q MAIN m) (s_tr s))); [intros c q m []|].
  intros s t c s' R HI _ HS. pose proof (born_reach _ _ R) as BO. apply step_view in HS. destruct HS as (_ & LV & V).
  destruct V as [| | | | | | |f r e Hst Hun Hbar Hfs Es']; subst; try exact HI;
    intros c0 q0 m0 J; try (destruct J as [J|J]; [discriminate|]; exact (HI _ _ _ J)).
  rewrite apply_tr in J. apply in_app_or in J. destruct J as [J|J]; [|exact (HI _ _ _ J)].
  pose proof (create_local _ _ _ _ _ _ _ _ _ Hfs) as CL. destruct (e_new e).
  - destruct CL as (q1 & m1 & CL). rewrite CL in J. destruct J as [J|[]]. inversion J.
    pose proof (born_next _ BO). unfold MAIN in *. lia.
  - specialize (CL MAIN). pose proof (count_in (create_of MAIN) _ _ J (Z.eqb_refl _)). lia.
Qed.

Ltac j_step H :=
  fs_cases H; brk H; inversion H; subst; clear H; cbn [e_ev justified];
  repeat match goal with |- context [if ?b then _ else _] => destruct b end;
  cbn [justified]; repeat split; auto.

Lemma reg_created dyn s t k : reach dyn clean_forks s -> In (EReg t k) (s_tr s) ->
  exists c q, In (ECreate c q t true) (s_tr s).
Proof.
  intros R I.
  assert (B : hist (fun tr e => match e with EReg t _ => exists c q, In (ECreate c q t true) tr | _ => True end) (s_tr s)).
  { revert R. apply hist_reach; auto. intros s0 t0 c f r e R0 HI _ Hst LV Hfs.
    assert (IN : In f (th_stack (s_th s0 t0))) by (rewrite Hst; now left).
    pose proof (data_reach _ _ R0 t0 f IN) as Q. j_step Hfs.
    cbn in Q. destruct Q as ((c0 & q0 & d0 & [M _] & _) & _). eauto. }
  apply in_split in I. destruct I as (a & b & E). specialize (B a _ b E). cbn in B.
  destruct B as (c & q & B). exists c, q. rewrite E, in_app_iff. right. now right.
Qed.

(** The node of a registered thread whose fini_thread has not returned. *)
Lemma own_node dyn s t k : reach dyn clean_forks s -> In (EReg t k) (s_tr s) ->
  th_live (s_th s t) = true -> ~ fini_returned t (s_tr s) ->
  exists n c q d, get_tn (s_g s) (th_tsd (s_th s t)) = Some n /\ made c q d t (s_tr s) /\
    n_num (nd (s_g s) n) = k /\ n_start (nd (s_g s) n) = q_start q /\ n_bottom (nd (s_g s) n) = t /\
    (n_data (nd (s_g s) n) = d \/ In (ERet t (CbInitThread k d) (n_data (nd (s_g s) n))) (s_tr s)) /\
    ((exists a b, In (EStart t a b) (s_tr s)) ->
     In (ERet t (CbInitThread k d) (n_data (nd (s_g s) n))) (s_tr s)).
Proof.
  intros R I LV NF. pose proof (who_reach _ _ R) as W. pose proof (data_reach _ _ R) as DA.
  pose proof (clean_any _ _ R) as RA. destruct (run_reach _ _ RA) as (l & RU).
  assert (NM : t <> MAIN).
  { intros ->. assert (C : exists c q m, In (ECreate c q MAIN m) (s_tr s)).
    { destruct (reg_created _ _ _ _ R I) as (c & q & B). eauto. }
    destruct C as (c & q & m & C).
    exact (main_not_created _ s RA _ _ _ C). }
  assert (U : g_used (s_g s) = true).
  { destruct (g_used (s_g s)) eqn:U; [reflexivity|]. rewrite (who_alone _ W U t NM) in LV. discriminate. }
  destruct (reg_reach _ _ R t k I LV NM) as [(n & A & B & C)|[(n & A)|(d & v & A)]].
  - assert (RS : existsb resetting (th_stack (s_th s MAIN)) = false).
    { destruct (existsb resetting (th_stack (s_th s MAIN))) eqn:X; [|reflexivity].
      destruct (who_reset _ W MAIN X) as (_ & _ & Y). rewrite (Y t NM) in LV. discriminate. }
    destruct (li_fact _ (listed_reach _ _ R) RS n A B) as (CF & T). rewrite C in CF, T.
    destruct CF as (c & q & d & M & F1 & F2 & F3 & F4 & F5 & F6 & F7 & F8).
    assert (K : n_num (nd (s_g s) n) = k).
    { apply (num_unique _ _ _ RU t t); auto. }
    exists n, c, q, d. rewrite T. cbn. unfold get_tn. rewrite U, F3. rewrite K in *.
    split; [reflexivity|]. repeat (split; [first [assumption|reflexivity]|]).
    intros ST. apply F7. apply (appl_reach _ _ R RS n A B). rewrite C. now left.
  - pose proof (DA t _ A) as Q. cbn in Q.
    destruct Q as ((c & q & d & M & F1 & F2 & F3 & F4 & F5 & F6 & F7 & F8) & T).
    destruct (F4 eq_refl) as (S1 & S2).
    assert (K : n_num (nd (s_g s) n) = k).
    { apply (num_unique _ _ _ RU t t); auto. }
    exists n, c, q, d. rewrite T. cbn. unfold get_tn. rewrite U, F3.
    split; [reflexivity|]. repeat (split; [first [assumption|reflexivity]|]). split; [now left|].
    intros ST. exfalso. apply (not_entered _ _ t _ RA A eq_refl eq_refl). now left.
  - destruct NF. exists d, v. exact A.
Qed.

(** ** Queries *)

Definition Jquery (tr : list event) (e : event) : Prop :=
  match e with
  | EQuery t q r =>
    (t = MAIN -> q = QNum -> r = 0%Z) /\
    (forall k, In (EReg t k) tr -> ~ fini_returned t tr ->
       exists c q' d, made c q' d t tr /\
         match q with
         | QNum => r = k
         | QStart => r = q_start q'
         | QBottom => r = t
         | QThreaded => r = 1%Z
         | QData => (r = d \/ In (ERet t (CbInitThread k d) r) tr) /\
                    ((exists a b, In (EStart t a b) tr) -> In (ERet t (CbInitThread k d) r) tr)
         end) /\
    (forall c q', In (ECreate c q' t false) tr ->
       r = match q with QNum => (-1)%Z | QThreaded => 1%Z | _ => 0%Z end)
  | _ => True
  end.

Lemma query_hist dyn s : reach dyn clean_forks s -> hist Jquery (s_tr s).
Proof.
  apply hist_reach; try (intros; exact I).
  intros s0 t c f r e R HI HO Hst LV Hfs. pose proof (who_reach _ _ R) as W.
  pose proof (main_reach _ _ R) as M. pose proof (ign_reach _ _ R) as IG.
  assert (D : (exists q, f = FQuery q /\ e_ev e = [EQuery t q (answer (s_g s0) (th_tsd (s_th s0 t)) q)]) \/
              (forall x, In x (e_ev e) -> forall tr, Jquery tr x)).
  { clear - Hfs. fs_cases Hfs; brk Hfs; inversion Hfs; subst; clear Hfs; cbn; eauto;
      right; intros ev0 I; repeat match type of I with context [if ?b then _ else _] => destruct b end; cbn in I;
      repeat (destruct I as [<-|I]; [intros; exact Logic.I|]); destruct I. }
  destruct D as [(q & -> & ->)|D].
  - cbn [justified app]. split; [|exact I]. cbn [Jquery]. split; [|split].
    + intros -> ->. cbn. destruct (mi_node _ M) as (_ & MG & NU). unfold get_tn.
      destruct (g_used (s_g s0)) eqn:U; [|exact NU]. rewrite (mi_used _ M U), MG. exact NU.
    + intros k IK NF. destruct (own_node _ _ _ _ R IK LV NF) as (n & c0 & q0 & d & G & MD & K & S & B & D1 & D2).
      exists c0, q0, d. split; [exact MD|]. destruct q; cbn [answer]; rewrite ?G; auto.
      assert (NM : t <> MAIN).
      { intros ->. destruct MD as [X _]. exact (main_not_created _ _ (clean_any _ _ R) _ _ _ X). }
      destruct (g_used (s_g s0)) eqn:U; [reflexivity|]. rewrite (who_alone _ W U t NM) in LV. discriminate.
    + intros c0 q0 I0. destruct (IG _ _ _ I0) as (NM & _ & T & _).
      assert (U : g_used (s_g s0) = true).
      { destruct (g_used (s_g s0)) eqn:U; [reflexivity|]. rewrite (who_alone _ W U t NM) in LV. discriminate. }
      destruct q; cbn; unfold get_tn; rewrite ?T, U; reflexivity.
  - clear - D. induction (e_ev e) as [|x l IH]; [exact I|]. split; [apply D; now left|apply IH; intros y J; apply D; now right].
Qed.

(** ** Hand-over of the data *)

Definition Jdata (tr : list event) (e : event) : Prop :=
  match e with
  | ECall t (CbInitThread k d) =>
      In (EReg t k) tr /\ exists c q, In (ECreate c q t true) tr /\ In (ERet c (CbPreCreate (q_id q)) d) tr
  | EStart t s a => exists c q, s = q_start q /\ a = q_arg q /\
      (In (ECreate c q t false) tr \/
       exists d k v, In (ECreate c q t true) tr /\ In (ERet c (CbPreCreate (q_id q)) d) tr /\
                     In (EReg t k) tr /\ In (ERet t (CbInitThread k d) v) tr)
  | _ => True
  end.

Lemma data_hist dyn s : reach dyn clean_forks s -> hist Jdata (s_tr s).
Proof.
  apply hist_reach; try (intros; exact I).
  intros s0 t c f r e R HI HO Hst LV Hfs.
  assert (IN : In f (th_stack (s_th s0 t))) by (rewrite Hst; now left).
  pose proof (data_reach _ _ R t f IN) as Q. pose proof (fini_frames _ _ (clean_any _ _ R) t f IN) as QF.
  j_step Hfs; cbn in Q |- *.
  all: try (destruct p; exact I).
  all: try (destruct c0; exact I).
  - destruct Q as [(c1 & q & A & B & C)|(c1 & q & d & k & v & [A1 A2] & B & C & D & E)].
    + exists c1, q. auto.
    + exists c1, q. split; [exact D|]. split; [exact E|]. right. exists d, k, v. auto.
  - destruct Q as ((c0 & q0 & d0 & [M1 M2] & _ & _ & _ & _ & A5 & _ & A7 & _) & _). auto.
  - destruct Q as ((c0 & q0 & d0 & [M1 M2] & _ & _ & _ & _ & A5 & _ & A7 & _) & _). cbn in A7.
    exists c0, q0. rewrite A7. auto.
Qed.

(** ** Ignored threads *)

Definition Jign (tr : list event) (e : event) : Prop :=
  match e with
  | ECall t (CbInitThread _ _) | ECall t (CbFiniThread _) => forall c q, ~ In (ECreate c q t false) tr
  | _ => True
  end.

Lemma ign_hist dyn s : reach dyn clean_forks s -> hist Jign (s_tr s).
Proof.
  apply hist_reach; try (intros; exact I).
  intros s0 t c f r e R HI HO Hst LV Hfs.
  assert (IN : In f (th_stack (s_th s0 t))) by (rewrite Hst; now left).
  pose proof (ign_reach _ _ R) as IG. pose proof (mine_reach _ _ R t f IN) as Q.
  assert (X : bt_frame f = true \/ (exists n, mine (th_tsd (s_th s0 t)) t n) -> forall c q, ~ In (ECreate c q t false) (s_tr s0)).
  { intros D c0 q0 J. destruct (IG _ _ _ J) as (A & _ & B & C). destruct D as [D|(n & [[D _]|[_ D]])].
    - rewrite (C f IN) in D. discriminate.
    - contradiction.
    - congruence. }
  j_step Hfs; cbn in Q |- *; auto.
  all: try (destruct p; exact I).
  all: try (destruct c0; exact I).
  all: apply X; eauto.
Qed.
