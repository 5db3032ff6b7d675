From Verif Require Import ScriptModel ScriptSpec.
From Coq Require Import Ascii String.
Import List ListNotations.

Lemma beq_eq a b : beq a b = true <-> a = b.
Proof. unfold beq. destruct (list_eq_dec ascii_dec a b); split; congruence. Qed.
Lemma beq_neq a b : beq a b = false <-> a <> b.
Proof. unfold beq. destruct (list_eq_dec ascii_dec a b); split; congruence. Qed.

Lemma is_opt_spec a s l : is_opt a s l = true <-> a = str s \/ a = str l.
Proof. unfold is_opt. now rewrite orb_true_iff, !beq_eq. Qed.

(** ** monitor-run *)

Lemma absolute_abs e f : f <> [] -> absolute e f = abs_name (r_pwd e) f.
Proof.
  intros H. destruct f as [|c r]; [contradiction|]. unfold absolute, abs_name.
  destruct (Ascii.eqb c SLASH); reflexivity.
Qed.

Lemma plain_cases a : plain a ->
  beq a [] = false /\ is_opt a "-d" "--debug" = false /\ is_opt a "-h" "--help" = false /\
  is_opt a "-i" "--insert" = false /\ is_opt a "-u" "--undefined" = false /\
  is_opt a "-v" "--verbose" = false /\ is_opt a "-w" "--wrap" = false /\ beq a (str "--") = false /\
  exists c r, a = c :: r /\ Ascii.eqb c DASH = false.
Proof.
  intros [Hn Hd]. destruct a as [|c r]; [contradiction|]. simpl in Hd.
  assert (Hc : c <> DASH) by congruence.
  assert (H : forall w, hd_error w = Some DASH -> beq (c :: r) w = false).
  { intros w Hw. apply beq_neq. intros <-. simpl in Hw. congruence. }
  split; [reflexivity|]. unfold is_opt.
  repeat (rewrite H by reflexivity). repeat (split; [reflexivity|]).
  exists c, r. split; [reflexivity|]. now apply Ascii.eqb_neq.
Qed.

Lemma run_complete e args d fs ws : run_args args d fs ws ->
  forall fuel files dbg, (List.length args < fuel)%nat ->
  (forall f, In f fs -> r_is_file e (abs_name (r_pwd e) f) = true) ->
  run_loop fuel e files dbg args = run_finish e (files ++ files_text e fs) (dbg || d) ws.
Proof.
  induction 1 as [c r Hp|r|o r d fs ws Ho Hr IH|o f r d fs ws Ho Hf Hr IH];
    intros fuel files dbg Hlen Hex; (destruct fuel as [|fu]; [simpl in Hlen; lia|]);
    unfold files_text; simpl List.map; simpl concat; rewrite ?app_nil_r, ?orb_false_r, ?orb_true_r.
  - destruct (plain_cases c Hp) as (E1 & E2 & E3 & E4 & _ & _ & _ & E5 & x & y & -> & E6).
    cbn [run_loop]. rewrite E1, E2, E3, E4, E5, E6. reflexivity.
  - reflexivity.
  - destruct Ho as [-> | ->]; cbn [run_loop];
      (replace (run_loop fu e files true r) with
        (run_finish e (files ++ files_text e fs) (true || d) ws)
        by (symmetry; apply IH; [simpl in Hlen; lia|exact Hex])); reflexivity.
  - assert (Hq : run_loop fu e (files ++ COLON :: absolute e f) dbg r =
            run_finish e (files ++ (COLON :: abs_name (r_pwd e) f) ++ files_text e fs) (dbg || d) ws).
    { rewrite (absolute_abs e f Hf).
      rewrite IH; [|simpl in Hlen; lia|intros g Hg; apply Hex; now right].
      now rewrite <- app_assoc. }
    assert (Hfile : r_is_file e (absolute e f) = true)
      by (rewrite (absolute_abs e f Hf); apply Hex; now left).
    assert (Hfe : beq f [] = false) by now apply beq_neq.
    destruct Ho as [-> | ->]; cbn [run_loop]; cbn -[absolute run_loop run_finish beq];
      change (beq (str "-i") []) with false; change (beq (str "--insert") []) with false;
      cbn iota; rewrite Hfe, Hfile; exact Hq.
Qed.

Lemma run_sound e : forall fuel files dbg args x, (List.length args < fuel)%nat ->
  run_loop fuel e files dbg args = Run x ->
  exists d fs ws, run_args args d fs ws /\
    (forall f, In f fs -> r_is_file e (abs_name (r_pwd e) f) = true) /\
    run_finish e (files ++ files_text e fs) (dbg || d) ws = Run x.
Proof.
  induction fuel as [|fu IH]; intros files dbg args x Hlen H; [lia|].
  destruct args as [|a r]; [discriminate|]. cbn [run_loop] in H.
  destruct (beq a []) eqn:E0.
  { apply beq_eq in E0. subst a. cbn in H. discriminate. }
  destruct (is_opt a "-d" "--debug") eqn:E1.
  { apply is_opt_spec in E1. destruct (IH files true r x ltac:(simpl in Hlen; lia) H) as (d & fs & ws & H1 & H2 & H3).
    exists true, fs, ws. split; [now apply (ra_debug a r d)|]. split; [exact H2|].
    now rewrite orb_true_r. }
  destruct (is_opt a "-h" "--help") eqn:E2; [discriminate|].
  destruct (is_opt a "-i" "--insert") eqn:E3.
  { apply is_opt_spec in E3. destruct r as [|f r']; [discriminate|].
    destruct (beq f []) eqn:Ef; [discriminate|]. apply beq_neq in Ef.
    destruct (r_is_file e (absolute e f)) eqn:Ex; [|discriminate].
    rewrite (absolute_abs e f Ef) in *.
    destruct (IH _ dbg r' x ltac:(simpl in Hlen; lia) H) as (d & fs & ws & H1 & H2 & H3).
    exists d, (f :: fs), ws. split; [now apply ra_insert|].
    split; [intros g [<-|Hg]; auto|]. unfold files_text in *. simpl. rewrite <- app_assoc in H3. exact H3. }
  destruct (beq a (str "--")) eqn:E4.
  { apply beq_eq in E4. subst a. exists false, [], r. split; [apply ra_dashes|].
    split; [intros f []|]. unfold files_text. simpl. now rewrite app_nil_r, orb_false_r. }
  destruct a as [|c w]; [discriminate|].
  destruct (Ascii.eqb c DASH) eqn:E5; [discriminate|].
  exists false, [], ((c :: w) :: r). split; [apply ra_command|].
  - split; [discriminate|]. simpl. intros C. injection C as ->. now rewrite Ascii.eqb_refl in E5.
  - split; [intros f []|]. unfold files_text. simpl List.map. simpl concat.
    now rewrite app_nil_r, orb_false_r.
Qed.

(** ** Splitting *)

Lemma fields_word sep cur w l : (forall c, In c w -> sep c = false) ->
  fields sep cur (w ++ l) = fields sep (cur ++ w) l.
Proof.
  revert cur. induction w as [|c w IH]; intros cur H; simpl; [now rewrite app_nil_r|].
  rewrite (H c) by now left. rewrite IH by (intros x Hx; apply H; now right).
  now rewrite <- app_assoc.
Qed.

Lemma fields_sep sep c l : sep c = true -> fields sep [] (c :: l) = fields sep [] l.
Proof. intros H. simpl. now rewrite H. Qed.

Lemma fields_take sep w c l : w <> [] -> (forall x, In x w -> sep x = false) -> sep c = true ->
  fields sep [] (w ++ c :: l) = w :: fields sep [] l.
Proof.
  intros Hn Hw Hc. rewrite fields_word by exact Hw. simpl. rewrite Hc.
  destruct (beq w []) eqn:E; [apply beq_eq in E; contradiction|reflexivity].
Qed.

Lemma fields_last sep w : w <> [] -> (forall x, In x w -> sep x = false) -> fields sep [] w = [w].
Proof.
  intros Hn Hw. rewrite <- (app_nil_r w) at 1. rewrite fields_word by exact Hw. simpl.
  destruct (beq w []) eqn:E; [apply beq_eq in E; contradiction|reflexivity].
Qed.

Lemma preload_list e fs lib old :
  (forall f, In f fs -> one_entry (abs_name (r_pwd e) f)) -> one_entry lib ->
  preloaded (files_text e fs ++ COLON :: lib ++ COLON :: old) =
  map (abs_name (r_pwd e)) fs ++ [lib] ++ preloaded old.
Proof.
  unfold preloaded, files_text. intros Hfs [Hl1 Hl2].
  assert (C : is_sep COLON = true) by reflexivity.
  induction fs as [|f r IH]; simpl concat; simpl List.map.
  - rewrite !app_nil_l. rewrite fields_sep by exact C. rewrite fields_take by assumption. reflexivity.
  - rewrite <- !app_comm_cons. rewrite fields_sep by exact C. rewrite <- app_assoc.
    assert (IH' := IH (fun g Hg => Hfs g (or_intror Hg))). clear IH.
    destruct (Hfs f (or_introl eq_refl)) as [Hf1 Hf2].
    rewrite fields_word by exact Hf2. rewrite app_nil_l.
    destruct r as [|g r].
    + simpl in *.
      destruct (beq (abs_name (r_pwd e) f) []) eqn:E; [apply beq_eq in E; contradiction|].
      f_equal. exact IH'.
    + simpl in *.
      destruct (beq (abs_name (r_pwd e) f) []) eqn:E; [apply beq_eq in E; contradiction|].
      f_equal. exact IH'.
Qed.

Lemma fields_app sep a c l : forall cur, sep c = true ->
  fields sep cur (a ++ c :: l) = fields sep cur a ++ fields sep [] l.
Proof.
  induction a as [|x a IH]; intros cur H; simpl.
  - rewrite H. now destruct (beq cur []).
  - destruct (sep x); [|now apply IH]. destruct (beq cur []); simpl; now rewrite IH.
Qed.

Lemma words_cons_space l : words (SPACE :: l) = words l.
Proof. reflexivity. Qed.

Lemma words_app a l : words (a ++ SPACE :: l) = words a ++ words l.
Proof. apply fields_app. reflexivity. Qed.

Lemma words_one w : one_word w -> words w = [w].
Proof. intros [H1 H2]. now apply fields_last. Qed.

Lemma words_join pre ws : words (join pre ws) = flat_map (fun w => words (pre ++ w)) ws.
Proof.
  unfold join. rewrite <- fold_left_rev_right, <- (rev_involutive ws) at 1.
  rewrite rev_involutive.
  induction ws as [|w ws IH] using rev_ind; [reflexivity|].
  rewrite rev_app_distr. simpl. rewrite words_app, IH, flat_map_app. simpl. now rewrite app_nil_r.
Qed.

(** The text of a space-separated variable. *)
Definition listed (fs : list bytes) : bytes := concat (map (fun f => SPACE :: f) fs).
Lemma words_listed_after a fs : words (a ++ listed fs) = words a ++ flat_map words fs.
Proof.
  unfold listed. revert a. induction fs as [|f r IH]; intros a; simpl; [now rewrite !app_nil_r|].
  rewrite words_app, IH. reflexivity.
Qed.
Lemma words_listed fs : words (listed fs) = flat_map words fs.
Proof. apply (words_listed_after []). Qed.

Definition add_vars (v : lvars) (is us wr : list bytes) : lvars :=
  mklvars (lv_insert v ++ listed is) (lv_wrap v ++ listed wr) (lv_undef v ++ listed us).

Lemma add_nil v : add_vars v [] [] [] = v.
Proof. unfold add_vars, listed. simpl. rewrite !app_nil_r. now destruct v. Qed.

Lemma link_complete e args is us wr ws : link_args args is us wr ws ->
  forall fuel v, (List.length args < fuel)%nat ->
  link_loop fuel e v args = link_finish e (add_vars v is us wr) ws.
Proof.
  induction 1 as [c r Hp|r|r|o r is us wr ws Ho Hr IH|o f r is us wr ws Ho Hf Hr IH
                 |o f r is us wr ws Ho Hf Hr IH|o f r is us wr ws Ho Hf Hr IH];
    intros fuel v Hlen; (destruct fuel as [|fu]; [simpl in Hlen; lia|]).
  - destruct (plain_cases c Hp) as (E1 & _ & E3 & E4 & E5 & E6 & E7 & E8 & x & y & -> & E9).
    cbn [link_loop]. rewrite E1, E3, E4, E5, E6, E7, E8, E9, add_nil. reflexivity.
  - rewrite add_nil. reflexivity.
  - rewrite add_nil. reflexivity.
  - destruct Ho as [-> | ->];
      (transitivity (link_loop fu e v r); [reflexivity|]; apply IH; simpl in Hlen; lia).
  - assert (Hfe : beq f [] = false) by now apply beq_neq.
    assert (Hq := IH fu (mklvars (lv_insert v ++ SPACE :: f) (lv_wrap v) (lv_undef v)) ltac:(simpl in Hlen; lia)).
    transitivity (link_loop fu e (mklvars (lv_insert v ++ SPACE :: f) (lv_wrap v) (lv_undef v)) r).
    + destruct Ho as [-> | ->]; transitivity (if beq f [] then Die else
        link_loop fu e (mklvars (lv_insert v ++ SPACE :: f) (lv_wrap v) (lv_undef v)) r);
        (reflexivity || now rewrite Hfe).
    + rewrite Hq. unfold add_vars, listed. simpl. rewrite <- app_assoc. reflexivity.
  - assert (Hfe : beq f [] = false) by now apply beq_neq.
    assert (Hq := IH fu (mklvars (lv_insert v) (lv_wrap v) (lv_undef v ++ SPACE :: f)) ltac:(simpl in Hlen; lia)).
    transitivity (link_loop fu e (mklvars (lv_insert v) (lv_wrap v) (lv_undef v ++ SPACE :: f)) r).
    + destruct Ho as [-> | ->]; transitivity (if beq f [] then Die else
        link_loop fu e (mklvars (lv_insert v) (lv_wrap v) (lv_undef v ++ SPACE :: f)) r);
        (reflexivity || now rewrite Hfe).
    + rewrite Hq. unfold add_vars, listed. simpl. rewrite <- app_assoc. reflexivity.
  - assert (Hfe : beq f [] = false) by now apply beq_neq.
    assert (Hq := IH fu (mklvars (lv_insert v) (lv_wrap v ++ SPACE :: f) (lv_undef v)) ltac:(simpl in Hlen; lia)).
    transitivity (link_loop fu e (mklvars (lv_insert v) (lv_wrap v ++ SPACE :: f) (lv_undef v)) r).
    + destruct Ho as [-> | ->]; transitivity (if beq f [] then Die else
        link_loop fu e (mklvars (lv_insert v) (lv_wrap v ++ SPACE :: f) (lv_undef v)) r);
        (reflexivity || now rewrite Hfe).
    + rewrite Hq. unfold add_vars, listed. simpl. rewrite <- app_assoc. reflexivity.
Qed.

Lemma link_sound e : forall fuel v args x, (List.length args < fuel)%nat ->
  link_loop fuel e v args = Run x ->
  exists is us wr ws, link_args args is us wr ws /\
    link_finish e (add_vars v is us wr) ws = Run x.
Proof.
  induction fuel as [|fu IH]; intros v args x Hlen H; [lia|].
  destruct args as [|a r]; [discriminate|]. cbn [link_loop] in H.
  destruct (beq a []) eqn:E0.
  { apply beq_eq in E0. subst a. exists [], [], [], ([] :: r).
    split; [apply la_empty|]. now rewrite add_nil. }
  destruct (is_opt a "-h" "--help") eqn:E1; [discriminate|].
  destruct (is_opt a "-i" "--insert") eqn:E2.
  { apply is_opt_spec in E2. destruct r as [|f r']; [discriminate|].
    destruct (beq f []) eqn:Ef; [discriminate|]. apply beq_neq in Ef.
    destruct (IH _ r' x ltac:(simpl in Hlen; lia) H) as (is & us & wr & ws & H1 & H2).
    exists (f :: is), us, wr, ws. split; [now apply la_insert|].
    rewrite <- H2. unfold add_vars, listed. simpl. now rewrite <- app_assoc. }
  destruct (is_opt a "-u" "--undefined") eqn:E3.
  { apply is_opt_spec in E3. destruct r as [|f r']; [discriminate|].
    destruct (beq f []) eqn:Ef; [discriminate|]. apply beq_neq in Ef.
    destruct (IH _ r' x ltac:(simpl in Hlen; lia) H) as (is & us & wr & ws & H1 & H2).
    exists is, (f :: us), wr, ws. split; [now apply la_undef|].
    rewrite <- H2. unfold add_vars, listed. simpl. now rewrite <- app_assoc. }
  destruct (is_opt a "-v" "--verbose") eqn:E4.
  { apply is_opt_spec in E4.
    destruct (IH _ r x ltac:(simpl in Hlen; lia) H) as (is & us & wr & ws & H1 & H2).
    exists is, us, wr, ws. split; [now apply la_verbose|exact H2]. }
  destruct (is_opt a "-w" "--wrap") eqn:E5.
  { apply is_opt_spec in E5. destruct r as [|f r']; [discriminate|].
    destruct (beq f []) eqn:Ef; [discriminate|]. apply beq_neq in Ef.
    destruct (IH _ r' x ltac:(simpl in Hlen; lia) H) as (is & us & wr & ws & H1 & H2).
    exists is, us, (f :: wr), ws. split; [now apply la_wrap|].
    rewrite <- H2. unfold add_vars, listed. simpl. now rewrite <- app_assoc. }
  destruct (beq a (str "--")) eqn:E6.
  { apply beq_eq in E6. subst a. exists [], [], [], r. split; [apply la_dashes|]. now rewrite add_nil. }
  destruct a as [|c w]; [discriminate|].
  destruct (Ascii.eqb c DASH) eqn:E7; [discriminate|].
  exists [], [], [], ((c :: w) :: r). split; [apply la_command|now rewrite add_nil].
  split; [discriminate|]. simpl. intros C. injection C as ->. now rewrite Ascii.eqb_refl in E7.
Qed.

Lemma words_no_space v : forall w, In w (words v) -> one_word w.
Proof.
  unfold words. assert (G : forall l cur, (forall c, In c cur -> is_ifs c = false) ->
    forall w, In w (fields is_ifs cur l) -> one_word w).
  { induction l as [|c r IH]; intros cur Hc w Hw; simpl in Hw.
    - destruct (beq cur []) eqn:E; [destruct Hw|]. destruct Hw as [<-|[]].
      apply beq_neq in E. now split.
    - destruct (is_ifs c) eqn:Ec.
      + destruct (beq cur []) eqn:E; [apply (IH [] (fun _ H => match H with end) w Hw)|].
        destruct Hw as [<-|Hw]; [apply beq_neq in E; now split|].
        apply (IH [] (fun _ H => match H with end) w Hw).
      + apply (IH (cur ++ [c])); [|exact Hw]. intros x Hx. apply in_app_iff in Hx.
        destruct Hx as [Hx|[<-|[]]]; auto. }
  apply G. intros c [].
Qed.

Lemma flat_words_pre pre ws : (forall c, In c pre -> is_ifs c = false) ->
  (forall w, In w ws -> one_word w) ->
  flat_map (fun w => words (pre ++ w)) ws = map (app pre) ws.
Proof.
  intros Hp. induction ws as [|w r IH]; intros H; simpl; [reflexivity|].
  rewrite words_one; [simpl; f_equal; apply IH; intros x Hx; apply H; now right|].
  destruct (H w (or_introl eq_refl)) as [H1 H2]. split.
  - destruct pre; [exact H1|discriminate].
  - intros c Hc. apply in_app_iff in Hc. destruct Hc; auto.
Qed.

Lemma link_finish_words e v command a r : a <> [] ->
  link_finish e v (command :: a :: r) =
  Run (words command ++
       map (app (str "-Wl,--wrap=")) (words (l_wrap_names e) ++ words (lv_wrap v)) ++
       map (app (str "-Wl,--undefined=__wrap_")) (words (lv_undef v)) ++
       (a :: r) ++
       words (lv_insert v) ++ words (l_libmonitor e) ++ flat_map words (filter is_lib (a :: r))).
Proof.
  intros Ha. unfold link_finish.
  destruct (beq a []) eqn:E; [apply beq_eq in E; contradiction|].
  assert (P : forall p c, In c p -> existsb is_ifs p = false -> is_ifs c = false).
  { intros p c Hin Hf. destruct (is_ifs c) eqn:Ec; [|reflexivity].
    assert (existsb is_ifs p = true) by (apply existsb_exists; now exists c). congruence. }
  rewrite !words_join, !words_app, words_join.
  rewrite (flat_words_pre (str "-Wl,--wrap=")).
  2:{ intros c Hc. now apply (P _ _ Hc). }
  2:{ intros w Hw. apply in_app_iff in Hw. destruct Hw as [Hw|Hw]; now apply words_no_space in Hw. }
  rewrite (flat_words_pre (str "-Wl,--undefined=__wrap_")).
  2:{ intros c Hc. now apply (P _ _ Hc). }
  2:{ intros w Hw. now apply words_no_space in Hw. }
  change (words []) with (@nil bytes). rewrite app_nil_r. reflexivity.
Qed.

Lemma fields_split (f : ascii -> bool) (sep : ascii -> Prop) :
  (forall c, f c = true <-> sep c) -> forall l cur, (forall c, In c cur -> ~ sep c) ->
  split_by sep (cur ++ l) (fields f cur l).
Proof.
  intros HF. induction l as [|c r IH]; intros cur Hc; simpl.
  - destruct (beq cur []) eqn:E.
    + apply beq_eq in E. subst cur. apply sb_nil.
    + apply beq_neq in E. apply sb_word; auto. apply sb_nil.
  - destruct (f c) eqn:Ec.
    + apply HF in Ec. assert (X : split_by sep (c :: r) (fields f [] r)).
      { apply sb_sep; [exact Ec|]. apply (IH []). intros x []. }
      destruct (beq cur []) eqn:E; [apply beq_eq in E; subst cur; exact X|].
      apply beq_neq in E. apply sb_word; eauto.
    + replace (cur ++ c :: r) with ((cur ++ [c]) ++ r) by now rewrite <- app_assoc.
      apply IH. intros x Hx. apply in_app_iff in Hx. destruct Hx as [Hx|[<-|[]]]; [auto|].
      intros S. apply HF in S. congruence.
Qed.

Lemma split_fields (f : ascii -> bool) (sep : ascii -> Prop) :
  (forall c, f c = true <-> sep c) -> forall l ws, split_by sep l ws -> fields f [] l = ws.
Proof.
  intros HF l ws H. induction H as [|c v ws S H IH|w v ws Hn Hw Hv H IH]; [reflexivity| |].
  - rewrite fields_sep by now apply HF. exact IH.
  - assert (W : forall x, In x w -> f x = false).
    { intros x Hx. destruct (f x) eqn:E; [|reflexivity]. apply HF in E. now destruct (Hw x Hx). }
    destruct Hv as [-> | (c & r & -> & S)].
    + rewrite app_nil_r, fields_last by assumption. simpl in IH. now rewrite <- IH.
    + apply HF in S. rewrite fields_take by assumption. rewrite fields_sep in IH by assumption.
      now rewrite IH.
Qed.

Lemma fields_iff (f : ascii -> bool) (sep : ascii -> Prop) :
  (forall c, f c = true <-> sep c) -> forall l ws, fields f [] l = ws <-> split_by sep l ws.
Proof.
  intros HF l ws. split; [intros <-; apply (fields_split f sep HF l []); intros c []|].
  now apply split_fields.
Qed.

Lemma is_ifs_blank c : is_ifs c = true <-> blank c.
Proof.
  unfold is_ifs, blank. rewrite !orb_true_iff, !Ascii.eqb_eq.
  unfold SPACE, TAB, NEWLINE. tauto.
Qed.

Lemma is_sep_colon c : is_sep c = true <-> colon_or_space c.
Proof.
  unfold is_sep, colon_or_space. rewrite !orb_true_iff, !Ascii.eqb_eq.
  unfold SPACE, COLON. tauto.
Qed.

Lemma is_lib_iff a : is_lib a = true <-> exists x, x <> [] /\ a = str "-l" ++ x.
Proof.
  unfold is_lib. split.
  - destruct a as [|c [|d [|x r]]]; try discriminate. intros H.
    apply andb_true_iff in H. destruct H as [H1 H2].
    apply Ascii.eqb_eq in H1. apply Ascii.eqb_eq in H2. subst c d.
    exists (x :: r). split; [discriminate|reflexivity].
  - intros (x & Hx & ->). destruct x as [|y r]; [contradiction|]. reflexivity.
Qed.
