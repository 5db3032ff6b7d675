From Coq Require Import Ascii.
From Verif Require Import Base StringsModel StringsSpec.

(** ** Decimal numbers *)

Lemma digit_val_digit n : 0 <= n < 10 -> digit_val (digit n) = Some n.
Proof.
  intros H. assert (n = 0 \/ n = 1 \/ n = 2 \/ n = 3 \/ n = 4 \/ n = 5 \/ n = 6 \/ n = 7 \/ n = 8 \/ n = 9) as D by lia.
  repeat (destruct D as [->|D]; [reflexivity|]). subst n. reflexivity.
Qed.

Definition is_digit (c : ascii) : Prop := exists n, 0 <= n < 10 /\ c = digit n.

Lemma dec_fuel_digits f : forall n, 0 <= n -> Forall is_digit (dec_fuel f n).
Proof.
  induction f as [|f IH]; intros n H; cbn [dec_fuel]; [constructor|].
  destruct (n <? 10) eqn:E.
  - constructor; [|constructor]. exists n. split; [lia|reflexivity].
  - apply Forall_app. split.
    + apply IH. apply Z.div_pos; lia.
    + constructor; [|constructor]. exists (n mod 10). split; [apply Z.mod_pos_bound; lia|reflexivity].
Qed.

Lemma number_app a l1 : forall l2,
  number a (l1 ++ l2) = match number a l1 with Some b => number b l2 | None => None end.
Proof.
  revert a. induction l1 as [|c r IH]; intros a l2; [reflexivity|].
  cbn. destruct (digit_val c); [apply IH|reflexivity].
Qed.

Lemma number_dec_fuel f : forall n, 0 <= n -> n < 2 ^ Z.of_nat f ->
  (0 < f)%nat -> number 0 (dec_fuel f n) = Some n.
Proof.
  induction f as [|f IH]; intros n H H1 H2; [lia|]. cbn [dec_fuel].
  destruct (n <? 10) eqn:E.
  - cbn [number]. rewrite digit_val_digit by lia. f_equal.
  - rewrite number_app.
    assert (Hlt : n / 10 < 2 ^ Z.of_nat f).
    { rewrite Nat2Z.inj_succ, Z.pow_succ_r in H1 by lia.
      apply Z.div_lt_upper_bound; [lia|]. nia. }
    rewrite IH; [|apply Z.div_pos; lia|exact Hlt|].
    + cbn [number]. rewrite digit_val_digit by (apply Z.mod_pos_bound; lia).
      f_equal. pose proof (Z.div_mod n 10). lia.
    + destruct f; [|lia]. cbn in H1. lia.
Qed.

Lemma number_dec n : 0 <= n -> number 0 (dec n) = Some n.
Proof.
  intros H. unfold dec. apply number_dec_fuel; [exact H| |lia].
  rewrite Nat2Z.inj_succ, Z2Nat.id by apply Z.log2_nonneg.
  destruct (Z.eq_dec n 0) as [->|Hn]; [reflexivity|].
  apply Z.log2_spec. lia.
Qed.

Lemma dec_digits n : 0 <= n -> Forall is_digit (dec n).
Proof. intros H. now apply dec_fuel_digits. Qed.

Lemma dec_nonempty n : dec n <> [].
Proof.
  unfold dec. cbn [dec_fuel]. destruct (n <? 10); [discriminate|].
  intros H. apply app_eq_nil in H. destruct H. discriminate.
Qed.

Lemma dec_fuel_len f : forall n k, 0 <= n -> n < 10 ^ Z.of_nat k -> (0 < k)%nat ->
  (length (dec_fuel f n) <= k)%nat.
Proof.
  induction f as [|f IH]; intros n k H H1 Hk; cbn [dec_fuel]; [cbn; lia|].
  destruct (n <? 10) eqn:E; [cbn; lia|].
  rewrite app_length. cbn [length].
  destruct k as [|k]; [lia|].
  rewrite Nat2Z.inj_succ, Z.pow_succ_r in H1 by lia.
  destruct k as [|k]; [cbn in H1; lia|].
  assert (length (dec_fuel f (n / 10)) <= S k)%nat; [|lia].
  apply IH; [apply Z.div_pos; lia|apply Z.div_lt_upper_bound; lia|lia].
Qed.

Lemma dec_len n k : 0 <= n -> n < 10 ^ Z.of_nat k -> (0 < k)%nat -> (length (dec n) <= k)%nat.
Proof. apply dec_fuel_len. Qed.

Definition noc (c : ascii) (l : bytes) := Forall (fun x => Ascii.eqb x c = false) l.

Lemma digit_noc c l : (forall n, 0 <= n < 10 -> Ascii.eqb (digit n) c = false) ->
  Forall is_digit l -> noc c l.
Proof.
  intros H. apply Forall_impl. intros a [n [Hn ->]]. now apply H.
Qed.

Lemma small_cases (P : Z -> Prop) :
  P 0 -> P 1 -> P 2 -> P 3 -> P 4 -> P 5 -> P 6 -> P 7 -> P 8 -> P 9 ->
  forall n, 0 <= n < 10 -> P n.
Proof.
  intros. assert (n = 0 \/ n = 1 \/ n = 2 \/ n = 3 \/ n = 4 \/ n = 5 \/ n = 6 \/ n = 7 \/ n = 8 \/ n = 9) as D by lia.
  repeat (destruct D as [->|D]; [assumption|]). now subst n.
Qed.

Lemma dec_noc n : 0 <= n -> noc COMMA (dec n) /\ noc DASH (dec n) /\ noc nul (dec n).
Proof.
  intros H. repeat split; apply digit_noc; try apply dec_digits; try exact H;
    intros k Hk; pattern k; revert k Hk; apply small_cases; reflexivity.
Qed.

(** ** Splitting *)

Lemma split_noc c l : noc c l -> split c l = [l].
Proof.
  induction l as [|x r IH]; intros H; [reflexivity|].
  inversion H; subst. cbn. rewrite H2, IH by assumption. reflexivity.
Qed.

Lemma split_cut c l r : noc c l -> split c (l ++ c :: r) = l :: split c r.
Proof.
  induction l as [|x t IH]; intros H; cbn.
  - now rewrite Ascii.eqb_refl.
  - inversion H; subst. rewrite H2, IH by assumption. reflexivity.
Qed.

(** The item without its comma. *)
Definition item0 (ab : Z * Z) : bytes :=
  let '(a, b) := ab in
  if b >? a then SPACE :: dec a ++ DASH :: dec b else SPACE :: dec b.

Lemma item_item0 a b : item a b = item0 (a, b) ++ [COMMA].
Proof.
  unfold item, item0. destruct (b >? a); [|reflexivity].
  cbn. f_equal. rewrite <- app_assoc. reflexivity.
Qed.

Lemma width_item a b : Z.of_nat (length (item a b)) = width (a, b).
Proof.
  unfold item, width. rewrite Z.gtb_ltb. destruct (a <? b).
  - cbn [length]. rewrite !app_length. cbn [length]. rewrite app_length. cbn [length]. lia.
  - cbn [length]. rewrite !app_length. cbn [length]. lia.
Qed.

Lemma width_pos r : 2 <= width r.
Proof. destruct r as [a b]. unfold width. destruct (a <? b); lia. Qed.

Lemma item0_noc a b : 0 <= a -> 0 <= b -> noc COMMA (item0 (a, b)) /\ noc nul (item0 (a, b)).
Proof.
  intros Ha Hb. destruct (dec_noc a Ha) as (A1 & A2 & A3). destruct (dec_noc b Hb) as (B1 & B2 & B3).
  unfold item0. destruct (b >? a); split;
    repeat (first [assumption | apply Forall_app; split | constructor; [reflexivity|] | constructor]).
Qed.

Lemma read_item_item0 a b : 0 <= a -> a <= b -> read_item (item0 (a, b)) = Some (upto a b).
Proof.
  intros Ha Hb. unfold item0.
  destruct (dec_noc a Ha) as (A1 & A2 & A3). assert (0 <= b) as Hb' by lia.
  destruct (dec_noc b Hb') as (B1 & B2 & B3).
  destruct (b >? a) eqn:E; unfold read_item;
    change (Ascii.eqb SPACE (ascii_of_nat 32)) with true; cbn iota;
    change (ascii_of_nat 45) with DASH.
  - rewrite split_cut, split_noc by assumption. rewrite !number_dec by lia. reflexivity.
  - rewrite split_noc by assumption. rewrite number_dec by lia.
    assert (a = b) as -> by lia. unfold upto. rewrite Z.sub_diag. change (Z.to_nat (0 + 1)) with 1%nat. cbn [seq map]. change (Z.of_nat 0) with 0. now rewrite Z.add_0_r.
Qed.

(** ** Runs *)

Definition wf_run (r : Z * Z) : Prop := 0 <= fst r /\ fst r <= snd r.
Definition expand (rs : list (Z * Z)) : list Z := concat (map (fun r => upto (fst r) (snd r)) rs).

Lemma upto_cons a b : a <= b -> upto a b = a :: upto (a + 1) b.
Proof.
  intros H. unfold upto.
  replace (Z.to_nat (b - a + 1)) with (S (Z.to_nat (b - (a + 1) + 1))) by lia.
  cbn [seq map]. f_equal; [lia|]. rewrite <- seq_shift, map_map. apply map_ext. intros; lia.
Qed.

Lemma upto_empty a b : b < a -> upto a b = [].
Proof. intros H. unfold upto. now replace (Z.to_nat (b - a + 1)) with 0%nat by lia. Qed.

Lemma upto_single a : upto a a = [a].
Proof. rewrite upto_cons by lia. now rewrite upto_empty by lia. Qed.

Lemma upto_length a b : a <= b + 1 -> Z.of_nat (length (upto a b)) = b - a + 1.
Proof. intros H. unfold upto. rewrite map_length, seq_length. lia. Qed.

Lemma runs_wf l : Forall (fun x => 0 <= x) l -> Forall wf_run (runs l).
Proof.
  induction l as [|x r IH]; intros H; [constructor|]. inversion H; subst.
  specialize (IH H3). cbn. destruct (runs r) as [|[a b] t].
  - repeat constructor; cbn; lia.
  - inversion IH; subst. destruct (a =? x + 1) eqn:E.
    + constructor; [|assumption]. destruct H4 as [H4 H4']; cbn in *. split; cbn; lia.
    + constructor; [split; cbn; lia|]. constructor; assumption.
Qed.

Lemma runs_le l : Forall (fun r : Z * Z => fst r <= snd r) (runs l).
Proof.
  induction l as [|x r IH]; [constructor|].
  cbn. destruct (runs r) as [|[a b] t].
  - repeat constructor; cbn; lia.
  - inversion IH; subst. destruct (a =? x + 1) eqn:E; cbn in *.
    + constructor; [cbn; lia|assumption].
    + constructor; [cbn; lia|]. constructor; assumption.
Qed.

Lemma expand_runs l : expand (runs l) = l.
Proof.
  induction l as [|x r IH]; [reflexivity|]. cbn.
  pose proof (runs_le r) as Hle.
  destruct (runs r) as [|[a b] t].
  - cbn in *. rewrite upto_single. cbn. now f_equal.
  - inversion Hle; subst. cbn in H1.
    destruct (a =? x + 1) eqn:E; cbn in *.
    + assert (a = x + 1) as -> by lia. rewrite upto_cons by lia. cbn. now f_equal.
    + rewrite upto_single. cbn. now f_equal.
Qed.

Lemma runs_bounds l m : Forall (fun x => x <= m) l -> Forall (fun r => snd r <= m) (runs l).
Proof.
  induction l as [|x r IH]; intros H; [constructor|]. inversion H; subst.
  specialize (IH H3). cbn. destruct (runs r) as [|[a b] t].
  - repeat constructor; cbn; lia.
  - inversion IH; subst. destruct (a =? x + 1) eqn:E.
    + constructor; assumption.
    + constructor; [cbn; lia|]. constructor; assumption.
Qed.

(** A run followed by something that does not continue it. *)
Definition not_head (x : Z) (l : list Z) : Prop := match l with y :: _ => y <> x | [] => True end.

Lemma runs_head y r : exists b t, runs (y :: r) = (y, b) :: t.
Proof.
  cbn. destruct (runs r) as [|[a b] t]; [eauto|]. destruct (a =? y + 1); eauto.
Qed.

Lemma runs_cut : forall n a b rest, Z.to_nat (b - a) = n -> a <= b -> not_head (b + 1) rest ->
  runs (upto a b ++ rest) = (a, b) :: runs rest.
Proof.
  induction n as [|n IH]; intros a b rest Hn Hab Hh.
  - assert (a = b) as -> by lia. rewrite upto_single. cbn.
    destruct rest as [|y r]; [reflexivity|].
    destruct (runs_head y r) as (c & t & E). rewrite E.
    cbn in Hh. replace (y =? b + 1) with false by lia. reflexivity.
  - rewrite upto_cons by lia. cbn [app].
    cbn [runs]. rewrite (IH (a + 1) b rest) by (try assumption; lia).
    replace (a + 1 =? a + 1) with true by lia. reflexivity.
Qed.

(** ** The emitting loop on runs, common to both functions *)

Fixpoint emit_runs (rs : list (Z * Z)) (size : Z) (buf : bytes) (pos prev num : Z) : outcome :=
  match rs with
  | [] => finish buf pos num
  | (a, b) :: t =>
      match emit buf size pos prev a b with
      | inl out => out
      | inr (b', pos', prev') =>
          emit_runs t size b' pos' prev' (if b >? a then num + (b - a + 1) else num + 1)
      end
  end.

Lemma run_end_spec fuel set : forall sig, sig < NSIG ->
  (Z.to_nat (NSIG - sig) <= fuel)%nat ->
  let e := run_end fuel set sig in
  sig <= e < NSIG /\
  (forall x, sig < x <= e -> mem x set = true) /\
  (e + 1 < NSIG -> mem (e + 1) set = false).
Proof.
  induction fuel as [|f IH]; intros sig Hs Hf; [lia|]. cbn [run_end].
  destruct ((sig + 1 <? NSIG) && mem (sig + 1) set) eqn:E.
  - apply andb_true_iff in E. destruct E as [E1 E2].
    destruct (IH (sig + 1)) as (H1 & H2 & H3); [lia|lia|].
    cbn zeta in *. split; [lia|]. split; [|exact H3].
    intros x Hx. destruct (Z.eq_dec x (sig + 1)) as [->|]; [exact E2|]. apply H2. lia.
  - cbn zeta. split; [lia|]. split; [lia|]. intros H. destruct (mem (sig + 1) set); [lia|reflexivity].
Qed.

Definition mfrom (set : sigset) (s : Z) : list Z := filter (fun x => mem x set) (upto s 64).

Lemma mfrom_step set s : s <= 64 ->
  mfrom set s = (if mem s set then [s] else []) ++ mfrom set (s + 1).
Proof.
  intros H. unfold mfrom. rewrite upto_cons by lia. cbn [filter]. now destruct (mem s set).
Qed.

Lemma mfrom_end set s : 64 < s -> mfrom set s = [].
Proof. intros H. unfold mfrom. now rewrite upto_empty by lia. Qed.

Lemma mfrom_run set e : forall n s, Z.to_nat (e - s) = n -> s <= e -> e <= 64 ->
  (forall x, s <= x <= e -> mem x set = true) ->
  mfrom set s = upto s e ++ mfrom set (e + 1).
Proof.
  induction n as [|n IH]; intros s Hn Hs He Hm.
  - assert (s = e) as -> by lia. rewrite mfrom_step by lia. rewrite Hm by lia. now rewrite upto_single.
  - rewrite mfrom_step by lia. rewrite Hm by lia. rewrite upto_cons by lia.
    cbn. f_equal. apply IH; try lia. intros; apply Hm; lia.
Qed.

Lemma mfrom_not_head set s : (s < NSIG -> mem s set = false) -> not_head s (mfrom set s).
Proof.
  intros H. unfold NSIG in H. destruct (Z_lt_le_dec 64 s).
  - now rewrite mfrom_end by lia.
  - rewrite mfrom_step by lia. rewrite H by lia. cbn [app].
    unfold mfrom. remember (filter _ _) as ll eqn:El. destruct ll as [|y r]; [exact I|].
    assert (In y (upto (s + 1) 64)).
    { apply (filter_In (fun x => mem x set)). rewrite <- El. now left. }
    unfold upto in H0. apply in_map_iff in H0. destruct H0 as (k & <- & _). cbn. lia.
Qed.

Lemma set_loop_runs fuel set size : forall sig buf pos prev num,
  1 <= sig -> (Z.to_nat (NSIG - sig) < fuel)%nat ->
  set_loop fuel set size buf sig pos prev num =
  emit_runs (runs (mfrom set sig)) size buf pos prev num.
Proof.
  induction fuel as [|f IH]; intros sig buf pos prev num Hs Hf; [lia|].
  cbn [set_loop]. destruct (sig <? NSIG) eqn:E.
  - destruct (mem sig set) eqn:Em.
    + destruct (run_end_spec 65 set sig) as (H1 & H2 & H3); [lia|unfold NSIG in *; lia|].
      set (e := run_end 65 set sig) in *. cbn zeta in *. unfold NSIG in *.
      assert (H4 : forall x, sig <= x <= e -> mem x set = true).
      { intros x Hx. destruct (Z.eq_dec x sig) as [->|]; [exact Em|apply H2; lia]. }
      rewrite (mfrom_run set e _ sig eq_refl) by (try exact H4; lia).
      rewrite (runs_cut _ _ _ _ eq_refl) by (try lia; apply mfrom_not_head; unfold NSIG; intros; apply H3; lia).
      cbn [emit_runs].
      destruct (emit buf size pos prev sig e) as [out|[[b' pos'] prev']]; [reflexivity|].
      apply IH; lia.
    + rewrite mfrom_step by (unfold NSIG in *; lia). rewrite Em. cbn [app].
      apply IH; lia.
  - rewrite mfrom_end by (unfold NSIG in *; lia). reflexivity.
Qed.

Lemma list_run_spec l : forall sig, 
  let '(e, r) := list_run sig l in
  sig <= e /\ l = upto (sig + 1) e ++ r /\ not_head (e + 1) r.
Proof.
  induction l as [|x t IH]; intros sig; cbn [list_run].
  - rewrite upto_empty by lia. repeat split; cbn; lia.
  - destruct (x =? sig + 1) eqn:E.
    + assert (x = sig + 1) as -> by lia. specialize (IH (sig + 1)).
      destruct (list_run (sig + 1) t) as [e r]. destruct IH as (H1 & H2 & H3).
      split; [lia|]. split; [|exact H3]. rewrite upto_cons by lia. cbn. now f_equal.
    + split; [lia|]. split; [now rewrite upto_empty by lia|]. cbn. lia.
Qed.

Lemma signals_app a b rest : 0 < a -> signals (upto a b ++ rest) = upto a b ++ signals rest.
Proof.
  intros H. remember (Z.to_nat (b - a + 1)) as n eqn:Hn. revert a H Hn.
  induction n as [|n IH]; intros a H Hn.
  - now rewrite upto_empty by lia.
  - rewrite upto_cons by lia. cbn. replace (0 <? a) with true by lia. f_equal. apply IH; lia.
Qed.

Lemma signals_not_head x l : 0 < x -> not_head x l -> not_head x (signals l).
Proof.
  intros Hx H. destruct l as [|y r]; [exact I|]. cbn in *. destruct (0 <? y); cbn; auto.
Qed.

Lemma list_run_len l : forall sig, (length (snd (list_run sig l)) <= length l)%nat.
Proof.
  induction l as [|x t IH]; intros sig; cbn [list_run]; [cbn; lia|].
  destruct (x =? sig + 1); [|cbn; lia]. specialize (IH x). cbn [length]. lia.
Qed.

Lemma list_loop_runs fuel size : forall l buf pos prev num,
  (length l < fuel)%nat ->
  list_loop fuel l size buf pos prev num =
  emit_runs (runs (signals l)) size buf pos prev num.
Proof.
  induction fuel as [|f IH]; intros l buf pos prev num Hf; [lia|].
  cbn [list_loop]. destruct l as [|x r]; [reflexivity|].
  cbn [signals]. rewrite Z.gtb_ltb. destruct (0 <? x) eqn:E; [|reflexivity].
  pose proof (list_run_spec r x) as H. pose proof (list_run_len r x) as HL.
  destruct (list_run x r) as [e r']. destruct H as (H1 & H2 & H3). cbn [snd] in HL.
  assert (E2 : x :: signals r = upto x e ++ signals r').
  { rewrite H2. rewrite signals_app by lia. rewrite (upto_cons x e) by lia. reflexivity. }
  rewrite E2.
  rewrite (runs_cut _ _ _ _ eq_refl) by (first [lia | apply signals_not_head; [lia|exact H3]]).
  cbn [emit_runs].
  destruct (emit buf size pos prev x e) as [out|[[b' pos'] prev']]; [reflexivity|].
  apply IH. cbn in Hf. lia.
Qed.

(** ** Stores *)

Lemma puts_ok t rest s : (length s < length rest)%nat ->
  puts (t ++ rest) (Z.of_nat (length t)) s =
  Some (t ++ s ++ nul :: skipn (length s + 1) rest).
Proof.
  intros H. unfold puts. rewrite app_length.
  replace ((0 <=? Z.of_nat (length t)) &&
    (Z.of_nat (length t) + Z.of_nat (length s) + 1 <=? Z.of_nat (length t + length rest))) with true by lia.
  rewrite Nat2Z.id. cbn zeta. f_equal.
  rewrite firstn_app, Nat.sub_diag, firstn_all. cbn [firstn]. rewrite app_nil_r.
  f_equal. f_equal. f_equal.
  rewrite skipn_app. rewrite skipn_all2 by lia. cbn [app]. f_equal. lia.
Qed.

Lemma cstr_app t r : noc nul t -> cstr (t ++ nul :: r) = Some t.
Proof.
  induction t as [|x t IH]; intros H; cbn; [reflexivity|].
  inversion H; subst. rewrite H2, IH by assumption. reflexivity.
Qed.

(** Text printed for runs (with trailing comma). *)
Definition text (rs : list (Z * Z)) : bytes := concat (map (fun r => item (fst r) (snd r)) rs).
Definition width_ok (r : Z * Z) : Prop := width r <= 14.

Definition total (rs : list (Z * Z)) : Z := Z.of_nat (length (expand rs)).

(** The main loop lemma. [tx] is what has been printed so far, [pv] the part of it
    before the last item. *)
Lemma emit_runs_spec size : forall rs tx pv i0 rest num,
  Forall wf_run rs -> Forall width_ok rs ->
  tx = pv ++ i0 -> noc nul tx ->
  Z.of_nat (length tx + length rest) = size ->
  Z.of_nat (length pv) + 15 <= size ->
  (1 <= length rest)%nat ->
  (exists r', rest = nul :: r') ->
  exists buf' ret,
    emit_runs rs size (tx ++ rest) (Z.of_nat (length tx)) (Z.of_nat (length pv)) num = Some (buf', ret) /\
    Z.of_nat (length buf') = size /\
    (exists t, cstr buf' = Some t) /\
    (if fits size (Z.of_nat (length tx)) rs
     then ret = num + total rs /\
          cstr buf' = Some (removelast (tx ++ text rs))
     else ret = -1).
Proof.
  induction rs as [|[a b] t IH]; intros tx pv i0 rest num Hwf Hw Htx Hn Hsz Hpv Hr Hr0.
  - cbn [emit_runs fits]. unfold finish, put0. rewrite Z.gtb_ltb.
    unfold text. cbn [map concat]. rewrite app_nil_r. unfold total. cbn [expand map concat length].
    destruct (0 <? Z.of_nat (length tx)) eqn:E.
    + assert (tx <> []) as Hne by (destruct tx; [cbn in E; lia|discriminate]).
      destruct (exists_last Hne) as (t0 & c & Et).
      rewrite Et. rewrite <- app_assoc. cbn [app].
      replace (Z.of_nat (length (t0 ++ [c])) - 1) with (Z.of_nat (length t0))
        by (rewrite app_length; cbn; lia).
      rewrite puts_ok by (cbn; lia). cbn [app].
      eexists _, _. split; [reflexivity|].
      rewrite removelast_app by discriminate. cbn [removelast]. rewrite app_nil_r.
      assert (noc nul t0) as Hn0 by (rewrite Et in Hn; apply Forall_app in Hn; tauto).
      rewrite cstr_app by exact Hn0.
      split; [|split; [eauto|split; [lia|reflexivity]]].
      rewrite app_length. cbn [length]. rewrite skipn_length. cbn [length] in *.
      rewrite Et in Hsz. rewrite app_length in Hsz. cbn [length] in Hsz. lia.
    + assert (tx = []) as -> by (destruct tx; [reflexivity|cbn in E; lia]).
      cbn [app length]. change 0 with (Z.of_nat (length (@nil ascii))) at 1.
      change rest with ([] ++ rest) at 1. rewrite puts_ok by (cbn; lia). cbn [app].
      eexists _, _. split; [reflexivity|]. cbn [cstr]. rewrite Ascii.eqb_refl. cbn [removelast].
      split; [|split; [eauto|split; [lia|reflexivity]]].
      cbn [length]. rewrite skipn_length. cbn [length] in *. lia.
  - inversion Hwf as [|? ? Hwf1 Hwf2]; subst x l. inversion Hw as [|? ? Hw1 Hw2]; subst x l.
    unfold wf_run in Hwf1. cbn [fst snd] in Hwf1. unfold width_ok in Hw1.
    cbn [emit_runs fits]. unfold emit. unfold SIG_ITEM_SIZE.
    destruct (Z.of_nat (length tx) + 15 >? size) eqn:E.
    + replace (Z.of_nat (length tx) + 15 <=? size) with false by lia. cbn [andb].
      subst tx. rewrite <- app_assoc.
      rewrite puts_ok by (rewrite app_length in *; change (length and_more) with 9%nat; lia).
      eexists _, _. split; [reflexivity|].
      assert (noc nul (pv ++ and_more)) as Hnn.
      { apply Forall_app in Hn. apply Forall_app. split; [tauto|].
        unfold and_more. repeat constructor. }
      split; [|split; [|reflexivity]].
      * rewrite !app_length. cbn [length]. rewrite skipn_length. rewrite !app_length in *.
        change (length and_more) with 9%nat. lia.
      * exists (pv ++ and_more). rewrite app_assoc. now apply cstr_app.
    + replace (Z.of_nat (length tx) + 15 <=? size) with true by lia. cbn [andb].
      pose proof (width_item a b) as HW.
      rewrite puts_ok by lia.
      destruct (item0_noc a b) as [_ Hi]; [lia|lia|].
      assert (Hitem : noc nul (item a b)).
      { rewrite item_item0. apply Forall_app. split; [exact Hi|]. repeat constructor. }
      set (rest' := nul :: skipn (length (item a b) + 1) rest).
      assert (Hlr : (length rest' = length rest - length (item a b))%nat).
      { unfold rest'. cbn [length]. rewrite skipn_length. lia. }
      edestruct (IH (tx ++ item a b) tx (item a b) rest'
                   (if b >? a then num + (b - a + 1) else num + 1))
        as (buf' & ret & H1 & H2 & H3 & H4); try assumption; try reflexivity.
      * apply Forall_app; split; assumption.
      * rewrite app_length. lia.
      * lia.
      * lia.
      * eexists; reflexivity.
      * exists buf', ret.
        rewrite app_length in H1, H4. rewrite Nat2Z.inj_add in H1, H4.
        rewrite <- app_assoc in H1. rewrite HW in H1, H4.
        cbn iota beta. rewrite HW. split; [exact H1|]. split; [exact H2|]. split; [exact H3|].
        destruct (fits size (Z.of_nat (length tx) + width (a, b)) t); [|exact H4].
        destruct H4 as [H4 H5]. split.
        -- rewrite H4. unfold total, expand. cbn [map concat fst snd]. rewrite app_length.
           rewrite Nat2Z.inj_add, upto_length by lia. rewrite Z.gtb_ltb. destruct (a <? b) eqn:Eab; lia.
        -- rewrite H5. unfold text. cbn [map concat fst snd]. now rewrite <- app_assoc.
Qed.

(** ** Reading the text back *)

Lemma read_items_runs rs : Forall wf_run rs ->
  read_items (map item0 rs) = Some (expand rs).
Proof.
  induction rs as [|[a b] t IH]; intros H; [reflexivity|].
  inversion H; subst. destruct H2 as [H2 H2']; cbn [fst snd] in *.
  cbn [map read_items]. rewrite read_item_item0 by lia. rewrite IH by assumption. reflexivity.
Qed.

Lemma text_split rs : Forall wf_run rs -> rs <> [] ->
  split COMMA (removelast (text rs)) = map item0 rs.
Proof.
  induction rs as [|[a b] t IH]; intros H Hne; [congruence|].
  inversion H; subst. destruct H2 as [H2 H2']; cbn [fst snd] in *.
  destruct (item0_noc a b) as [Hc _]; [lia|lia|].
  unfold text. cbn [map concat fst snd]. rewrite item_item0.
  destruct t as [|r t].
  - cbn [map concat]. rewrite app_nil_r, removelast_app by discriminate.
    cbn [removelast]. rewrite app_nil_r. rewrite split_noc by exact Hc. reflexivity.
  - rewrite <- app_assoc. cbn [app].
    assert (Hnt : text (r :: t) <> []).
    { unfold text. cbn [map concat]. rewrite item_item0. intros Hz.
      apply app_eq_nil in Hz. destruct Hz as [Hz _]. apply app_eq_nil in Hz. destruct Hz. discriminate. }
    change (concat (map (fun r0 => item (fst r0) (snd r0)) (r :: t))) with (text (r :: t)).
    rewrite removelast_app by discriminate.
    replace (removelast (COMMA :: text (r :: t))) with (COMMA :: removelast (text (r :: t)))
      by (destruct (text (r :: t)); [congruence|reflexivity]).
    rewrite split_cut by exact Hc. rewrite IH by (try assumption; discriminate). reflexivity.
Qed.

Lemma read_text rs : Forall wf_run rs -> read (removelast (text rs)) = Some (expand rs).
Proof.
  intros H. destruct rs as [|[a b] t]; [reflexivity|].
  unfold read. change (ascii_of_nat 44) with COMMA.
  rewrite text_split by (try assumption; discriminate).
  rewrite read_items_runs by assumption.
  destruct (removelast (text ((a, b) :: t))) eqn:E; [|reflexivity].
  exfalso. pose proof (text_split ((a, b) :: t) H) as HS. rewrite E in HS.
  specialize (HS ltac:(discriminate)). cbn [split map] in HS.
  inversion HS as [HS']. unfold item0 in HS'. destruct (b >? a); discriminate.
Qed.

(** ** The whole functions *)

Definition small (l : list Z) : Prop := Forall (fun x => 0 < x < 100000) l.

Lemma small_runs l : small l -> Forall wf_run (runs l) /\ Forall width_ok (runs l).
Proof.
  intros H. assert (W : Forall wf_run (runs l)).
  { apply runs_wf. eapply Forall_impl; [|exact H]. cbn. lia. }
  split; [exact W|].
  assert (B : Forall (fun r => snd r <= 99999) (runs l)).
  { apply runs_bounds. eapply Forall_impl; [|exact H]. cbn. lia. }
  rewrite Forall_forall in *. intros [a b] Hr. specialize (W _ Hr). specialize (B _ Hr).
  destruct W as [W1 W2]. cbn [fst snd] in *. unfold width_ok, width.
  pose proof (dec_len a 5 ltac:(lia) ltac:(cbn; lia) ltac:(lia)).
  pose proof (dec_len b 5 ltac:(lia) ltac:(cbn; lia) ltac:(lia)).
  destruct (a <? b); lia.
Qed.

Lemma emit_all size b0 l :
  small l -> Z.of_nat (length b0) = size -> 15 <= size -> (exists r', b0 = nul :: r') ->
  exists buf' ret,
    emit_runs (runs l) size b0 0 0 0 = Some (buf', ret) /\
    Z.of_nat (length buf') = size /\
    (exists t, cstr buf' = Some t) /\
    (if fits size 0 (runs l)
     then ret = Z.of_nat (length l) /\
          exists t, cstr buf' = Some t /\ read t = Some l
     else ret = -1).
Proof.
  intros Hs Hl Hsz H0. destruct (small_runs l Hs) as [W1 W2].
  destruct (emit_runs_spec size (runs l) [] [] [] b0 0) as (buf' & ret & H1 & H2 & H3 & H4);
    try assumption; try reflexivity; cbn; try lia.
  { constructor. }
  cbn [app length] in *. exists buf', ret. split; [exact H1|]. split; [exact H2|]. split; [exact H3|].
  change (Z.of_nat 0) with 0 in H4. destruct (fits size 0 (runs l)); [|exact H4].
  destruct H4 as [H4 H5]. split.
  - rewrite H4. unfold total. rewrite expand_runs. lia.
  - eexists. split; [exact H5|]. rewrite read_text by exact W1. now rewrite expand_runs.
Qed.

Lemma put0_start buf : (0 < length buf)%nat -> put0 buf 0 = Some (nul :: skipn 1 buf).
Proof.
  intros H. unfold put0. change buf with ([] ++ buf) at 1. change 0 with (Z.of_nat (length (@nil ascii))).
  now rewrite puts_ok by (cbn; lia).
Qed.

Lemma members_small set : small (members set).
Proof.
  unfold small, members. apply Forall_forall. intros x H. apply filter_In in H. destruct H as [H _].
  assert (G : forall a b, In x (upto a b) -> a <= x <= b); [|apply G in H; lia].
  clear. intros a b H. unfold upto in H. apply in_map_iff in H. destruct H as (k & <- & H).
  apply in_seq in H. lia.
Qed.

Lemma null_text_ok size b0 : Z.of_nat (length b0) = size -> 15 <= size ->
  exists b1, puts b0 0 null_text = Some b1 /\ Z.of_nat (length b1) = size /\
             cstr b1 = Some null_text.
Proof.
  intros Hl Hs. change b0 with ([] ++ b0). change 0 with (Z.of_nat (length (@nil ascii))).
  rewrite puts_ok by (change (length null_text) with 7%nat; lia).
  eexists. split; [reflexivity|]. split.
  - cbn [app]. rewrite app_length. cbn [length]. rewrite skipn_length.
    change (length null_text) with 7%nat. lia.
  - cbn [app]. rewrite cstr_app; [reflexivity|]. unfold null_text. repeat constructor.
Qed.

Lemma members_mfrom set : members set = mfrom set 1.
Proof. unfold members, mfrom. reflexivity. Qed.

(** Common shape of the two entry points. *)
Lemma sigset_string_spec buf size set : Z.of_nat (length buf) = size -> 1 <= size ->
  exists buf' ret,
    sigset_string (Some buf) size (Some set) = Some (buf', ret) /\
    Z.of_nat (length buf') = size /\ (exists t, cstr buf' = Some t) /\
    (if (15 <=? size) && fits size 0 (runs (members set))
     then ret = Z.of_nat (length (members set)) /\
          exists t, cstr buf' = Some t /\ read t = Some (members set)
     else ret = -1).
Proof.
  intros Hl Hs. unfold sigset_string. rewrite put0_start by lia. unfold SIG_ITEM_SIZE.
  destruct (size <? 15) eqn:E.
  - replace (15 <=? size) with false by lia. cbn [andb].
    eexists _, _. split; [reflexivity|]. cbn [cstr length]. rewrite Ascii.eqb_refl.
    split; [rewrite skipn_length; lia|]. split; [eauto|reflexivity].
  - replace (15 <=? size) with true by lia. cbn [andb].
    rewrite set_loop_runs by (unfold NSIG; lia).
    rewrite <- members_mfrom.
    apply emit_all; [apply members_small| |lia|eauto].
    cbn [length]. rewrite skipn_length. lia.
Qed.

Lemma list_string_spec buf size l : Z.of_nat (length buf) = size -> 1 <= size ->
  Forall (fun x => x < 100000) (signals l) ->
  exists buf' ret,
    list_string (Some buf) size (Some l) = Some (buf', ret) /\
    Z.of_nat (length buf') = size /\ (exists t, cstr buf' = Some t) /\
    (if (15 <=? size) && fits size 0 (runs (signals l))
     then ret = Z.of_nat (length (signals l)) /\
          exists t, cstr buf' = Some t /\ read t = Some (signals l)
     else ret = -1).
Proof.
  intros Hl Hs Hb. unfold list_string. rewrite put0_start by lia. unfold SIG_ITEM_SIZE.
  destruct (size <? 15) eqn:E.
  - replace (15 <=? size) with false by lia. cbn [andb].
    eexists _, _. split; [reflexivity|]. cbn [cstr length]. rewrite Ascii.eqb_refl.
    split; [rewrite skipn_length; lia|]. split; [eauto|reflexivity].
  - replace (15 <=? size) with true by lia. cbn [andb].
    rewrite list_loop_runs by lia.
    apply emit_all; [| |lia|eauto].
    + clear - Hb. induction l as [|x r IH]; [constructor|]. cbn in *.
      destruct (0 <? x) eqn:E; [|constructor]. inversion Hb; subst.
      constructor; [lia|]. now apply IH.
    + cbn [length]. rewrite skipn_length. lia.
Qed.
