From Coq Require Import Ascii String.
From Verif Require Import ExecModel ExecSpec.
Import List ListNotations.

(** ** Environment *)

Definition kept (old : list bytes) : list bytes :=
  filter (fun e => negb (contains LD_PRELOAD e)) old.

Lemma kept_length old : (length (kept old) <= length old)%nat.
Proof. unfold kept. induction old as [|e r IH]; cbn [filter length]; [lia|].
  destruct (negb (contains LD_PRELOAD e)); cbn [length]; lia. Qed.

Lemma copy_env_loop_ok old : forall cap acc,
  Z.of_nat (length acc + length old) + 1 <= cap ->
  copy_env_loop old (cap, acc) = Ok (cap, acc ++ map Some (kept old) ++ [None]).
Proof.
  induction old as [|e r IH]; intros cap acc H; cbn [copy_env_loop].
  - unfold store. cbn [fst snd]. cbn [length] in H.
    replace (Z.of_nat (length acc) <? cap) with true by lia. reflexivity.
  - unfold kept. cbn [filter]. cbn [length] in H. destruct (negb (contains LD_PRELOAD e)).
    + unfold store. cbn [fst snd]. replace (Z.of_nat (length acc) <? cap) with true by lia.
      rewrite IH by (rewrite app_length; cbn [length]; lia).
      rewrite <- app_assoc. reflexivity.
    + apply IH. lia.
Qed.

Lemma copy_environ_ok pagesize mmap_ok old : 0 < pagesize ->
  (mmap_ok = true \/ Z.of_nat (length old) <= 248) ->
  exists cap, copy_environ pagesize mmap_ok old = Ok (cap, map Some (kept old) ++ [None]) /\
              Z.of_nat (length (kept old)) + 1 <= cap.
Proof.
  intros Hp Hm. unfold copy_environ, INIT_ENVIRON_SIZE.
  pose proof (kept_length old) as HK.
  destruct (Z.of_nat (length old) + 2 >? 250) eqn:E.
  - destruct Hm as [->|]; [|lia].
    set (n := Z.of_nat (length old) + 2) in *.
    assert (n * 8 <= (n * 8 + pagesize - 1) / pagesize * pagesize) as HA.
    { pose proof (Z.div_mod (n * 8 + pagesize - 1) pagesize ltac:(lia)).
      pose proof (Z.mod_pos_bound (n * 8 + pagesize - 1) pagesize Hp). nia. }
    assert (n <= (n * 8 + pagesize - 1) / pagesize * pagesize / 8) as HB.
    { apply Z.div_le_lower_bound; lia. }
    eexists. split.
    + rewrite copy_env_loop_ok by (cbn [length]; unfold n in *; lia). reflexivity.
    + unfold n in *. lia.
  - eexists. split; [rewrite copy_env_loop_ok by (cbn [length]; lia); reflexivity|lia].
Qed.

Lemma prefix_app p l : prefix p (p ++ l) = true.
Proof. induction p as [|a p IH]; cbn; [reflexivity|]. now rewrite Ascii.eqb_refl. Qed.

Lemma contains_prefix p l : prefix p l = true -> contains p l = true.
Proof. destruct l; cbn; intros ->; reflexivity. Qed.

Lemma prefix_iff p : forall l, prefix p l = true <-> exists b, l = p ++ b.
Proof.
  induction p as [|a p IH]; intros l; cbn; [split; eauto|].
  destruct l as [|c l]; [split; [discriminate|intros [b H]; discriminate]|].
  rewrite andb_true_iff, Ascii.eqb_eq, IH. split.
  - intros [<- [b ->]]. now exists b.
  - intros [b H]. injection H as -> ->. eauto.
Qed.

Lemma contains_iff p : forall l, contains p l = true <-> exists a b, l = a ++ p ++ b.
Proof.
  induction l as [|c l IH]; cbn [contains]; rewrite orb_true_iff, prefix_iff.
  - split.
    + intros [[b H]|H]; [|discriminate]. now exists [], b.
    + intros (a & b & H). destruct a; [left; now exists b|discriminate].
  - rewrite IH. split.
    + intros [[b H]|(a & b & H)]; [now exists [], b|]. exists (c :: a), b. cbn. now rewrite H.
    + intros (a & b & H). destruct a as [|x a]; [left; now exists b|].
      injection H as -> H. right. eauto.
Qed.

Lemma var_name_prefix e : exists r, e = var_name e ++ r.
Proof.
  induction e as [|c e [r IH]]; cbn; [exists []; reflexivity|].
  destruct (Ascii.eqb c "="%char); [exists (c :: e); reflexivity|].
  exists r. cbn. now f_equal.
Qed.

Lemma sets_preload_contains e : sets_preload e = true -> contains LD_PRELOAD e = true.
Proof.
  unfold sets_preload, beqb. destruct (list_eq_dec _ _ _) as [E|]; [|discriminate]. intros _.
  destruct (var_name_prefix e) as [r Hr]. rewrite Hr, E. apply contains_prefix. apply prefix_app.
Qed.

Lemma filter_ext_in2 {A} (f g : A -> bool) l :
  (forall x, In x l -> f x = g x) -> filter f l = filter g l.
Proof. apply filter_ext_in. Qed.

(** ** Argument lists *)

Lemma copy_va_loop_ok args : forall tail size cap acc,
  Forall (fun a => a <> 0) args -> 0 < size -> cap = size ->
  (Z.of_nat (length acc) <= size) ->
  exists cap', copy_va_loop (args ++ 0 :: tail) size (cap, acc) =
               Ok ((cap', acc ++ args ++ [0]), tail).
Proof.
  induction args as [|a r IH]; intros tail size cap acc Hnz Hs -> Hl; cbn [app copy_va_loop].
  - cbn [fst snd]. destruct (Z.of_nat (length acc) >=? size) eqn:E; unfold store; cbn [fst snd].
    + replace (Z.of_nat (length acc) <? size * 2) with true by lia. eexists; reflexivity.
    + replace (Z.of_nat (length acc) <? size) with true by lia. eexists; reflexivity.
  - inversion Hnz as [|? ? Ha Hr]; subst. cbn [fst snd].
    destruct (Z.of_nat (length acc) >=? size) eqn:E; unfold store; cbn [fst snd].
    + replace (Z.of_nat (length acc) <? size * 2) with true by lia.
      replace (a =? 0) with false by lia.
      destruct (IH tail (size * 2) (size * 2) (acc ++ [a])) as (cap' & H); try assumption; try lia.
      { rewrite app_length. cbn [length]. lia. }
      exists cap'. rewrite H. now rewrite <- app_assoc.
    + replace (Z.of_nat (length acc) <? size) with true by lia.
      replace (a =? 0) with false by lia.
      destruct (IH tail size size (acc ++ [a])) as (cap' & H); try assumption; try lia.
      { rewrite app_length. cbn [length]. lia. }
      exists cap'. rewrite H. now rewrite <- app_assoc.
Qed.

Lemma copy_va_args_ok want first args tail :
  Forall (fun a => a <> 0) args ->
  (want = true -> tail <> []) ->
  copy_va_args want first (args ++ 0 :: tail) =
  Ok (first :: args ++ [0], if want then hd_error tail else None).
Proof.
  intros Hnz Ht. unfold copy_va_args, store, INIT_ARGV_SIZE. cbn [fst snd length Z.of_nat Z.ltb].
  change (0 <? 64) with true. cbn iota. cbn [app].
  destruct (copy_va_loop_ok args tail 64 64 [first] Hnz) as (cap' & H); [lia|reflexivity|cbn; lia|].
  change (match 0 ?= 64 with Lt => true | _ => false end) with true. cbn iota.
  rewrite H. destruct want; [|reflexivity]. destruct tail as [|e t]; [|reflexivity].
  now specialize (Ht eq_refl).
Qed.

(** ** PATH search *)

Lemma has_char_spec c l : has_char c l = existsb (Ascii.eqb c) l.
Proof. reflexivity. Qed.

(** Elements of a path, through take_until. *)
Lemma elements_take p : elements p =
  let '(d, r) := take_until COLON p in
  match r with [] => [d] | _ :: r' => d :: elements r' end.
Proof.
  induction p as [|c p IH]; [reflexivity|].
  cbn [elements take_until]. change ":"%char with COLON. destruct (Ascii.eqb c COLON); [reflexivity|].
  rewrite IH. destruct (take_until COLON p) as [d r]. destruct r; reflexivity.
Qed.

Lemma take_until_len c l : (length (snd (take_until c l)) <= length l)%nat.
Proof.
  induction l as [|x l IH]; cbn; [lia|]. destruct (Ascii.eqb x c); [cbn; lia|].
  destruct (take_until c l). cbn in *. lia.
Qed.

Lemma take_until_nonempty c x l : Ascii.eqb x c = false ->
  exists d, fst (take_until c (x :: l)) = x :: d /\
            (length (snd (take_until c (x :: l))) <= length l)%nat.
Proof.
  intros H. cbn. rewrite H. pose proof (take_until_len c l).
  destruct (take_until c l) as [a b]. cbn in *. eauto.
Qed.

Lemma take_until_rest c l : match snd (take_until c l) with [] => True | x :: _ => x = c end.
Proof.
  induction l as [|x l IH]; cbn; [exact I|]. destruct (Ascii.eqb x c) eqn:E.
  - cbn. now apply Ascii.eqb_eq.
  - destruct (take_until c l). exact IH.
Qed.

Lemma skip_char_len c l : (length (skip_char c l) <= length l)%nat.
Proof. induction l as [|x l IH]; cbn; [lia|]. destruct (Ascii.eqb x c); cbn; lia. Qed.

Lemma skip_char_head c l : match skip_char c l with [] => True | x :: _ => Ascii.eqb x c = false end.
Proof. induction l as [|x l IH]; cbn; [exact I|]. destruct (Ascii.eqb x c) eqn:E; [exact IH|exact E]. Qed.

Definition nonempty (d : bytes) : bool := match d with [] => false | _ => true end.
Definition dirs (p : bytes) : list bytes := filter nonempty (elements p).

Lemma dirs_skip p : dirs (skip_char COLON p) = dirs p.
Proof.
  induction p as [|c p IH]; [reflexivity|]. cbn [skip_char].
  destruct (Ascii.eqb c COLON) eqn:E; [|reflexivity].
  rewrite IH. unfold dirs. cbn [elements]. change ":"%char with COLON. rewrite E. reflexivity.
Qed.

Definition fits_buf (file : bytes) (d : bytes) : Prop :=
  Z.of_nat (length d) + Z.of_nat (length file) + 2 <= PATH_MAX.

Lemma is_exec_loop_ok access file : forall fuel p,
  (length p < fuel)%nat ->
  match p with [] => True | x :: _ => Ascii.eqb x COLON = false end ->
  Forall (fits_buf file) (dirs p) ->
  is_exec_loop fuel access file p =
  Ok (existsb (fun d => access (d ++ SLASH :: file)) (dirs p)).
Proof.
  induction fuel as [|f IH]; intros p Hf Hh Hfit; [lia|].
  cbn [is_exec_loop]. destruct p as [|x p]; [reflexivity|].
  assert (Hd : dirs (x :: p) = fst (take_until COLON (x :: p)) ::
               dirs (skip_char COLON (snd (take_until COLON (x :: p))))).
  { rewrite dirs_skip. unfold dirs at 1. rewrite elements_take.
    destruct (take_until_nonempty COLON x p Hh) as (d & Hd & _).
    pose proof (take_until_rest COLON (x :: p)) as Hr.
    destruct (take_until COLON (x :: p)) as [a b]. cbn [fst snd] in *. subst a.
    destruct b as [|y b]; cbn [filter nonempty]; [reflexivity|].
    f_equal. subst y. unfold dirs. cbn [elements]. change ":"%char with COLON.
    rewrite Ascii.eqb_refl. reflexivity. }
  rewrite Hd in *.
  destruct (take_until_nonempty COLON x p Hh) as (d & Hda & Hl).
  destruct (take_until COLON (x :: p)) as [a b]. cbn [fst snd] in *.
  inversion Hfit as [|? ? F1 F2]; subst.
  unfold fits_buf in F1. cbn [existsb].
  assert (HB : (Z.of_nat (length ((x :: d) ++ SLASH :: file)) + 1 >? PATH_MAX) = false).
  { rewrite app_length. cbn [length] in *. unfold PATH_MAX in *. rewrite Z.gtb_ltb. apply Z.ltb_ge. lia. }
  rewrite HB.
  destruct (access ((x :: d) ++ SLASH :: file)); [reflexivity|]. cbn [orb].
  apply IH.
  - pose proof (skip_char_len COLON b). cbn in Hf. lia.
  - apply skip_char_head.
  - exact F2.
Qed.

Lemma is_executable_ok access p file :
  has_char SLASH file = false ->
  Forall (fits_buf file) (dirs p) ->
  is_executable access (Some p) (Some file) =
  Ok (existsb (fun d => access (d ++ SLASH :: file)) (dirs p)).
Proof.
  intros Hs Hf. unfold is_executable. rewrite Hs.
  rewrite is_exec_loop_ok.
  - now rewrite dirs_skip.
  - lia.
  - apply skip_char_head.
  - now rewrite dirs_skip.
Qed.

Lemma existsb_map {A B} (f : A -> B) (p : B -> bool) l :
  existsb p (map f l) = existsb (fun x => p (f x)) l.
Proof. induction l; cbn; congruence. Qed.

Lemma filter_all {A} (p : A -> bool) l : forallb p l = true -> filter p l = l.
Proof.
  induction l as [|x l IH]; cbn; [reflexivity|]. intros H. apply andb_true_iff in H.
  destruct H as [H1 H2]. rewrite H1. f_equal. auto.
Qed.

Lemma is_executable_search access p file :
  file <> [] -> forallb nonempty (elements p) = true ->
  Forall (fits_buf file) (elements p) ->
  is_executable access (Some p) (Some file) =
  Ok (existsb access (candidates (Some p) file)).
Proof.
  intros Hne Hel Hfit. unfold candidates. change "/"%char with SLASH.
  destruct (existsb (Ascii.eqb SLASH) file) eqn:E.
  - unfold is_executable. rewrite has_char_spec, E. cbn. now rewrite orb_false_r.
  - assert (Hd : dirs p = elements p) by (apply filter_all; exact Hel).
    rewrite is_executable_ok; [|exact E|rewrite Hd; exact Hfit].
    rewrite Hd. f_equal. destruct file as [|c f]; [congruence|].
    rewrite existsb_map. clear Hfit Hd. induction (elements p) as [|d l IH]; [reflexivity|].
    cbn [forallb] in Hel. apply andb_true_iff in Hel. destruct Hel as [H1 H2].
    cbn [existsb]. rewrite IH by exact H2. f_equal. destruct d; [discriminate|reflexivity].
Qed.
