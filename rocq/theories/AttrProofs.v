From Verif Require Import AttrModel AttrSpec.

Lemma adjust_given l reset w orig def n : orig <> 0 -> w orig = Some n ->
  exists old, adjust_stack_size l reset w orig def =
  if applicable l reset orig n
  then mkadj (upd w orig (Some (reset n))) orig true false n
  else mkadj w orig false false old.
Proof.
  intros Ho Hw. unfold adjust_stack_size, applicable, get_size, set_size.
  destruct (Z.eqb_spec orig 0) as [E|_]; [contradiction|]. rewrite Hw.
  destruct (a_get l orig); [|now exists 0].
  exists n. destruct (reset n =? n); [reflexivity|].
  destruct (a_set l (reset n)); [|reflexivity]. cbn. now rewrite Z.eqb_refl.
Qed.

Lemma adjust_null l reset w def : def <> 0 ->
  match a_init l with
  | None => adjust_stack_size l reset w 0 def = mkadj w 0 false false 0
  | Some d => exists old, adjust_stack_size l reset w 0 def =
      if applicable l reset def d
      then mkadj (upd (upd w def (Some d)) def (Some (reset d))) def false true old
      else mkadj (upd w def (Some d)) 0 false true old
  end.
Proof.
  intros Hd. unfold adjust_stack_size, applicable, get_size, set_size. cbn [Z.eqb].
  destruct (a_init l) as [d|]; [|reflexivity].
  rewrite upd_same. destruct (a_get l def); [|now exists 0].
  exists d. destruct (reset d =? d); [reflexivity|].
  destruct (a_set l (reset d)); [|reflexivity]. cbn.
  destruct (Z.eqb_spec def 0); [contradiction|reflexivity].
Qed.

Lemma create_given l reset w orig def n : orig <> 0 -> w orig = Some n -> a_set l n = true ->
  (forall a, fst (create_with_attr l reset w orig def) a = w a) /\
  snd (create_with_attr l reset w orig def) =
    [ACreate orig (Some (if applicable l reset orig n then reset n else n))].
Proof.
  intros Ho Hw Hs. destruct (adjust_given l reset w orig def n Ho Hw) as [old E].
  unfold create_with_attr. rewrite E.
  destruct (Z.eqb_spec orig 0) as [E0|N0]; [contradiction|].
  destruct (applicable l reset orig n); cbn [j_attrs j_attr j_restore j_destroy j_old fst snd].
  - unfold set_size. rewrite upd_same, Hs. cbn [fst snd].
    destruct (Z.eqb_spec orig 0); [contradiction|]. split; [|try rewrite upd_same; reflexivity].
    intros a. unfold upd. destruct (Z.eqb_spec a orig) as [->|]; congruence.
  - destruct (Z.eqb_spec orig 0); [contradiction|]. split; [reflexivity|]. now rewrite Hw.
Qed.

Lemma create_null l reset w def : def <> 0 -> w def = None ->
  (forall a, fst (create_with_attr l reset w 0 def) a = w a) /\
  snd (create_with_attr l reset w 0 def) =
    match a_init l with
    | None => [ACreate 0 None]
    | Some d => [if applicable l reset def d then ACreate def (Some (reset d)) else ACreate 0 None;
                 ADestroy def]
    end.
Proof.
  intros Hd Hw. pose proof (adjust_null l reset w def Hd) as A.
  unfold create_with_attr. destruct (a_init l) as [d|].
  - destruct A as [old E]. rewrite E.
    destruct (applicable l reset def d); cbn [j_attrs j_attr j_restore j_destroy j_old fst snd].
    + destruct (Z.eqb_spec def 0); [contradiction|]. split; [|try rewrite upd_same; reflexivity].
      intros a. unfold upd. destruct (Z.eqb_spec a def) as [->|]; congruence.
    + split; [|reflexivity]. intros a. unfold upd. destruct (Z.eqb_spec a def) as [->|]; congruence.
  - rewrite A. cbn. split; reflexivity.
Qed.

(** ** One thread at a time on a shared object *)
Lemma a_run_app reset a w ls s1 s2 :
  let '(w1, ls1, e1) := a_run reset a w ls s1 in
  let '(w2, ls2, e2) := a_run reset a w1 ls1 s2 in
  a_run reset a w ls (s1 ++ s2) = (w2, ls2, e1 ++ e2).
Proof.
  revert w ls. induction s1 as [|t r IH]; intros w ls; simpl.
  - now destruct (a_run reset a w ls s2) as [[w2 ls2] e2].
  - destruct (a_step reset a w (ls t)) as [[w0 l0] e0].
    specialize (IH w0 (upd ls t l0)).
    destruct (a_run reset a w0 (upd ls t l0) r) as [[w1 ls1] e1].
    destruct (a_run reset a w1 ls1 s2) as [[w2 ls2] e2]. rewrite IH. now rewrite app_assoc.
Qed.

Lemma a_alone reset a w ls t n : w a = Some n -> ls t = AGet ->
  let '(w', ls', e) := a_run reset a w ls [t; t; t; t] in
  ls' t = AEnd None /\ w' a = Some n /\ e = [ACreate a (Some (reset n))].
Proof.
  intros Hw Hl. simpl. rewrite Hl. cbn [a_step]. rewrite Hw.
  destruct (Z.eqb_spec (reset n) n) as [E|E]; rewrite upd_same; cbn [a_step]; rewrite upd_same;
    cbn [a_step]; rewrite upd_same; cbn [a_step]; rewrite !upd_same; cbn; repeat split; try assumption.
  now rewrite Hw, E.
Qed.
