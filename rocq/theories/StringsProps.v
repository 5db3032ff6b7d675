(** Properties C20 and C21: printing signal sets. *)
From Coq Require Import Ascii.
From Verif Require Import Base StringsModel StringsSpec StringsProofs.

(** C20.  The full claim ranges over every size.  For size 0 the first store,
    buf[0] = 0, is already outside the buffer; for sizes >= 1, every store stays
    inside and the text is terminated, for every set (also NULL). *)
Theorem C20_sigset_safe_partial : forall buf size set,
  Z.of_nat (length buf) = size -> 1 <= size ->
  exists buf' ret, sigset_string (Some buf) size set = Some (buf', ret) /\
    length buf' = length buf /\ exists text, cstr buf' = Some text.
Proof.
  intros buf size set Hl Hs. destruct set as [set|].
  - destruct (sigset_string_spec buf size set Hl Hs) as (b & r & H1 & H2 & H3 & _).
    exists b, r. split; [exact H1|]. split; [lia|exact H3].
  - unfold sigset_string. rewrite put0_start by lia. unfold SIG_ITEM_SIZE. destruct (size <? 15) eqn:E.
    + eexists _, _. split; [reflexivity|]. split; [cbn [length]; rewrite skipn_length; lia|].
      cbn [cstr]. rewrite Ascii.eqb_refl. eauto.
    + destruct (null_text_ok size (nul :: skipn 1 buf)) as (b1 & H1 & H2 & H3);
        [cbn [length]; rewrite skipn_length; lia|lia|].
      rewrite H1. eexists _, _. split; [reflexivity|]. split; [lia|eauto].
Qed.
Print Assumptions C20_sigset_safe_partial.

(** For lists, the item budget of 15 bytes is enough when the numbers have at most
    five digits; real signal numbers have two. *)
Theorem C20_list_safe_partial : forall buf size l,
  Z.of_nat (length buf) = size -> 1 <= size ->
  (forall l', l = Some l' -> Forall (fun x => x < 100000) (signals l')) ->
  exists buf' ret, list_string (Some buf) size l = Some (buf', ret) /\
    length buf' = length buf /\ exists text, cstr buf' = Some text.
Proof.
  intros buf size l Hl Hs Hb. destruct l as [l|].
  - destruct (list_string_spec buf size l Hl Hs (Hb l eq_refl)) as (b & r & H1 & H2 & H3 & _).
    exists b, r. split; [exact H1|]. split; [lia|exact H3].
  - unfold list_string. rewrite put0_start by lia. unfold SIG_ITEM_SIZE. destruct (size <? 15) eqn:E.
    + eexists _, _. split; [reflexivity|]. split; [cbn [length]; rewrite skipn_length; lia|].
      cbn [cstr]. rewrite Ascii.eqb_refl. eauto.
    + destruct (null_text_ok size (nul :: skipn 1 buf)) as (b1 & H1 & H2 & H3);
        [cbn [length]; rewrite skipn_length; lia|lia|].
      rewrite H1. eexists _, _. split; [reflexivity|]. split; [lia|eauto].
Qed.
Print Assumptions C20_list_safe_partial.

(** Both limits are real. *)
Theorem C20_size_zero_refuted : exists buf set,
  sigset_string (Some buf) (Z.of_nat (length buf)) (Some set) = None.
Proof. exists [], 0%N. reflexivity. Qed.
Print Assumptions C20_size_zero_refuted.

Theorem C20_big_list_refuted : exists buf l,
  list_string (Some buf) (Z.of_nat (length buf)) (Some l) = None /\ (1 <= length buf)%nat /\
  Forall (fun x => x < 2 ^ 31) l.
Proof.
  exists (repeat nul 15), [1000000; 1000001; -1]. split; [vm_compute; reflexivity|].
  split; [cbn; lia|]. repeat constructor.
Qed.
Print Assumptions C20_big_list_refuted.

(** C21: the result is -1 exactly when some run of consecutive signals would start
    with fewer than 15 bytes left; otherwise it is the number of signals and the
    text reads back as exactly those signals in order. *)
Theorem C21_sigset_exact : forall buf size set,
  Z.of_nat (length buf) = size -> 1 <= size ->
  exists buf' ret, sigset_string (Some buf) size (Some set) = Some (buf', ret) /\
    (ret = -1 <-> size < 15 \/ fits size 0 (runs (members set)) = false) /\
    (ret <> -1 -> ret = Z.of_nat (length (members set)) /\
       exists text, cstr buf' = Some text /\ read text = Some (members set)).
Proof.
  intros buf size set Hl Hs.
  destruct (sigset_string_spec buf size set Hl Hs) as (b & r & H1 & H2 & H3 & H4).
  exists b, r. split; [exact H1|].
  destruct (fits size 0 (runs (members set))) eqn:F;
    destruct (15 <=? size) eqn:E; cbn [andb] in H4.
  - split; [split; [lia|intros [H|H]; [lia|discriminate]]|intros _; exact H4].
  - split; [split; [left; lia|auto]|congruence].
  - split; [split; [right; reflexivity|auto]|congruence].
  - split; [split; [left; lia|auto]|congruence].
Qed.
Print Assumptions C21_sigset_exact.

(** NULL pointers: no buffer is an error; no set or list gives the text " (null)" and 0. *)
Theorem C21_null : forall buf size,
  Z.of_nat (length buf) = size -> 15 <= size ->
  let text := [" "; "("; "n"; "u"; "l"; "l"; ")"]%char in
  (forall set, sigset_string None size set = Some ([], -1)) /\
  (forall l, list_string None size l = Some ([], -1)) /\
  (exists b, sigset_string (Some buf) size None = Some (b, 0) /\ cstr b = Some text) /\
  (exists b, list_string (Some buf) size None = Some (b, 0) /\ cstr b = Some text).
Proof.
  intros buf size H1 H2 text. split; [reflexivity|]. split; [reflexivity|].
  unfold sigset_string, list_string. replace (size <? SIG_ITEM_SIZE) with false by (unfold SIG_ITEM_SIZE; lia).
  rewrite put0_start by lia.
  destruct (null_text_ok size (nul :: skipn 1 buf)) as (b & -> & _ & E);
    [cbn [length]; rewrite skipn_length; lia|lia|].
  split; exists b; (split; [reflexivity|exact E]).
Qed.
Print Assumptions C21_null.

Theorem C21_list_exact : forall buf size l,
  Z.of_nat (length buf) = size -> 1 <= size -> Forall (fun x => x < 100000) (signals l) ->
  exists buf' ret, list_string (Some buf) size (Some l) = Some (buf', ret) /\
    (ret = -1 <-> size < 15 \/ fits size 0 (runs (signals l)) = false) /\
    (ret <> -1 -> ret = Z.of_nat (length (signals l)) /\
       exists text, cstr buf' = Some text /\ read text = Some (signals l)).
Proof.
  intros buf size l Hl Hs Hb.
  destruct (list_string_spec buf size l Hl Hs Hb) as (b & r & H1 & H2 & H3 & H4).
  exists b, r. split; [exact H1|].
  destruct (fits size 0 (runs (signals l))) eqn:F;
    destruct (15 <=? size) eqn:E; cbn [andb] in H4.
  - split; [split; [lia|intros [H|H]; [lia|discriminate]]|intros _; exact H4].
  - split; [split; [left; lia|auto]|congruence].
  - split; [split; [right; reflexivity|auto]|congruence].
  - split; [split; [left; lia|auto]|congruence].
Qed.
Print Assumptions C21_list_exact.

(** The specification means what it should: membership and runs. *)
Theorem C21_members : forall set s, In s (members set) <-> 1 <= s <= 64 /\ mem s set = true.
Proof.
  intros set s. unfold members. rewrite filter_In. unfold upto. rewrite in_map_iff.
  split.
  - intros [(k & <- & H) Hm]. apply in_seq in H. split; [lia|exact Hm].
  - intros [H Hm]. split; [|exact Hm]. exists (Z.to_nat (s - 1)). split; [lia|]. apply in_seq. lia.
Qed.
Print Assumptions C21_members.

Theorem C21_runs_cover : forall l, expand (runs l) = l.
Proof. exact expand_runs. Qed.
Print Assumptions C21_runs_cover.

(** Concrete: {2, 10, 11, 12, 64} in 30 and in 20 bytes. *)
Example C21_example :
  let set := sadd 64 (sadd 12 (sadd 11 (sadd 10 (sadd 2 0)))) in
  match sigset_string (Some (repeat (chr 120) 30)) 30 (Some set) with
  | Some (b, r) => r = 5 /\
      match cstr b with Some t => read t = Some [2; 10; 11; 12; 64] /\ length t = 13%nat | None => False end
  | None => False
  end /\
  match sigset_string (Some (repeat (chr 120) 20)) 20 (Some set) with
  | Some (b, r) => r = -1 /\ cstr b = Some (map chr [32; 50; 44] ++ and_more)
  | None => False
  end.
Proof. vm_compute. repeat split; reflexivity. Qed.
