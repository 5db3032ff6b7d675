(** Shared vocabulary: signal numbers, signal sets, function updates.

    A C [int] signal number is a [Z].  A [sigset_t] is a binary number: signal
    n is bit n-1 (the Linux layout of the first 64 bits).  [sa_flags] is a
    binary number with the Linux values.  All constants are those of Linux /
    x86-64 (the platform of the pinned commit's default build). *)
From Coq Require Export List FinFun Arith NArith ZArith Lia Bool.
From Coq Require Export ZifyBool ZifyNat ZifyN.
Export ListNotations.
Open Scope Z_scope.

(** common.h 70-74: MONITOR_NSIG is NSIG, 65 on Linux. *)
Definition NSIG : Z := 65.

(** <signal.h>, Linux x86-64. *)
Definition SIGINT : Z := 2.
Definition SIGQUIT : Z := 3.
Definition SIGILL : Z := 4.
Definition SIGABRT : Z := 6.
Definition SIGBUS : Z := 7.
Definition SIGKILL : Z := 9.
Definition SIGUSR1 : Z := 10.
Definition SIGSEGV : Z := 11.
Definition SIGUSR2 : Z := 12.
Definition SIGPIPE : Z := 13.
Definition SIGTERM : Z := 15.
Definition SIGCHLD : Z := 17.
Definition SIGCONT : Z := 18.
Definition SIGSTOP : Z := 19.
Definition SIGTSTP : Z := 20.
Definition SIGTTIN : Z := 21.
Definition SIGTTOU : Z := 22.
Definition SIGURG : Z := 23.
Definition SIGWINCH : Z := 28.
Definition SIGPWR : Z := 30.

(** <bits/sigaction.h>, Linux. *)
Definition SA_SIGINFO : N := 4%N.
Definition SA_ONSTACK : N := 134217728%N.    (* 0x08000000 = 2^27 *)
Definition SA_RESTART : N := 268435456%N.    (* 0x10000000 = 2^28 *)
Definition SA_RESETHAND : N := 2147483648%N. (* 0x80000000 = 2^31 *)

(** <bits/errno.h>. *)
Definition EINTR : Z := 4.
Definition EINVAL : Z := 22.

(** Signal sets. *)
Notation sigset := N (only parsing).
Definition sbit (sig : Z) : N := Z.to_N (sig - 1).
Definition mem (sig : Z) (s : sigset) : bool := N.testbit s (sbit sig).
Definition sadd (sig : Z) (s : sigset) : sigset := N.setbit s (sbit sig).
Definition sdel (sig : Z) (s : sigset) : sigset := N.clearbit s (sbit sig).

(** 1 <= sig < NSIG, the range test used all over signal.c. *)
Definition in_range (sig : Z) : bool := (0 <? sig) && (sig <? NSIG).

(** The loop [for (sig = 1; sig < MONITOR_NSIG; sig++)]. *)
Definition all_sigs : list Z := map Z.of_nat (seq 1 64).

(** Pointwise update of a total map. *)
Definition upd {A} (f : Z -> A) (k : Z) (v : A) : Z -> A :=
  fun x => if x =? k then v else f x.

Lemma upd_same A (f : Z -> A) k v : upd f k v k = v.
Proof. unfold upd. now rewrite Z.eqb_refl. Qed.

Lemma upd_other A (f : Z -> A) k v x : x <> k -> upd f k v x = f x.
Proof. unfold upd. intros H. destruct (Z.eqb_spec x k); congruence. Qed.

Lemma in_range_spec sig : in_range sig = true <-> 1 <= sig < NSIG.
Proof. unfold in_range, NSIG. lia. Qed.

Lemma all_sigs_in sig : In sig all_sigs <-> 1 <= sig < NSIG.
Proof.
  unfold all_sigs, NSIG. rewrite in_map_iff. split.
  - intros [n [Hn Hin]]. apply in_seq in Hin. lia.
  - intros H. exists (Z.to_nat sig). split; [lia|]. apply in_seq. lia.
Qed.

Lemma all_sigs_nodup : NoDup all_sigs.
Proof.
  unfold all_sigs. apply FinFun.Injective_map_NoDup; [|apply seq_NoDup].
  intros a b H. lia.
Qed.

Lemma sbit_inj a b : 1 <= a -> 1 <= b -> sbit a = sbit b -> a = b.
Proof. unfold sbit. lia. Qed.

Lemma mem_sadd a b s : 1 <= a -> 1 <= b ->
  mem a (sadd b s) = (a =? b) || mem a s.
Proof.
  intros Ha Hb. unfold mem, sadd. rewrite N.setbit_eqb.
  destruct (Z.eqb_spec a b) as [->|Hne].
  - now rewrite N.eqb_refl.
  - replace (sbit b =? sbit a)%N with false; [reflexivity|].
    symmetry. apply N.eqb_neq. intros E. apply Hne. symmetry.
    now apply sbit_inj.
Qed.

Lemma mem_sdel a b s : 1 <= a -> 1 <= b ->
  mem a (sdel b s) = negb (a =? b) && mem a s.
Proof.
  intros Ha Hb. unfold mem, sdel. rewrite N.clearbit_eqb.
  destruct (Z.eqb_spec a b) as [->|Hne].
  - rewrite N.eqb_refl. simpl. now rewrite andb_false_r.
  - replace (sbit b =? sbit a)%N with false.
    + simpl. now rewrite andb_true_r.
    + symmetry. apply N.eqb_neq. intros E. apply Hne. symmetry.
      now apply sbit_inj.
Qed.

Lemma mem_lor a x y : mem a (N.lor x y) = mem a x || mem a y.
Proof. unfold mem. apply N.lor_spec. Qed.
Lemma mem_ldiff a x y : mem a (N.ldiff x y) = mem a x && negb (mem a y).
Proof. unfold mem. apply N.ldiff_spec. Qed.
Lemma mem_0 a : mem a 0%N = false.
Proof. unfold mem. apply N.bits_0. Qed.
