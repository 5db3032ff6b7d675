(** Property C38: the shootdown timeout. *)
From Verif Require Import ShootModel ShootSpec ShootProofs.

(** If the exit gives up, then at its last look some thread had not even begun its
    fini_thread, and more than ten seconds of the clock had passed since the number of
    begun callbacks last increased (or since the wait began).  [seen]: the passes made
    before the last. *)
Theorem C38_gives_up_only : forall self start passes n kills mine,
  shootdown_wait self start passes = (GaveUp, n, kills, mine) ->
  exists seen l now rest, passes = seen ++ (l, now) :: rest /\ length seen = (n - 1)%nat /\
    some_not_begun self l /\ ~ all_finished self l /\
    begun self l <= most_begun self seen /\
    tv_sec now > tv_sec (last_increase self start (rev seen)) + 10.
Proof.
  intros self start passes n kills mine H.
  destruct (loop_ended self start passes false [] GaveUp n kills mine H) as [[_ Hb] _].
  destruct Hb as (p & H1 & H2 & G1 & G2 & G3 & G4).
  destruct p as [l now]. exists (firstn (n - 1) passes), l, now, (skipn n passes).
  pose proof (nth_error_Some passes (n - 1)) as Hlen. rewrite H1 in Hlen.
  assert (L : (n - 1 < length passes)%nat) by (apply Hlen; discriminate).
  split; [|split; [rewrite firstn_length; lia|]].
  - rewrite <- (firstn_skipn (n - 1) passes) at 1. f_equal.
    destruct n as [|n]; [contradiction|]. simpl in *. rewrite Nat.sub_0_r in *.
    clear -H1. revert n H1. induction passes as [|x r IH]; intros [|n] H1; simpl in *; try discriminate.
    + now injection H1 as ->.
    + now apply IH.
  - rewrite app_nil_r in *. split; [exact G3|]. split; [exact G1|]. split; [|exact G4].
    assert (E : forall l, most_begun self (rev l) = most_begun self l).
    { assert (A : forall a b, most_begun self (a ++ b) = Z.max (most_begun self a) (most_begun self b)).
      { induction a as [|x a IH]; intros b; simpl; [pose proof (most_begun_nonneg self b); lia|].
        rewrite IH. lia. }
      induction l0 as [|x r IH]; simpl; [reflexivity|]. rewrite A. simpl.
      pose proof (most_begun_nonneg self r). lia. }
    now rewrite E in G2.
Qed.
Print Assumptions C38_gives_up_only.

(** Ten seconds of real clock, not only of its seconds field. *)
Theorem C38_ten_seconds : forall a b, valid_time a -> valid_time b ->
  tv_sec b > tv_sec a + 10 -> usec b - usec a > 10 * 1000000.
Proof. unfold valid_time, usec. intros a b Ha Hb H. lia. Qed.
Print Assumptions C38_ten_seconds.

(** It never gives up while every remaining thread is inside its callback, and it goes
    on waiting as long as some callback is unfinished, for ever if need be. *)
Theorem C38_waits_for_running_callbacks : forall self start passes,
  (forall l now, In (l, now) passes ->
     ~ all_finished self l /\ forall n, In n (others self l) -> n_fstart n = true) ->
  exists kills mine, shootdown_wait self start passes = (StillWaiting, length passes, kills, mine).
Proof.
  intros self start passes Hp.
  destruct (shootdown_wait self start passes) as [[[e n] kills] mine] eqn:E.
  destruct (loop_ended self start passes false [] e n kills mine E) as [[_ Hb] _].
  destruct e.
  - destruct Hb as ([l now] & H1 & _ & H3). exfalso. apply nth_error_In in H1.
    destruct (Hp l now H1) as [H4 _]. exact (H4 H3).
  - destruct Hb as ([l now] & H1 & _ & _ & _ & (x & Hx & Hf) & _). exfalso. apply nth_error_In in H1.
    destruct (Hp l now H1) as [_ H4]. simpl in Hx. rewrite (H4 x Hx) in Hf. discriminate.
  - subst n. now exists kills, mine.
Qed.
Print Assumptions C38_waits_for_running_callbacks.

(** It stops without giving up exactly at the first look where all have finished,
    unless the timeout struck before; and every thread not yet begun is signalled again
    in every pass. *)
Theorem C38_done_and_signals : forall self start passes e n kills mine,
  shootdown_wait self start passes = (e, n, kills, mine) ->
  kills = map (fun p => map n_self (filter (fun x => negb (n_fstart x)) (others self (fst p))))
              (firstn n passes) /\
  (e = AllDone -> exists p, nth_error passes (n - 1) = Some p /\ all_finished self (fst p)) /\
  (forall i p, nth_error passes i = Some p -> (S i < n)%nat -> ~ all_finished self (fst p)).
Proof.
  intros self start passes e n kills mine H.
  destruct (loop_ended self start passes false [] e n kills mine H) as [[Ha Hb] [Hk _]].
  split; [exact Hk|]. split.
  - intros ->. destruct Hb as (p & H1 & _ & H3). now exists p.
  - intros i p Hi Hlt. destruct (Ha i p Hi); [lia|now left|assumption].
Qed.
Print Assumptions C38_done_and_signals.

(** Two other threads: one finishes, the other never begins; the clock passes the
    limit eleven seconds after the last increase. *)
Example C38_example :
  let a b := [mktnode 1 true false false; mktnode 2 true b b; mktnode 3 true false false] in
  shootdown_wait 1 (mktime 100 0)
    [(a false, mktime 109 0); (a true, mktime 110 0); (a true, mktime 120 999999);
     (a true, mktime 121 0); (a true, mktime 122 0)] =
  (GaveUp, 4%nat, [[2; 3]; [3]; [3]; [3]], true).
Proof. reflexivity. Qed.
