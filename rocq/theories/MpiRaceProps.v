(** Property C66: publishing and asking for size and rank from many threads.
    [run start l] is the state after the schedule [l]; [hist] is what can be seen,
    newest first; see MpiRaceSpec.v. *)
From Verif Require Import MpiRaceModel MpiRaceSpec MpiRaceProofs.

(** An answer is -1 or was handed in by a call that began before. *)
Theorem C66_nothing_invented : forall l newer t v older,
  (hist (run start l) = newer ++ QSize t v :: older -> v = -1 \/ some_size older v) /\
  (hist (run start l) = newer ++ QRank t v :: older -> v = -1 \/ some_rank older v).
Proof.
  intros l newer t v older. split.
  - exact (f_qs _ (from_calls_run l) newer t v older).
  - exact (f_qr _ (from_calls_run l) newer t v older).
Qed.
Print Assumptions C66_nothing_invented.

(** If no two publishing calls overlap, the first one that counts wins: an answer after
    some call returned is its value; before that it is -1 or its value; and -1 if no
    such call has begun. *)
Theorem C66_first_wins_partial : forall l newer t v older,
  serial (hist (run start l)) ->
  (hist (run start l) = newer ++ QSize t v :: older ->
   (forall p, done_pub older = Some p -> v = fst p) /\
   match first_pub older with None => v = -1 | Some p => v = -1 \/ v = fst p end) /\
  (hist (run start l) = newer ++ QRank t v :: older ->
   (forall p, done_pub older = Some p -> v = snd p) /\
   match first_pub older with None => v = -1 | Some p => v = -1 \/ v = snd p end).
Proof.
  intros l newer t v older S. pose proof (alone_run l S) as A. split.
  - exact (a_qs _ A newer t v older).
  - exact (a_qr _ A newer t v older).
Qed.
Print Assumptions C66_first_wins_partial.

(** Even if calls overlapped: once a client's publication was made and no publishing
    call is in progress, all later answers are the same. *)
Theorem C66_settles_partial : forall l more,
  (forall t, publishing (hist (run start l)) t = false) ->
  (exists t a b, In (PCall t false a b) (hist (run start l))) ->
  exists a b new, since (run start l) (run start (l ++ more)) new /\
    forall t v, (In (QSize t v) new -> v = a) /\ (In (QRank t v) new -> v = b).
Proof. exact settles. Qed.
Print Assumptions C66_settles_partial.

(** MPI_Comm_rank inside MPI_Init does not count; after it, it does; the client's later
    publication does not; thread 3 asks in the middle of the second call. *)
Definition sched66 : list (Z * choice) :=
  [(1, ChInit); (1, ChRank 2 1); (1, ChSize); (1, ChSize); (3, ChSize); (1, ChInitEnd);
   (2, ChRank 16 5); (2, ChSize); (2, ChSize); (2, ChSize); (3, ChSize); (3, ChRankQ);
   (2, ChSize); (2, ChSize); (2, ChSize); (2, ChSize);
   (4, ChSet 9 9); (4, ChSize); (4, ChSize); (3, ChSize); (3, ChRankQ)].

Example C66_example :
  serial (hist (run start sched66)) /\
  filter (fun e => match e with QSize _ _ | QRank _ _ => true | _ => false end)
         (hist (run start sched66)) =
    [QRank 3 5; QSize 3 16; QRank 3 (-1); QSize 3 16; QSize 3 (-1)] /\
  done_pub (hist (run start sched66)) = Some (16, 5) /\
  (forall t, publishing (hist (run start sched66)) t = false) /\
  In (PCall 4 false 9 9) (hist (run start sched66)).
Proof.
  set (h := hist (run start sched66)). vm_compute in h. subst h.
  assert (P : forall n t, (n =? t) = true \/ (n =? t) = false) by (intros n t; destruct (n =? t); auto).
  split.
  - cbn [serial]. repeat split; intros t; cbn [publishing];
    repeat match goal with |- context [?n =? t] => destruct (P n t) as [-> | ->]; try reflexivity end.
  - split; [reflexivity|]. split; [reflexivity|]. split.
    + intros t. cbn [publishing].
      repeat match goal with |- context [?n =? t] => destruct (P n t) as [-> | ->]; try reflexivity end.
    + cbn. tauto.
Qed.

(** Two overlapping calls can leave the size of one with the rank of the other, for
    good. *)
Theorem C66_torn_pair_refuted : exists l,
  let h := hist (run start l) in
  (forall t, publishing h t = false) /\
  (forall t m a b, In (PCall t m a b) h -> (a, b) = (4, 1) \/ (a, b) = (8, 2)) /\
  exists t r, h = QRank t 1 :: QSize t 8 :: r.
Proof.
  exists [(1, ChSet 4 1); (2, ChSet 8 2); (1, ChSize); (2, ChSize);
          (1, ChSize); (2, ChSize); (2, ChSize); (1, ChSize);
          (1, ChSize); (2, ChSize); (1, ChSize); (2, ChSize); (3, ChSize); (3, ChRankQ)].
  cbv zeta. set (h := hist _). vm_compute in h. subst h. split; [|split].
  - intros t. cbn [publishing]. destruct (1 =? t), (2 =? t); reflexivity.
  - intros t m a b H. cbn in H. repeat (destruct H as [H|H]; [try discriminate H; injection H as <- <- <- <-; auto|]).
    destruct H.
  - exists 3. eexists. reflexivity.
Qed.
Print Assumptions C66_torn_pair_refuted.

(** An answer can change after a call has returned. *)
Theorem C66_answer_changes_refuted : exists l t r1 r2,
  hist (run start l) = QSize t 8 :: r1 ++ QSize t 4 :: PRet 1 :: r2.
Proof.
  exists [(1, ChSet 4 1); (2, ChSet 8 2); (1, ChSize); (2, ChSize); (1, ChSize); (1, ChSize);
          (1, ChSize); (1, ChSize); (3, ChSize); (2, ChSize); (3, ChSize)].
  exists 3, [], [PCall 2 false 8 2; PCall 1 false 4 1]. vm_compute. reflexivity.
Qed.
Print Assumptions C66_answer_changes_refuted.
