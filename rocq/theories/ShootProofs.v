From Verif Require Import ShootModel ShootSpec.

Definition started_of self l := filter n_fstart (others self l).
Definition unstarted_of self l := filter (fun n => negb (n_fstart n)) (others self l).
Definition finished_of self l := filter n_fdone (others self l).
Definition unfinished_of self l := filter (fun n => negb (n_fdone n)) (others self l).

Lemma others_app self a b : others self (a ++ b) = others self a ++ others self b.
Proof. apply filter_app. Qed.

Lemma scan_spec self mine l : scan self mine l =
  mkcounts (Z.of_nat (length (started_of self l))) (Z.of_nat (length (unstarted_of self l)))
           (Z.of_nat (length (finished_of self l))) (Z.of_nat (length (unfinished_of self l)))
           (map n_self (unstarted_of self l)) (mine || existsb (fun n => n_self n =? self) l).
Proof.
  unfold scan, started_of, unstarted_of, finished_of, unfinished_of.
  induction l as [|n l IH] using rev_ind; [simpl; now rewrite orb_false_r|].
  rewrite fold_left_app, IH, others_app. cbn [fold_left]. unfold scan_node at 1.
  rewrite existsb_app. cbn [existsb]. rewrite orb_false_r.
  unfold others at 6 8 10 12 14. unfold others. cbn [filter].
  destruct (n_self n =? self).
  - cbn [negb andb]. rewrite !app_nil_r. cbn [c_started c_unstarted c_finished c_unfinished c_killed].
    rewrite !orb_true_r. reflexivity.
  - cbn [negb andb c_started c_unstarted c_finished c_unfinished c_killed c_mine].
    rewrite orb_false_r. destruct (n_appl n).
    + rewrite !filter_app. cbn [filter].
      destruct (n_fstart n), (n_fdone n); cbn [negb]; rewrite ?app_nil_r, ?map_app, ?app_length;
        cbn [length map]; f_equal; lia.
    + rewrite !app_nil_r. reflexivity.
Qed.

Lemma begun_scan self mine l : c_started (scan self mine l) = begun self l.
Proof. now rewrite scan_spec. Qed.

Lemma unfinished_zero self mine l : c_unfinished (scan self mine l) = 0 <-> all_finished self l.
Proof.
  rewrite scan_spec. cbn [c_unfinished]. unfold unfinished_of, all_finished.
  split.
  - intros H n Hn. destruct (n_fdone n) eqn:E; [reflexivity|]. exfalso.
    assert (Hin : In n (filter (fun n => negb (n_fdone n)) (others self l)))
      by (apply filter_In; now rewrite E).
    destruct (filter (fun n => negb (n_fdone n)) (others self l)); [contradiction|].
    simpl in H. lia.
  - intros H. destruct (filter (fun n => negb (n_fdone n)) (others self l)) as [|n r] eqn:E; [reflexivity|].
    exfalso. assert (Hin : In n (filter (fun n => negb (n_fdone n)) (others self l))) by (rewrite E; now left).
    apply filter_In in Hin. destruct Hin as [Hi Hd]. rewrite (H n Hi) in Hd. discriminate.
Qed.

Lemma unstarted_pos self mine l : c_unstarted (scan self mine l) > 0 <-> some_not_begun self l.
Proof.
  rewrite scan_spec. cbn [c_unstarted]. unfold unstarted_of, some_not_begun.
  split.
  - intros H. destruct (filter (fun n => negb (n_fstart n)) (others self l)) as [|n r] eqn:E; [simpl in H; lia|].
    exists n. assert (Hin : In n (filter (fun n => negb (n_fstart n)) (others self l))) by (rewrite E; now left).
    apply filter_In in Hin. destruct Hin as [Hi Hd]. split; [exact Hi|]. now destruct (n_fstart n).
  - intros (n & Hi & Hf).
    assert (Hin : In n (filter (fun n => negb (n_fstart n)) (others self l)))
      by (apply filter_In; now rewrite Hf).
    destruct (filter (fun n => negb (n_fstart n)) (others self l)); [contradiction|]. simpl. lia.
Qed.

(** The give-up condition at a pass, given the earlier passes (latest first). *)
Definition gives_up self start earlier (p : list tnode * timeval) : Prop :=
  ~ all_finished self (fst p) /\ begun self (fst p) <= most_begun self earlier /\
  some_not_begun self (fst p) /\
  tv_sec (snd p) > tv_sec (last_increase self start earlier) + 10.

Lemma most_begun_nonneg self ps : 0 <= most_begun self ps.
Proof. induction ps as [|p r IH]; simpl; lia. Qed.

Definition ended self start earlier (e : shoot_end) (n : nat) (passes : list (list tnode * timeval)) : Prop :=
  (* every pass before the last neither completes nor gives up *)
  (forall i p, nth_error passes i = Some p ->
     ((i < n)%nat -> (S i < n)%nat \/ e = StillWaiting ->
      ~ all_finished self (fst p) /\ ~ gives_up self start (rev (firstn i passes) ++ earlier) p)) /\
  match e with
  | AllDone => exists p, nth_error passes (n - 1) = Some p /\ n <> O /\ all_finished self (fst p)
  | GaveUp => exists p, nth_error passes (n - 1) = Some p /\ n <> O /\
       gives_up self start (rev (firstn (n - 1) passes) ++ earlier) p
  | StillWaiting => n = length passes
  end.

Lemma loop_ended self start : forall passes mine earlier e n k m,
  shoot_loop self mine (last_increase self start earlier) (most_begun self earlier) passes = (e, n, k, m) ->
  ended self start earlier e n passes /\
  k = map (fun p => map n_self (unstarted_of self (fst p))) (firstn n passes) /\
  m = (mine || existsb (fun p => existsb (fun x => n_self x =? self) (fst p)) (firstn n passes)).
Proof.
  induction passes as [|[l now] r IH]; intros mine earlier e n k m H; simpl in H.
  - injection H as <- <- <- <-. split; [|split; [reflexivity|simpl; now rewrite orb_false_r]].
    split; [|reflexivity]. intros i p Hi. now destruct i.
  - rewrite begun_scan in H.
    destruct (Z.eqb_spec (c_unfinished (scan self mine l)) 0) as [Ez|Ez].
    + injection H as <- <- <- <-. rewrite scan_spec. cbn [c_killed c_mine].
      split; [|split; [reflexivity|simpl; now rewrite orb_false_r]].
      split; [intros i p Hi Hlt [Hs|Hs]; [lia|discriminate]|].
      exists (l, now). split; [reflexivity|]. split; [lia|]. now apply unfinished_zero in Ez.
    + assert (Hnf : ~ all_finished self l) by (intros C; now apply (unfinished_zero self mine) in C).
      destruct (begun self l >? most_begun self earlier) eqn:Eg.
      * (* progress *)
        destruct (shoot_loop self (c_mine (scan self mine l)) now (begun self l) r)
          as [[[e' n'] k'] m'] eqn:E.
        injection H as <- <- <- <-.
        assert (HE : shoot_loop self (c_mine (scan self mine l))
                  (last_increase self start ((l, now) :: earlier))
                  (most_begun self ((l, now) :: earlier)) r = (e', n', k', m')).
        { simpl. rewrite Eg. simpl. replace (Z.max (begun self l) (most_begun self earlier)) with (begun self l) by lia.
          exact E. }
        destruct (IH _ _ _ _ _ _ HE) as ((Ha & Hb) & Hk & Hm).
        rewrite scan_spec in Hm |- *. cbn [c_mine c_killed] in *.
        split; [|split; [simpl; now rewrite Hk|simpl; now rewrite Hm, orb_assoc]].
        split.
        -- intros [|i] p Hi Hlt Hs.
           ++ injection Hi as <-. split; [exact Hnf|]. intros (_ & Hle & _). simpl in Hle. lia.
           ++ simpl in Hi. assert (Hs' : (S i < n')%nat \/ e' = StillWaiting) by (destruct Hs; [left; lia|now right]).
              destruct (Ha i p Hi ltac:(lia) Hs') as [A B]. split; [exact A|].
              simpl. rewrite <- app_assoc. exact B.
        -- destruct e'.
           ++ destruct Hb as (p & H1 & H2 & H3). exists p. destruct n'; [now contradiction H2|].
              simpl in *. rewrite Nat.sub_0_r in H1. split; [exact H1|]. split; [lia|exact H3].
           ++ destruct Hb as (p & H1 & H2 & H3). exists p. destruct n'; [now contradiction H2|].
              simpl in *. rewrite Nat.sub_0_r in H1, H3. split; [exact H1|]. split; [lia|].
              rewrite <- app_assoc. exact H3.
           ++ simpl. now rewrite Hb.
      * destruct ((tv_sec now >? tv_sec (last_increase self start earlier) + SHOOTDOWN_TIMEOUT)
                  && (c_unstarted (scan self mine l) >? 0)) eqn:Et.
        -- injection H as <- <- <- <-.
           assert (Hgu : gives_up self start earlier (l, now)).
           { split; [exact Hnf|]. split; [simpl; lia|].
             split; [apply (unstarted_pos self mine); cbn [fst]; lia|]. unfold SHOOTDOWN_TIMEOUT in Et. simpl. lia. }
           rewrite scan_spec. cbn [c_killed c_mine].
           split; [|split; [reflexivity|simpl; now rewrite orb_false_r]].
           split; [intros i p Hi Hlt [Hs|Hs]; [lia|discriminate]|].
           exists (l, now). split; [reflexivity|]. split; [lia|]. exact Hgu.
        -- destruct (shoot_loop self (c_mine (scan self mine l))
                  (last_increase self start earlier) (most_begun self earlier) r)
             as [[[e' n'] k'] m'] eqn:E.
           injection H as <- <- <- <-.
           assert (HE : shoot_loop self (c_mine (scan self mine l))
                  (last_increase self start ((l, now) :: earlier))
                  (most_begun self ((l, now) :: earlier)) r = (e', n', k', m')).
           { simpl. rewrite Eg. simpl.
             replace (Z.max (begun self l) (most_begun self earlier)) with (most_begun self earlier) by lia.
             exact E. }
           assert (Hng : ~ gives_up self start earlier (l, now)).
           { intros (_ & _ & Hs & Ht). apply (unstarted_pos self mine) in Hs. simpl in Hs, Ht.
             unfold SHOOTDOWN_TIMEOUT in Et. lia. }
           destruct (IH _ _ _ _ _ _ HE) as ((Ha & Hb) & Hk & Hm).
           rewrite scan_spec in Hm |- *. cbn [c_mine c_killed] in *.
           split; [|split; [simpl; now rewrite Hk|simpl; now rewrite Hm, orb_assoc]].
           split.
           ++ intros [|i] p Hi Hlt Hs.
              ** injection Hi as <-. split; [exact Hnf|exact Hng].
              ** simpl in Hi. assert (Hs' : (S i < n')%nat \/ e' = StillWaiting) by (destruct Hs; [left; lia|now right]).
                 destruct (Ha i p Hi ltac:(lia) Hs') as [A B]. split; [exact A|].
                 simpl. rewrite <- app_assoc. exact B.
           ++ destruct e'.
              ** destruct Hb as (p & H1 & H2 & H3). exists p. destruct n'; [now contradiction H2|].
                 simpl in *. rewrite Nat.sub_0_r in H1. split; [exact H1|]. split; [lia|exact H3].
              ** destruct Hb as (p & H1 & H2 & H3). exists p. destruct n'; [now contradiction H2|].
                 simpl in *. rewrite Nat.sub_0_r in H1, H3. split; [exact H1|]. split; [lia|].
                 rewrite <- app_assoc. exact H3.
              ** simpl. now rewrite Hb.
Qed.
