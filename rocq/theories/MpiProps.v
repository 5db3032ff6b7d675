(** Properties C17, C18, C19: the MPI overrides. *)
From Verif Require Import MpiModel MpiSpec MpiProofs.

(** C17, for the calls the application makes itself: whatever ran before, whatever
    the library and the callbacks do inside, through whichever entry point. *)
Theorem C17_application_call : forall ma before e args ret pre real post after,
  exists t0 tpre treal tpost t1,
    snd (run ma mpi0 (before ++ Init e args ret pre real post :: after)) =
    t0 ++
    EInitEnter e :: EPreInit :: tpre ++
    ERealInit e args :: treal ++ ERealInitDone ::
    EInitMpi (match e_lang e with LC => args | _ => ma end) :: tpost ++
    EInitLeave (match e_lang e with LC => Some ret | _ => None end) :: t1 /\
    existsb init_cb (tpre ++ treal ++ tpost) = false /\
    t0 = snd (run ma mpi0 before).
Proof.
  intros ma before e args ret pre real post after. rewrite run_app.
  pose proof (run_keeps ma before mpi0) as [K0 F0].
  destruct (run ma mpi0 before) as [s0 t0] eqn:E0. cbn [fst snd run] in *.
  change (init_count mpi0) with 0 in K0. change (fini_count mpi0) with 0 in F0.
  rewrite run1_init. cbn zeta. rewrite K0. change (0 + 1 =? 1) with true. cbn iota.
  assert (X1 : init_count (inc_init s0 1) = 1) by (unfold inc_init; cbn; lia).
  assert (X2 : fini_count (inc_init s0 1) = 0) by (unfold inc_init; cbn; lia).
  pose proof (run_good ma pre (inc_init s0 1) ltac:(lia) ltac:(lia)) as G1.
  pose proof (run_keeps ma pre (inc_init s0 1)) as [K1 K1'].
  destruct (run ma (inc_init s0 1) pre) as [s2 t2]. cbn [fst snd] in *.
  pose proof (run_good ma real s2 ltac:(lia) ltac:(lia)) as G2.
  pose proof (run_keeps ma real s2) as [K2 K2'].
  destruct (run ma s2 real) as [s3 t3]. cbn [fst snd] in *.
  pose proof (run_good ma post s3 ltac:(lia) ltac:(lia)) as G3.
  destruct (run ma s3 post) as [s4 t4]. cbn [fst snd] in *.
  destruct (run ma (inc_init s4 (-1)) after) as [s5 t5].
  exists t0, t2, t3, t4, t5. split; [|split; [|reflexivity]].
  - cbn [snd app]. f_equal. f_equal. f_equal. rewrite <- !app_assoc. cbn [app].
    rewrite <- !app_assoc. cbn [app]. rewrite <- app_assoc. reflexivity.
  - rewrite !existsb_app. rewrite (g_icb _ _ _ G1), (g_icb _ _ _ G2), (g_icb _ _ _ G3) by lia. reflexivity.
Qed.
Print Assumptions C17_application_call.

(** C17, for the whole history: pre_init and init_mpi occur exactly for the
    overrides that are not inside another init. *)
Theorem C17_whole_trace : forall ma prog, init_view 0 (snd (run ma mpi0 prog)) = true.
Proof. intros ma prog. exact (g_iv _ _ _ (run_good ma prog mpi0 ltac:(cbn; lia) ltac:(cbn; lia))). Qed.
Print Assumptions C17_whole_trace.

Theorem C18_application_call : forall ma before e ret pre real post after,
  exists t0 tpre treal tpost t1,
    snd (run ma mpi0 (before ++ Fini e ret pre real post :: after)) =
    t0 ++
    EFiniEnter e :: EFiniMpi :: tpre ++
    ERealFini e :: treal ++ ERealFiniDone ::
    EPostFini :: tpost ++
    EFiniLeave (match e_lang e with LC => Some ret | _ => None end) :: t1 /\
    existsb fini_cb (tpre ++ treal ++ tpost) = false /\
    t0 = snd (run ma mpi0 before).
Proof.
  intros ma before e ret pre real post after. rewrite run_app.
  pose proof (run_keeps ma before mpi0) as [K0 F0].
  destruct (run ma mpi0 before) as [s0 t0] eqn:E0. cbn [fst snd run] in *.
  change (init_count mpi0) with 0 in K0. change (fini_count mpi0) with 0 in F0.
  rewrite run1_fini. cbn zeta. rewrite F0. change (0 + 1 =? 1) with true. cbn iota.
  assert (X1 : init_count (inc_fini s0 1) = 0) by (unfold inc_fini; cbn; lia).
  assert (X2 : fini_count (inc_fini s0 1) = 1) by (unfold inc_fini; cbn; lia).
  pose proof (run_good ma pre (inc_fini s0 1) ltac:(lia) ltac:(lia)) as G1.
  pose proof (run_keeps ma pre (inc_fini s0 1)) as [K1 K1'].
  destruct (run ma (inc_fini s0 1) pre) as [s2 t2]. cbn [fst snd] in *.
  pose proof (run_good ma real s2 ltac:(lia) ltac:(lia)) as G2.
  pose proof (run_keeps ma real s2) as [K2 K2'].
  destruct (run ma s2 real) as [s3 t3]. cbn [fst snd] in *.
  pose proof (run_good ma post s3 ltac:(lia) ltac:(lia)) as G3.
  destruct (run ma s3 post) as [s4 t4]. cbn [fst snd] in *.
  destruct (run ma (inc_fini s4 (-1)) after) as [s5 t5].
  exists t0, t2, t3, t4, t5. split; [|split; [|reflexivity]].
  - cbn [snd app]. f_equal. f_equal. f_equal. rewrite <- !app_assoc. cbn [app].
    rewrite <- !app_assoc. cbn [app]. rewrite <- app_assoc. reflexivity.
  - rewrite !existsb_app. rewrite (g_fcb _ _ _ G1), (g_fcb _ _ _ G2), (g_fcb _ _ _ G3) by lia. reflexivity.
Qed.
Print Assumptions C18_application_call.

Theorem C18_whole_trace : forall ma prog, fini_view 0 (snd (run ma mpi0 prog)) = true.
Proof. intros ma prog. exact (g_fv _ _ _ (run_good ma prog mpi0 ltac:(cbn; lia) ltac:(cbn; lia))). Qed.
Print Assumptions C18_whole_trace.

(** C19: every query, at any point of any program, answers with the first
    publication before it, or -1 if there was none. *)
Theorem C19_queries : forall ma prog before x after,
  (snd (run ma mpi0 prog) = before ++ ESize x :: after -> x = fst (published before)) /\
  (snd (run ma mpi0 prog) = before ++ ERank x :: after -> x = snd (published before)).
Proof.
  intros ma prog before x after. destruct (run_answers ma prog) as [_ [A B]].
  split; intros H; [exact (A _ _ _ H)|exact (B _ _ _ H)].
Qed.
Print Assumptions C19_queries.

(** ... so once something is published, no later event changes the answer. *)
Theorem C19_never_changes : forall before more p,
  first_pub [] before = Some p -> published (before ++ more) = p.
Proof. exact published_stable. Qed.
Print Assumptions C19_never_changes.

(** A Fortran init that calls MPI_Init which calls PMPI_Init_thread and asks for a
    rank inside; then a rank call on the world; a second rank call; finalize. *)
Definition f1 := mkentry false false LF1.
Definition ci := mkentry false false LC.
Definition pt := mkentry true true LC.
Definition c17_prog : list act :=
  [QuerySize;
   Init f1 0 0 [QueryRank]
     [Init ci 7 0 [] [Init pt 7 0 [] [Rank ci 4 2 0 [] []] []] []] [QueryRank];
   Rank ci 16 3 0 [] [Rank pt 16 3 0 [] []]; QuerySize; Rank ci 2 1 0 [] [];
   SetSizeRank 9 9; QueryRank;
   Fini f1 0 [] [Fini ci 0 [] [] []] []].
Example C17_example :
  filter (fun e => init_cb e || fini_cb e || negb (no_query e)) (snd (run 5 mpi0 c17_prog)) =
  [ESize (-1); EPreInit; ERank (-1); EInitMpi 5; ERank (-1); ESize 16; ERank 3;
   EFiniMpi; EPostFini].
Proof. vm_compute. reflexivity. Qed.
Example C17_view_rejects :
  init_view 0 [EInitEnter ci; ERealInit ci 1; ERealInitDone; EInitMpi 1; EInitLeave None] = false /\
  init_view 0 [EInitEnter ci; EPreInit; EInitEnter ci; EPreInit] = false.
Proof. vm_compute. split; reflexivity. Qed.
