(** C83: however the process ends, fini_process is issued. *)
From Verif Require Import LifeErrSpec LifeErr LifeStop LifeStopProps LifeFork LifeRealFork.

Local Open Scope Z_scope.

(** In every state in which no exit was begun before and no thread holds the library's
    lock: a thread that calls exit, _exit or _Exit from application or client code, or
    gets a fatal signal anywhere, issues begin_process_exit and fini_process and then the
    process ends.  Partial: [not_stuck], and see the refutations. *)
Definition overridden (c : choice) (how : Z) : Prop :=
  (c = CCall AExit \/ c = CCall AUExit) /\ how = EXIT_NORMAL \/ c = CFatal /\ how = EXIT_SIGNAL.
Theorem C83_override_partial : forall dyn v t how c s s1,
  reach dyn any s -> overridden c how -> step dyn s t c = Some s1 ->
  (forall w, ~ In (EWin w) (s_tr s)) -> g_lock (s_g s) = None -> not_stuck s t ->
  exists n d, let s2 := alone dyn v t n s1 in
    In (EDead t) (s_tr s2) /\ In (ERet t (CbBeginExit how) v) (s_tr s2) /\ In (ERet t (CbFiniProcess how d) v) (s_tr s2).
Proof.
  intros dyn v t how c s s1 R OV HS NW LK NS.
  assert (R1 : reach dyn any s1) by (econstructor; [exact R|exact I|exact HS]).
  assert (X : leaving s1 t how /\ s_tr s1 = s_tr s /\ s_g s1 = s_g s).
  { pose proof HS as HS0. unfold step in HS0. destruct (g_dead (s_g s)) eqn:D; [discriminate HS0|]. destruct (th_live (s_th s t)) eqn:L; [|discriminate HS0].
    cbn [orb negb] in HS0. destruct OV as [[C ->]|[-> ->]].
    - assert (Y : exists f r, th_stack (s_th s t) = f :: r /\ is_unwind f = false /\
        option_map (apply_eff s t (s_th s t) r) (frame_step dyn t (s_next s) (s_g s) (th_tsd (s_th s t)) (th_nc (s_th s t)) f c) = Some s1).
      { destruct (th_stack (s_th s t)) as [|f r]; [destruct C as [-> | ->]; discriminate HS0|]. exists f, r.
        destruct (is_unwind f) eqn:U; [destruct C as [-> | ->]; discriminate HS0|].
        destruct C as [-> | ->]; repeat split; exact HS0. }
      destruct Y as (f & r & ST & U & Y).
      assert (O : open f = true) by (destruct C as [-> | ->]; destruct f; try discriminate Y; reflexivity).
      destruct C as [-> | ->]; destruct f; try discriminate O; cbn in Y; inversion Y; subst s1; cbn;
        (split; [|split; reflexivity]); (split; [exact D|]); cbn; rewrite ?upd_same; cbn; (split; [first [reflexivity|exact L]|]); eexists; auto.
    - inversion HS0; subst s1. cbn. split; [|split; reflexivity]. split; [exact D|]. cbn. rewrite upd_same. cbn. split; [exact L|]. eexists. auto. }
  destruct X as (LV & TR & G).
  destruct (C82_exit_ends_partial dyn v t how s1 R1 LV) as (n & _ & A & _ & B & d & C).
  - rewrite TR. exact NW.
  - rewrite G. exact LK.
  - unfold not_stuck, other in *. rewrite G. exact NS.
  - exists n, d. auto.
Qed.

(** In every state: a thread that ends the process by err, errx, error or quick_exit, or
    by an error of the library itself, ends it at once.  No begin_process_exit, no
    fini_thread and no fini_process is issued: the only callback is fini_library, in the
    dynamic case and not by quick_exit. *)
Theorem C83_end_inside : forall dyn v s t w s1,
  reach dyn any s -> end_inside s t w = Some s1 ->
  exists n ev, let s2 := alone dyn v t n s1 in
    g_dead (s_g s2) = true /\ s_tr s2 = ev ++ s_tr s /\ In (EDead t) ev /\
    forall u c, In (ECall u c) ev -> u = t /\ c = CbFiniLibrary /\ dyn = true /\ w = ByExit.
Proof.
  intros dyn v s t w s1 _ H. destruct (ends_inside dyn v s t w s1 H) as (n & D & TR). exists n.
  match type of TR with s_tr _ = EDead t :: ?m ++ _ => exists (EDead t :: m ++ [EPast t]); set (mid := m) in * end.
  cbv zeta. split; [exact D|]. split; [cbn; rewrite <- app_assoc; exact TR|]. split; [now left|].
  intros u c [X|X]; [discriminate X|]. apply in_app_or in X. destruct X as [X|[X|[]]]; [|discriminate X].
  unfold mid in X. destruct w; [|destruct X]. destruct dyn; [|destruct X]. cbn [andb] in X.
  destruct (negb (g_dtor (s_g s)) && negb (g_libdone (s_g s))); [|destruct X]. cbn in X.
  destruct X as [X|[X|[]]]; [discriminate X|]. inversion X; subst. auto.
Qed.

(** And fini_library is issued, once and last, in the dynamic case, if no thread has
    ended the process before. *)
Theorem C83_fini_library : forall v s t s1,
  reach true any s -> end_inside s t ByExit = Some s1 ->
  (forall w, ~ In (EPast w) (s_tr s)) -> (forall w x, ~ In (ERet w CbFiniLibrary x) (s_tr s)) ->
  exists n, let s2 := alone true v t n s1 in
    g_dead (s_g s2) = true /\ callbacks (s_tr s2) = callbacks (s_tr s) ++ [CbFiniLibrary].
Proof.
  intros v s t s1 R H NP NF. destruct (ends_inside true v s t ByExit s1 H) as (n & D & TR). exists n. cbv zeta. split; [exact D|].
  rewrite TR. destruct (g_dtor (s_g s)) eqn:E1; [destruct (dtor_seen _ _ R E1) as (w & X); destruct (NP w X)|].
  destruct (g_libdone (s_g s)) eqn:E2; [destruct (libdone_seen _ _ R E2) as (w & x & X); destruct (NF w x X)|].
  unfold callbacks. cbn. reflexivity.
Qed.

(** The application calls errx in main while thread 2 runs: the hypotheses hold, and the
    callbacks of the whole execution lack fini_thread and fini_process. *)
Definition two_threads : list (Z * choice) := to_main ++ create1 1 10 11 5 ++ enter 2 6.
Example C83_example : exists s s1,
  reach true any s /\ end_inside s 1 ByExit = Some s1 /\ In (EStart 2 10 11) (s_tr s) /\
  (forall w, ~ In (EPast w) (s_tr s)) /\ (forall w x, ~ In (ERet w CbFiniLibrary x) (s_tr s)) /\
  (forall w, ~ In (EWin w) (s_tr s)) /\ g_lock (s_g s) = None /\ not_stuck s 1 /\
  exists s3, step true s 1 (CCall AExit) = Some s3.
Proof.
  eexists. eexists. split; [apply (reach_run true two_threads); vm_compute; reflexivity|].
  split; [vm_compute; reflexivity|]. split; [find_ev|].
  split; [intros w I; vm_compute in I; repeat (destruct I as [I|I]; [discriminate I|]); exact I|].
  split; [intros w x I; vm_compute in I; repeat (destruct I as [I|I]; [discriminate I|]); exact I|].
  split; [intros w I; vm_compute in I; repeat (destruct I as [I|I]; [discriminate I|]); exact I|].
  split; [reflexivity|]. split; [right; left; exists 1; repeat split; [left; reflexivity|discriminate]|].
  eexists. vm_compute. reflexivity.
Qed.
Theorem C83_err_refuted : exists l s,
  xrun true init l = Some s /\ g_dead (s_g s) = true /\
  callbacks (s_tr s) = [CbStartMain; CbInitLibrary; CbInitProcess 0; CbAtMain; CbThreadSupport; CbPreCreate 0;
    CbResetStack; CbPostCreate 0 5; CbInitThread 1 5; CbFiniLibrary].
Proof.
  exists (xs two_threads ++ [XEnd 1 ByExit] ++ xs (ticks 1 1 ++ [(1, CRet 0)] ++ ticks 1 3 ++ [(1, CRet 0)] ++ ticks 1 2)).
  eexists. split; [vm_compute; reflexivity|]. split; [reflexivity|]. vm_compute. reflexivity.
Qed.

(** The same by quick_exit: no fini_library either. *)
Theorem C83_quick_refuted : exists l s,
  xrun true init l = Some s /\ g_dead (s_g s) = true /\ In (ECall 1 (CbInitProcess 0)) (s_tr s) /\
  forall u c, In (ECall u c) (s_tr s) -> c <> CbFiniLibrary /\ forall how d, c <> CbFiniProcess how d.
Proof.
  exists (xs two_threads ++ [XEnd 1 ByQuick] ++ xs (ticks 1 1)).
  eexists. split; [vm_compute; reflexivity|]. split; [reflexivity|]. split; [find_ev|].
  match goal with |- forall u c, In _ ?l -> _ =>
    assert (X : forallb (fun e => match e with ECall _ CbFiniLibrary | ECall _ (CbFiniProcess _ _) => false | _ => true end) l = true)
      by (vm_compute; reflexivity); revert X; generalize l end.
  intros l X u c I. rewrite forallb_forall in X. apply X in I. split; [intros ->; discriminate I|intros how d ->; discriminate I].
Qed.

(** Refuted for an error of the library itself: main has created 600 threads, malloc fails
    for the next one, and the process ends without fini_process.  The lock is still held:
    an atexit handler that waits for the end of thread 2 waits for ever. *)
Definition many (n : nat) : list (Z * choice) :=
  to_main ++ create1 1 10 11 5 ++ concat (repeat (create2 1 20 21 8) n) ++ enter 2 6.
Definition no_memory : list xitem :=
  xs (many 599 ++ [(1, CCall (ACreate 20 21 99))] ++ ticks 1 6 ++ [(1, CRet 8)] ++ ticks 1 3) ++ [XEnd 1 ByExit].
Lemma holds_after (P : state -> bool) dyn l : option_map P (xrun dyn init l) = Some true -> exists s, xrun dyn init l = Some s /\ P s = true.
Proof. destruct (xrun dyn init l) as [s|]; [|discriminate]. intros H. exists s. split; [reflexivity|]. now inversion H. Qed.
Theorem C83_malloc_refuted : exists l s,
  xrun true init l = Some s /\ g_dead (s_g s) = true /\ In (ERet 2 (CbInitThread 1 5) 6) (s_tr s) /\
  existsb exit_call (s_tr s) = false.
Proof.
  eexists. destruct (holds_after (fun s => g_dead (s_g s) &&
      existsb (fun e => match e with ERet 2 (CbInitThread 1 5) 6 => true | _ => false end) (s_tr s) && negb (existsb exit_call (s_tr s)))
    true (no_memory ++ xs (ticks 1 1 ++ [(1, CRet 0)] ++ ticks 1 3 ++ [(1, CRet 0)] ++ ticks 1 2)))
    as (s & E & P); [vm_compute; reflexivity|].
  exists s. split; [exact E|]. apply andb_prop in P. destruct P as [P P3]. apply andb_prop in P. destruct P as [P1 P2].
  split; [exact P1|]. split; [|now apply negb_true_iff]. apply existsb_exists in P2. destruct P2 as (e & I & X).
  destruct e as [| t c v | | | | | | | | | | | | | | | | | | | | | | | | | |]; try discriminate X.
  destruct t as [|[p|[p|p|]|]|]; try discriminate X. destruct c; try discriminate X.
  destruct num as [|[p|p|]|]; try discriminate X. destruct data as [|[[p|[p|p|]|]|p|]|]; try discriminate X.
  destruct v as [|[p|[[p|p|]|p|]|]|]; try discriminate X. exact I.
Qed.
Definition none {A} (o : option A) : bool := match o with None => true | Some _ => false end.
Theorem C83_join_refuted : exists l s r,
  xrun true init l = Some s /\ th_stack (s_th s 1) = FApp AppAtexit :: r /\ th_live (s_th s 2) = true /\
  forall v n, alone true v 2 n s = s.
Proof.
  set (l := no_memory ++ xs (ticks 1 1 ++ [(2, CRet 0)] ++ ticks 2 5 ++ [(2, CRet 0)] ++ ticks 2 1)).
  assert (H : forall v, option_map (fun s => match th_stack (s_th s 1) with FApp AppAtexit :: _ => true | _ => false end &&
      th_live (s_th s 2) && (none (step true s 2 CGiveUp) && none (step true s 2 CStep) && none (step true s 2 (CRet v)))) (xrun true init l) = Some true)
    by (intros v; vm_compute; reflexivity).
  destruct (xrun true init l) as [s|] eqn:E; [|discriminate (H 0)]. exists l, s.
  assert (G : forall v, move true v 2 s = s).
  { intros v. specialize (H v). cbn [option_map] in H. injection H as X. apply andb_prop in X. destruct X as [_ X].
    apply andb_prop in X. destruct X as [X X3]. apply andb_prop in X. destruct X as [X1 X2]. unfold move.
    destruct (step true s 2 CGiveUp); [discriminate X1|]. destruct (step true s 2 CStep); [discriminate X2|].
    destruct (step true s 2 (CRet v)); [discriminate X3|reflexivity]. }
  specialize (H 0). cbn [option_map] in H. injection H as X. apply andb_prop in X. destruct X as [X _]. apply andb_prop in X. destruct X as [X1 X2].
  destruct (th_stack (s_th s 1)) as [|f r] eqn:ST; [discriminate X1|]. exists r. split; [exact E|].
  split; [destruct f; try discriminate X1; destruct a; try discriminate X1; reflexivity|]. split; [exact X2|].
  intros v n. induction n as [|n IH]; cbn [alone]; [reflexivity|now rewrite G].
Qed.

(** Refuted when the shootdown handler cannot be installed (see C08: a signal number the C
    library refuses): begin_process_exit is issued and fini_process is not. *)
Theorem C83_sigaction_refuted : exists l s,
  xrun true init l = Some s /\ g_dead (s_g s) = true /\ In (ERet 1 (CbBeginExit EXIT_NORMAL) 0) (s_tr s) /\
  forall u how d, ~ In (ECall u (CbFiniProcess how d)) (s_tr s).
Proof.
  exists (xs (two_threads ++ [(1, CCall AExit)] ++ ticks 1 4 ++ [(1, CRet 0)] ++ ticks 1 4) ++ [XEnd 1 ByExit] ++
    xs (ticks 1 1 ++ [(1, CRet 0)] ++ ticks 1 3 ++ [(1, CRet 0)] ++ ticks 1 2)).
  eexists. split; [vm_compute; reflexivity|]. split; [reflexivity|]. split; [find_ev|].
  match goal with |- forall u how d, ~ In _ ?l =>
    assert (X : forallb (fun e => match e with ECall _ (CbFiniProcess _ _) => false | _ => true end) l = true)
      by (vm_compute; reflexivity); revert X; generalize l end.
  intros l X u how d I. rewrite forallb_forall in X. apply X in I. discriminate I.
Qed.

Print Assumptions C83_override_partial.
Print Assumptions C83_end_inside.
Print Assumptions C83_fini_library.
Print Assumptions C83_example.
Print Assumptions C83_err_refuted.
Print Assumptions C83_quick_refuted.
Print Assumptions C83_malloc_refuted.
Print Assumptions C83_join_refuted.
Print Assumptions C83_sigaction_refuted.
