(** Theorems on the forked child: C32. *)
From Verif Require Import LifeRunB LifeFork.

Local Open Scope Z_scope.

(** Whatever the parent has done, as long as no thread had begun to exit: a fork by
    any thread has a child in which, whatever the client returns, init_process is
    issued with the data of pre_fork before fork returns, exit issues
    begin_process_exit and fini_process with the child's own process data, and the
    process ends (no wait on the way).  The child's history holds exactly these
    events; [t] is its only thread.  Partial: no exit begun, and the library was
    initialised. *)
Theorem C32_child_partial : forall dyn s t d v b x w f r,
  reach dyn any s -> g_dead (s_g s) = false -> th_live (s_th s t) = true ->
  th_stack (s_th s t) = FForkGo d :: f :: r -> open f = true ->
  In (ECall w CbInitLibrary) (s_tr s) -> (forall w, ~ In (EWin w) (s_tr s)) ->
  exists s1 s2, let lib := dyn && negb (g_dtor (s_g s)) in
    run dyn s ((t, CChild) :: steps t (child_in v)) = Some s1 /\
    image (s_tr s1) = [EForkRet t; ERet t (CbInitProcess d) v; ECall t (CbInitProcess d)] /\
    th_stack (s_th s1 t) = f :: r /\
    (forall u, u <> t -> th_live (s_th s1 u) = false) /\
    run dyn s1 (steps t (child_out lib b x)) = Some s2 /\
    image (s_tr s2) =
      [EDead t] ++ (if lib then [ERet t CbFiniLibrary 0; ECall t CbFiniLibrary] else []) ++
      [EPast t; ERet t (CbFiniProcess EXIT_NORMAL v) x; ECall t (CbFiniProcess EXIT_NORMAL v);
       ERet t (CbBeginExit EXIT_NORMAL) b; ECall t (CbBeginExit EXIT_NORMAL); EWin t; EExit t EXIT_NORMAL] ++
      [EForkRet t; ERet t (CbInitProcess d) v; ECall t (CbInitProcess d)].
Proof.
  intros dyn s t d v b x w f r R D L ST O I NW.
  assert (CK : g_cookie (s_g s) = false).
  { destruct (g_cookie (s_g s)) eqn:E; [|reflexivity]. destruct (cookie_win _ _ R E) as [u X]. destruct (NW u X). }
  destruct (child_goes dyn s t d v b x f r D L ST O (begun_libonce _ _ _ R I) CK) as (s1 & s2 & A & B & C & E & F & G).
  exists s1, s2. cbv zeta. repeat (split; [assumption|]). rewrite G. unfold child_over. now rewrite <- !app_assoc.
Qed.

(** It can create threads: main's child calls pthread_create; the new thread gets
    init_thread with the data that pre_create returned.  Partial: main is the thread
    that forks, no exit had begun, no thread held the library's lock at the fork,
    main had not disabled new threads, and fork was not called in a handler. *)
Theorem C32_create_partial : forall dyn s d v st ar ra e w f r,
  reach dyn clean_forks s -> g_dead (s_g s) = false -> th_live (s_th s MAIN) = true ->
  th_stack (s_th s MAIN) = FForkGo d :: f :: r -> open f = true -> existsb handling (f :: r) = false ->
  In (ECall w CbInitLibrary) (s_tr s) -> (forall w, ~ In (EWin w) (s_tr s)) ->
  g_lock (s_g s) = None -> n_ignore (nd (s_g s) MAIN_TN) = false -> e <> IGNORE_NEW_THREAD ->
  exists s1 s2 num u, u = s_next s /\
    run dyn s ((MAIN, CChild) :: steps MAIN (child_in v)) = Some s1 /\
    image (s_tr s1) = [EForkRet MAIN; ERet MAIN (CbInitProcess d) v; ECall MAIN (CbInitProcess d)] /\
    th_stack (s_th s1 MAIN) = f :: r /\
    run dyn s1 (steps MAIN (making_in (g_support (s_g s)) st ar ra e) ++ (MAIN, COk) :: steps u (repeat CStep 9)) = Some s2 /\
    exists q, q_start q = st /\ q_arg q = ar /\
    In (ECreate MAIN q u true) (image (s_tr s2)) /\ In (ECall u (CbInitThread num e)) (image (s_tr s2)).
Proof.
  intros dyn s d v st ar ra e w f r R D L ST O NH I NW LK NI NE.
  assert (RA : reach dyn any s) by (eapply reach_weaken; [|exact R]; now intros).
  assert (CK : g_cookie (s_g s) = false).
  { destruct (g_cookie (s_g s)) eqn:E; [|reflexivity]. destruct (cookie_win _ _ RA E) as [u X]. destruct (NW u X). }
  destruct (child_makes dyn s d v st ar ra e f r R D L ST O NH (begun_libonce _ _ _ RA I) CK LK NI NE) as (s1 & s2 & num & A & B & C & E & F).
  exists s1, s2, num, (s_next s). split; [reflexivity|]. auto.
Qed.

(** In every execution: a process, forked child or not, goes on to the real exit only
    after its own fini_process returned, or its own exit callbacks entered exit again.
    Partial: as C29. *)
Theorem C32_exit_partial : forall dyn s a t b,
  reach dyn orderly s ->
  s_tr s = a ++ EPast t :: b ->
  (exists w how d v, In (ERet w (CbFiniProcess how d) v) (image b)) \/
  (exists w, In (EWin w) (image b) /\ (2 <= count (exit_of w) b)%nat).
Proof.
  intros dyn s a t b R E.
  assert (RE : reach dyn early_forks s) by (eapply reach_weaken; [|exact R]; intros ? ? ? (_ & X & _); exact X).
  assert (E' : s_tr s = (a ++ [EPast t]) ++ b) by (rewrite <- app_assoc; exact E).
  destruct (past_hist _ _ R a _ b E) as [(w & how & d & v & I)|(w & I & C)].
  - left. exists w, how, d, v. exact (exit_own _ _ _ _ _ RE E' I eq_refl).
  - right. exists w. split; [exact (exit_own _ _ _ _ _ RE E' I eq_refl)|exact C].
Qed.

(** Main has a thread, the thread is registered and runs, and main is at the fork. *)
Definition at_fork : list (Z * choice) :=
  to_main ++ create1 1 10 11 5 ++ enter 2 6 ++ [(1, CCall AFork); (1, CStep); (1, CRet 7)].
Example C32_case : exists s w f r, reach false clean_forks s /\ g_dead (s_g s) = false /\ th_live (s_th s MAIN) = true /\
  th_stack (s_th s MAIN) = FForkGo 7 :: f :: r /\ open f = true /\ existsb handling (f :: r) = false /\
  In (ECall w CbInitLibrary) (s_tr s) /\ (forall w, ~ In (EWin w) (s_tr s)) /\
  g_lock (s_g s) = None /\ n_ignore (nd (s_g s) MAIN_TN) = false /\ th_live (s_th s 2) = true.
Proof.
  assert (X : exists s, run_ok orderly_b false init at_fork = Some s /\ exists w f r, g_dead (s_g s) = false /\ th_live (s_th s MAIN) = true /\
    th_stack (s_th s MAIN) = FForkGo 7 :: f :: r /\ open f = true /\ existsb handling (f :: r) = false /\
    In (ECall w CbInitLibrary) (s_tr s) /\ existsb (fun e => match e with EWin _ => true | _ => false end) (s_tr s) = false /\
    g_lock (s_g s) = None /\ n_ignore (nd (s_g s) MAIN_TN) = false /\ th_live (s_th s 2) = true).
  { eexists. split; [vm_compute; reflexivity|]. exists 1. do 2 eexists. split; [reflexivity|]. split; [reflexivity|].
    split; [vm_compute; reflexivity|]. split; [reflexivity|]. split; [reflexivity|]. split; [vm_compute; tauto|]. auto. }
  destruct X as (s & E & w & f & r & A1 & A2 & A3 & A4 & A5 & A6 & A7 & A8 & A9 & A10).
  exists s, w, f, r. split; [eapply reach_weaken; [|eapply orderly_run; exact E]; intros ? ? ? (X & _); exact X|].
  do 6 (split; [assumption|]). split; [|auto]. intros u I.
  assert (X : existsb (fun e => match e with EWin _ => true | _ => false end) (s_tr s) = true) by (apply existsb_exists; exists (EWin u); auto).
  congruence.
Qed.

(** And a child that has exited, for the third theorem. *)
Example C32_exit_case : exists s a b, reach false orderly s /\ s_tr s = a ++ EPast 1 :: b /\
  In (ECall 1 (CbInitProcess 7)) (image b) /\ In (ERet 1 (CbFiniProcess EXIT_NORMAL 8) 0) (image b).
Proof.
  assert (X : exists s, run_ok orderly_b false init (at_fork ++ [(1, CChild)] ++ steps 1 (child_in 8) ++ steps 1 (child_out false 0 0)) = Some s /\
    exists a b, s_tr s = a ++ EPast 1 :: b /\
    In (ECall 1 (CbInitProcess 7)) (image b) /\ In (ERet 1 (CbFiniProcess EXIT_NORMAL 8) 0) (image b)).
  { eexists. split; [vm_compute; reflexivity|]. cbn [s_tr]. exists [EDead 1]. eexists. split; [reflexivity|]. split; vm_compute; tauto. }
  destruct X as (s & E & a & b & A & B). exists s, a, b. split; [eapply orderly_run; exact E|]. auto.
Qed.

(** Refuted without "no exit begun": main runs begin_process_exit, and forks inside it.
    The child gets init_process; its exit issues neither begin_process_exit nor
    fini_process. *)
Definition late_fork : list (Z * choice) :=
  to_main ++ win 1 ++ fork_child 1 7 8.
Theorem C32_late_fork_refuted : exists dyn l s,
  run dyn init l = Some s /\ In (ECall 1 (CbInitProcess 7)) (image (s_tr s)) /\ In (EDead 1) (image (s_tr s)) /\
  In (EExit 1 EXIT_NORMAL) (image (s_tr s)) /\
  existsb exit_ev (image (s_tr s)) = false.
Proof.
  exists false, (late_fork ++ [(1, CCall AExit)] ++ ticks 1 5 ++ [(1, CRet 0)] ++ ticks 1 2).
  eexists. split; [vm_compute; reflexivity|]. vm_compute. tauto.
Qed.

(** Refuted in the same case: thread 2 runs begin_process_exit and main forks.  The
    child exits and waits for exit callbacks that nobody runs: without a signal (or a
    cancellation) its only thread can never take a step. *)
Definition exit_hangs : list (Z * choice) :=
  to_main ++ create1 1 10 11 5 ++ enter 2 6 ++ win 2 ++ fork_child 1 7 8 ++ [(1, CCall AExit)] ++ ticks 1 3.
Theorem C32_hang_refuted : exists dyn l s,
  run dyn init l = Some s /\ In (ECall 1 (CbInitProcess 7)) (image (s_tr s)) /\ g_dead (s_g s) = false /\
  In (EExit 1 EXIT_NORMAL) (image (s_tr s)) /\ ~ In (EPast 1) (image (s_tr s)) /\
  forall t c, c <> CSignal -> c <> CFatal -> c <> CCancel -> step dyn s t c = None.
Proof.
  assert (X : exists s, run false init exit_hangs = Some s /\ In (ECall 1 (CbInitProcess 7)) (image (s_tr s)) /\ g_dead (s_g s) = false /\
    In (EExit 1 EXIT_NORMAL) (image (s_tr s)) /\ existsb (fun e => match e with EPast _ => true | _ => false end) (image (s_tr s)) = false /\
    th_live (s_th s 1) = true /\ th_pend (s_th s 1) = false /\ (exists r, th_stack (s_th s 1) = FEPWait :: r) /\ g_pdone (s_g s) = false /\
    forall u, u <> 1 -> th_live (s_th s u) = false).
  { eexists. split; [vm_compute; reflexivity|]. split; [vm_compute; tauto|]. split; [reflexivity|]. split; [vm_compute; tauto|].
    split; [reflexivity|]. split; [reflexivity|]. split; [reflexivity|]. split; [eexists; vm_compute; reflexivity|]. split; [reflexivity|].
    intros u U. destruct u as [|[p|p|]|p]; try reflexivity. now destruct U. }
  destruct X as (s & E & A & D & B & C & L & P & (r & ST) & PD & U). exists false, exit_hangs, s.
  split; [exact E|]. split; [exact A|]. split; [exact D|]. split; [exact B|]. split.
  { intros I. assert (X : existsb (fun e => match e with EPast _ => true | _ => false end) (image (s_tr s)) = true)
      by (apply existsb_exists; exists (EPast 1); auto). congruence. }
  intros t c N1 N2 N3. unfold step. rewrite D. destruct (Z.eq_dec t 1) as [->|NE]; [|now rewrite (U t NE)].
  rewrite L, ST, P. cbn [orb negb andb is_unwind].
  destruct c; try congruence; try reflexivity; try (destruct a; cbn; rewrite ?PD; try reflexivity; destruct (existsb handling r); reflexivity).
  cbn. now rewrite PD.
Qed.

Print Assumptions C32_child_partial.
Print Assumptions C32_create_partial.
Print Assumptions C32_exit_partial.
Print Assumptions C32_late_fork_refuted.
Print Assumptions C32_hang_refuted.
