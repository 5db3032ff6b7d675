(** Theorems on monitor_real_fork: C78. *)
From Verif Require Import LifeRunB LifeRealFork.

Local Open Scope Z_scope.

(** In the parent the call leaves no trace: whether it succeeds or fails, no callback
    is issued and nothing the library keeps has changed. *)
Theorem C78_parent : forall dyn s t f r c,
  g_dead (s_g s) = false -> th_live (s_th s t) = true -> th_stack (s_th s t) = f :: r -> open f = true ->
  c = COk \/ c = CFail ->
  exists s', run dyn s [(t, CCall ARealFork); (t, c)] = Some s' /\
    s_tr s' = s_tr s /\ s_g s' = s_g s /\ s_next s' = s_next s /\ forall u, s_th s' u = s_th s u.
Proof.
  intros dyn s t f r c D L ST O C. destruct (real_fork_parent dyn s t f r c D L ST O C) as (s' & A & B & E & F & G).
  exists s'. auto.
Qed.

(** In the child: from every reachable state, if the library knows the calling thread
    and no exit had begun, the call returns without a callback to the only thread of
    the child; monitor_get_user_data and monitor_stack_bottom answer what they answered before
    the call; and
    whatever the client returns, the child's exit issues begin_process_exit and
    fini_process, with that value as the data of the process, and the process ends.
    These are all the callbacks.  Partial: no exit begun, a monitored thread. *)
Theorem C78_child_partial : forall dyn s t f r d z k b x,
  reach dyn any s -> g_dead (s_g s) = false -> th_live (s_th s t) = true ->
  th_stack (s_th s t) = f :: r -> open f = true ->
  (forall w, ~ In (EWin w) (s_tr s)) -> (forall w v, ~ In (ERet w CbFiniLibrary v) (s_tr s)) ->
  asks dyn s t QNum k -> k <> -1 -> asks dyn s t QData d -> asks dyn s t QBottom z ->
  exists s1 s2, let lib := (dyn && negb (g_dtor (s_g s)))%bool in
    run dyn s (real_child t) = Some s1 /\
    image (s_tr s1) = [] /\ th_stack (s_th s1 t) = f :: r /\
    (forall u, u <> t -> th_live (s_th s1 u) = false) /\
    asks dyn s1 t QData d /\ asks dyn s1 t QBottom z /\
    run dyn s1 (steps t (child_out lib b x)) = Some s2 /\
    image (s_tr s2) =
      [EDead t] ++ (if lib then [ERet t CbFiniLibrary 0; ECall t CbFiniLibrary] else []) ++
      [EPast t; ERet t (CbFiniProcess EXIT_NORMAL d) x; ECall t (CbFiniProcess EXIT_NORMAL d);
       ERet t (CbBeginExit EXIT_NORMAL) b; ECall t (CbBeginExit EXIT_NORMAL); EWin t; EExit t EXIT_NORMAL].
Proof.
  intros dyn s t f r d z k b x R D L ST O NW NF QN K QD QB.
  assert (CK : g_cookie (s_g s) = false).
  { destruct (g_cookie (s_g s)) eqn:E; [|reflexivity]. destruct (cookie_win _ _ R E) as [u X]. destruct (NW u X). }
  assert (LD : g_libdone (s_g s) = false).
  { destruct (g_libdone (s_g s)) eqn:E; [|reflexivity]. destruct (libdone_seen _ _ R E) as (u & v & X). destruct (NF u v X). }
  pose proof (reset_data _ _ _ _ _ _ _ D L ST O QN K QD) as RD.
  pose proof (reset_bottom _ _ _ _ _ _ _ D L ST O QN K QB) as RB.
  destruct (real_child_goes dyn s t f r b x D L ST O CK LD) as (s1 & s2 & g & A & _ & G & EG & B & C & LV & U & E & F).
  rewrite <- EG in RD, RB. rewrite RD in F. exists s1, s2. cbv zeta. repeat (split; [assumption|]).
  destruct (reset_facts (th_tsd (s_th s t)) (s_g s)) as (F1 & F2 & _). rewrite <- EG in F1, F2.
  split.
  { apply (asks_answer dyn s1 t f r QData d); [congruence|exact LV|exact C|exact O|].
    rewrite G. unfold answer, get_tn. rewrite F2. exact RD. }
  split.
  { apply (asks_answer dyn s1 t f r QBottom z); [congruence|exact LV|exact C|exact O|].
    rewrite G. unfold answer, get_tn. rewrite F2. exact RB. }
  split; [exact E|exact F].
Qed.

(** The calling thread is the main thread of the child.  Partial: earlier forks were
    made by main outside pthread_create. *)
Theorem C78_number_partial : forall dyn s t f r,
  reach dyn clean_forks s -> g_dead (s_g s) = false -> th_live (s_th s t) = true ->
  th_stack (s_th s t) = f :: r -> open f = true ->
  exists s1, run dyn s (real_child t) = Some s1 /\ asks dyn s1 t QNum 0 /\ asks dyn s1 t QThreaded 0.
Proof.
  intros dyn s t f r R D L ST O. pose proof (real_child_number dyn s t f r R D L ST O) as N.
  destruct (real_child_comes dyn s t f r D L ST O) as (s1 & S1 & _ & (B0 & B1 & B2 & _) & _). cbn [k_g k_st] in B1, B2.
  destruct (reset_facts (th_tsd (s_th s t)) (s_g s)) as (F1 & F2 & _).
  exists s1. split; [exact S1|].
  split; apply (asks_answer dyn s1 t f r); try assumption; rewrite B2; try congruence; unfold answer, get_tn; rewrite F2; [exact N|reflexivity].
Qed.

(** The child can create threads, which get init_thread.  Partial: as for fork
    (C32_create_partial). *)
Theorem C78_create_partial : forall dyn s st ar ra e w d f r,
  reach dyn clean_forks s -> g_dead (s_g s) = false -> th_live (s_th s MAIN) = true ->
  th_stack (s_th s MAIN) = f :: r -> open f = true -> existsb handling (f :: r) = false ->
  In (ECall w (CbInitProcess d)) (s_tr s) -> (forall w, ~ In (EWin w) (s_tr s)) ->
  g_lock (s_g s) = None -> n_ignore (nd (s_g s) MAIN_TN) = false -> e <> IGNORE_NEW_THREAD ->
  exists s1 s2 num u, u = s_next s /\
    run dyn s (real_child MAIN) = Some s1 /\ image (s_tr s1) = [] /\ th_stack (s_th s1 MAIN) = f :: r /\
    run dyn s1 (steps MAIN (making_in (g_support (s_g s)) st ar ra e) ++ (MAIN, COk) :: steps u (repeat CStep 9)) = Some s2 /\
    exists q, q_start q = st /\ q_arg q = ar /\
    In (ECreate MAIN q u true) (image (s_tr s2)) /\ In (ECall u (CbInitThread num e)) (image (s_tr s2)).
Proof.
  intros dyn s st ar ra e w d f r R D L ST O NH I NW LK NI NE.
  assert (RA : reach dyn any s) by (eapply reach_weaken; [|exact R]; now intros).
  assert (CK : g_cookie (s_g s) = false).
  { destruct (g_cookie (s_g s)) eqn:E; [|reflexivity]. destruct (cookie_win _ _ RA E) as [u X]. destruct (NW u X). }
  destruct (real_child_makes dyn s st ar ra e f r R D L ST O NH (called_initp _ _ _ _ RA I) CK LK NI NE) as (s1 & s2 & num & A & B & C & E & F).
  exists s1, s2, num, (s_next s). split; [reflexivity|]. auto.
Qed.

(** *** A state that meets the hypotheses *)

(** Main has a thread, which runs; main is in its own code. *)
Definition two_run : list (Z * choice) := to_main ++ create1 1 10 11 5 ++ enter 2 6.
Lemma two_case : exists s f r f2 r2, reach false clean_forks s /\ g_dead (s_g s) = false /\
  th_live (s_th s 1) = true /\ th_stack (s_th s 1) = f :: r /\ open f = true /\ existsb handling (f :: r) = false /\
  th_live (s_th s 2) = true /\ th_stack (s_th s 2) = f2 :: r2 /\ open f2 = true /\
  (forall w, ~ In (EWin w) (s_tr s)) /\ (forall w v, ~ In (ERet w CbFiniLibrary v) (s_tr s)) /\
  In (ECall 1 (CbInitProcess 0)) (s_tr s) /\ g_lock (s_g s) = None /\ n_ignore (nd (s_g s) MAIN_TN) = false /\
  asks false s 1 QNum 0 /\ asks false s 1 QData 7 /\ asks false s 2 QNum 1 /\ asks false s 2 QData 6 /\ asks false s 1 QBottom 1 /\ asks false s 2 QBottom 2.
Proof.
  assert (X : exists s, run_ok orderly_b false init two_run = Some s /\ exists f r f2 r2, g_dead (s_g s) = false /\
    th_live (s_th s 1) = true /\ th_stack (s_th s 1) = f :: r /\ open f = true /\ existsb handling (f :: r) = false /\
    th_live (s_th s 2) = true /\ th_stack (s_th s 2) = f2 :: r2 /\ open f2 = true /\
    existsb (fun e => match e with EWin _ | ERet _ CbFiniLibrary _ => true | _ => false end) (s_tr s) = false /\
    In (ECall 1 (CbInitProcess 0)) (s_tr s) /\ g_lock (s_g s) = None /\ n_ignore (nd (s_g s) MAIN_TN) = false /\
    asks false s 1 QNum 0 /\ asks false s 1 QData 7 /\ asks false s 2 QNum 1 /\ asks false s 2 QData 6 /\ asks false s 1 QBottom 1 /\ asks false s 2 QBottom 2).
  { eexists. split; [vm_compute; reflexivity|]. do 4 eexists. split; [reflexivity|]. split; [reflexivity|].
    split; [vm_compute; reflexivity|]. split; [reflexivity|]. split; [reflexivity|]. split; [reflexivity|].
    split; [vm_compute; reflexivity|]. split; [reflexivity|]. split; [reflexivity|]. split; [vm_compute; tauto|].
    split; [reflexivity|]. split; [reflexivity|].
    repeat split; (eexists; split; [vm_compute; reflexivity|vm_compute; reflexivity]). }
  destruct X as (s & E & f & r & f2 & r2 & A1 & A2 & A3 & A4 & A5 & A6 & A7 & A8 & A9 & A10 & A11 & A12 & A13).
  exists s, f, r, f2, r2. split; [eapply reach_weaken; [|eapply orderly_run; exact E]; intros ? ? ? (X & _); exact X|].
  do 8 (split; [assumption|]). split; [|split; [|auto]].
  - intros u I. assert (X := proj2 (existsb_exists (fun e => match e with EWin _ | ERet _ CbFiniLibrary _ => true | _ => false end) (s_tr s))
      (ex_intro _ (EWin u) (conj I eq_refl))). congruence.
  - intros u v I. assert (X := proj2 (existsb_exists (fun e => match e with EWin _ | ERet _ CbFiniLibrary _ => true | _ => false end) (s_tr s))
      (ex_intro _ (ERet u CbFiniLibrary v) (conj I eq_refl))). congruence.
Qed.
Example C78_example : exists s f r, reach false any s /\ g_dead (s_g s) = false /\ th_live (s_th s 2) = true /\
  th_stack (s_th s 2) = f :: r /\ open f = true /\
  (forall w, ~ In (EWin w) (s_tr s)) /\ (forall w v, ~ In (ERet w CbFiniLibrary v) (s_tr s)) /\
  asks false s 2 QNum 1 /\ asks false s 2 QData 6 /\ asks false s 2 QBottom 2.
Proof.
  destruct two_case as (s & f1 & r1 & f & r & R & A1 & _ & _ & _ & _ & A2 & A3 & A4 & B1 & B2 & _ & _ & _ & _ & _ & Q1 & Q2 & _ & Q3).
  exists s, f, r. split; [eapply reach_weaken; [|exact R]; now intros|]. auto 10.
Qed.
Example C78_create_example : exists s f r, reach false clean_forks s /\ g_dead (s_g s) = false /\ th_live (s_th s MAIN) = true /\
  th_stack (s_th s MAIN) = f :: r /\ open f = true /\ existsb handling (f :: r) = false /\
  In (ECall 1 (CbInitProcess 0)) (s_tr s) /\ (forall w, ~ In (EWin w) (s_tr s)) /\
  g_lock (s_g s) = None /\ n_ignore (nd (s_g s) MAIN_TN) = false /\ th_live (s_th s 2) = true.
Proof.
  destruct two_case as (s & f & r & f2 & r2 & R & A1 & A2 & A3 & A4 & A5 & A6 & _ & _ & B1 & B2 & B3 & B4 & B5 & _).
  exists s, f, r. auto 15.
Qed.

(** *** Refutations *)

(** "The exit callbacks of the child get the data of the process" is false when
    another thread than main makes the call: init_process returned 7, thread 2 got 6
    from init_thread; in the child of thread 2, fini_process gets 6. *)
Theorem C78_thread_data_refuted : exists l s,
  run false init l = Some s /\
  In (ERet 1 (CbInitProcess 0) 7) (s_tr s) /\ In (ERet 2 (CbInitThread 1 5) 6) (s_tr s) /\
  In (ECall 2 (CbFiniProcess EXIT_NORMAL 6)) (image (s_tr s)) /\
  In (EDead 2) (image (s_tr s)).
Proof.
  exists (two_run ++ real_child 2 ++ steps 2 (child_out false 0 0)).
  eexists. split; [vm_compute; reflexivity|]. vm_compute. tauto.
Qed.

(** Refuted without "no exit begun": main makes the call inside begin_process_exit.
    The exit of the child issues no callback. *)
Theorem C78_late_refuted : exists l s,
  run false init l = Some s /\
  In (EExit 1 EXIT_NORMAL) (image (s_tr s)) /\ In (EDead 1) (image (s_tr s)) /\
  existsb exit_ev (image (s_tr s)) = false.
Proof.
  exists (to_main ++ win 1 ++ real_child 1 ++ [(1, CCall AExit)] ++ ticks 1 5 ++ [(1, CRet 0)] ++ ticks 1 2).
  eexists. split; [vm_compute; reflexivity|]. vm_compute. tauto.
Qed.

(** In the same case the child's exit can wait for ever: thread 2 runs
    begin_process_exit while main makes the call. *)
Theorem C78_hang_refuted : exists l s r,
  run false init l = Some s /\ In (EExit 1 EXIT_NORMAL) (image (s_tr s)) /\ g_dead (s_g s) = false /\
  th_stack (s_th s 1) = FEPWait :: r /\ step false s 1 CStep = None /\
  forall u, u <> 1 -> th_live (s_th s u) = false.
Proof.
  exists (two_run ++ win 2 ++ real_child 1 ++ [(1, CCall AExit)] ++ ticks 1 3).
  eexists. eexists. split; [vm_compute; reflexivity|]. split; [vm_compute; tauto|]. split; [reflexivity|].
  split; [vm_compute; reflexivity|]. split; [reflexivity|].
  intros u U. destruct u as [|[p|p|]|p]; try reflexivity. now destruct U.
Qed.

(** A thread that the library does not know: after the call monitor_get_user_data
    answers the data of the process, not NULL as before. *)
Theorem C78_unknown_refuted : exists l s s1 d,
  run false init l = Some s /\ run false s (real_child 2) = Some s1 /\
  asks false s 2 QData 0 /\ asks false s1 2 QData d /\ d <> 0.
Proof.
  exists (to_main ++ [(1, CCall (ACreate 10 11 99))] ++ ticks 1 7 ++ [(1, CRet 0)] ++ ticks 1 1 ++
    [(1, CRet IGNORE_NEW_THREAD); (1, CStep); (1, COk); (2, CStep)]).
  eexists. eexists. exists 7. split; [vm_compute; reflexivity|]. split; [vm_compute; reflexivity|].
  split; [eexists; split; vm_compute; reflexivity|]. split; [eexists; split; vm_compute; reflexivity|lia].
Qed.

Print Assumptions C78_parent.
Print Assumptions C78_child_partial.
Print Assumptions C78_number_partial.
Print Assumptions C78_create_partial.
Print Assumptions C78_thread_data_refuted.
Print Assumptions C78_late_refuted.
Print Assumptions C78_hang_refuted.
Print Assumptions C78_unknown_refuted.
