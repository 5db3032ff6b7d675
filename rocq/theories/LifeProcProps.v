(** Theorems on the data of the process: C61, and the part of C41 about main. *)
From Verif Require Import LifeProc LifeRunB.

Local Open Scope Z_scope.

Lemma proc_find m w x v b : existsb is_init_ret m = false -> existsb is_fork m = false ->
  proc (m ++ ERet w (CbInitProcess x) v :: b) = Some (w, v, existsb (fun e => actor e =? w) m).
Proof.
  intros A B. rewrite proc_app; [cbn; now rewrite orb_false_r|]. intros e I. split.
  - destruct (is_init_ret e) eqn:X; [|reflexivity]. now rewrite (existsb_In _ _ _ I X) in A.
  - destruct (is_fork e) eqn:X; [|reflexivity]. now rewrite (existsb_In _ _ _ I X) in B.
Qed.

(** Thread w returned v from init_process, and since then no other init_process
    returned, the process did not become a forked child, and w did something.  Then
    fini_process, in any thread, gets v, and main's monitor_get_user_data gives v.
    Partial: no handler between the return of init_process and the storing of its
    value; forks as in [clean_forks]. *)
Theorem C61_process_data_partial : forall dyn s a e m w x v b,
  reach dyn stores s ->
  s_tr s = a ++ e :: m ++ ERet w (CbInitProcess x) v :: b ->
  existsb is_init_ret m = false -> existsb is_fork m = false ->
  (exists e', In e' (e :: m) /\ actor e' = w) ->
  (forall w' how d, e = ECall w' (CbFiniProcess how d) -> d = v) /\
  (forall r, e = EQuery MAIN QData r -> r = v).
Proof.
  intros dyn s a e m w x v b R E A B (e' & I & W).
  refine (proc_hist _ _ R a _ _ E w v _ (proc_find _ _ _ _ _ A B) _).
  destruct I as [<-|I]; [now right|left]. eapply existsb_In; [exact I|]. now apply Z.eqb_eq.
Qed.

(** Main's start routine is reported as null. *)
Theorem C41_main_start_partial : forall dyn s a r b,
  reach dyn clean_forks s -> s_tr s = a ++ EQuery MAIN QStart r :: b -> r = 0.
Proof. intros dyn s a r b R E. exact (start_hist _ _ R a _ _ E r eq_refl). Qed.

Definition stores_b (s : state) (t : Z) (c : choice) : bool :=
  clean_b s t c &&
  match th_stack (s_th s t) with
  | FBPStore _ :: _ => match c with CStep => true | _ => false end
  | _ => true
  end.
Lemma stores_b_ok s t c : stores_b s t c = true -> stores s t c.
Proof.
  unfold stores_b. intros H. apply andb_prop in H. destruct H as [A B]. split; [now apply clean_b_ok|].
  intros v r E. rewrite E in B. now destruct c.
Qed.
Lemma stores_run dyn l s : run_ok stores_b dyn init l = Some s -> reach dyn stores s.
Proof. intros H. eapply run_ok_reach; [exact stores_b_ok|apply reach_init|exact H]. Qed.

(** The hypotheses are met: init_process returned 7, thread 2 exists, main forks,
    init_process of the child returns 8, main asks, and a thread of the child calls
    exit: fini_process gets 8. *)
Definition fork_exit : list (Z * choice) :=
  to_main ++ ask 1 QData ++ create1 1 10 11 5 ++ enter 2 6 ++ ask 1 QData ++
  fork_child 1 3 8 ++ ask 1 QData ++ ask 1 QStart ++ exit1 1.
Example C61_case : exists s a m b a2 m2 b2,
  reach false stores s /\
  s_tr s = a ++ ECall 1 (CbFiniProcess 1 8) :: m ++ ERet 1 (CbInitProcess 3) 8 :: b /\
  existsb is_init_ret m = false /\ existsb is_fork m = false /\
  In (EQuery 1 QData 8) m /\ In (EQuery 1 QStart 0) m /\
  b = a2 ++ EQuery 1 QData 7 :: m2 ++ ERet 1 (CbInitProcess 0) 7 :: b2 /\
  existsb is_init_ret m2 = false /\ existsb is_fork m2 = false /\ In (EStart 2 10 11) m2.
Proof.
  assert (X : exists s, run_ok stores_b false init fork_exit = Some s /\ exists a m b a2 m2 b2,
    s_tr s = a ++ ECall 1 (CbFiniProcess 1 8) :: m ++ ERet 1 (CbInitProcess 3) 8 :: b /\
    existsb is_init_ret m = false /\ existsb is_fork m = false /\
    In (EQuery 1 QData 8) m /\ In (EQuery 1 QStart 0) m /\
    b = a2 ++ EQuery 1 QData 7 :: m2 ++ ERet 1 (CbInitProcess 0) 7 :: b2 /\
    existsb is_init_ret m2 = false /\ existsb is_fork m2 = false /\ In (EStart 2 10 11) m2).
  { eexists. split; [vm_compute; reflexivity|]. cbn [s_tr].
    match goal with |- exists a m b a2 m2 b2, ?l = _ /\ _ =>
      exists (firstn 2 l), (firstn 7 (skipn 3 l)), (skipn 11 l), (firstn 4 (skipn 11 l)), (firstn 18 (skipn 16 l)), (skipn 35 l) end.
    vm_compute. tauto. }
  destruct X as (s & E & a & m & b & a2 & m2 & b2 & A). exists s, a, m, b, a2, m2, b2.
  split; [eapply stores_run; exact E|exact A].
Qed.

(** Refuted when a handler runs in between: a signal arrives as init_process returns
    7, its handler calls exit, and fini_process gets 0. *)
Theorem C61_handler_refuted : exists dyn l s x m b,
  run dyn init l = Some s /\
  s_tr s = ECall MAIN (CbFiniProcess EXIT_NORMAL 0) :: m ++ ERet MAIN (CbInitProcess x) 7 :: b /\
  existsb is_init_ret m = false /\ existsb is_fork m = false.
Proof.
  exists false, ([(MAIN, CRet 0); (MAIN, CStep); (MAIN, CRet 0); (MAIN, CRet 0)] ++ ticks MAIN 5 ++
  [(MAIN, CRet 0); (MAIN, CStep); (MAIN, CRet 7); (MAIN, CSignal); (MAIN, CCall AExit)] ++ ticks MAIN 4 ++ [(MAIN, CRet 0)] ++ ticks MAIN 2).
  eexists. exists 0, [ERet 1 (CbBeginExit 1) 0; ECall 1 (CbBeginExit 1); EWin 1; EExit 1 1]. eexists. split; [vm_compute; reflexivity|].
  vm_compute. split; [|split]; try reflexivity.
Qed.

Print Assumptions C61_process_data_partial.
Print Assumptions C61_handler_refuted.
Print Assumptions C41_main_start_partial.
