(** C81: an exec that fails. *)
From Verif Require Import LifeExecSpec LifeBase LifeThreadProps LifeRunB.

Local Open Scope Z_scope.

(** *** C81 *)

(** In every state: an exec of a file that does not look executable goes straight to the
    real exec, and when that fails everything is as before the call. *)
Theorem C81_predicted : forall dyn s t,
  reach dyn any s -> g_dead (s_g s) = false -> th_live (s_th s t) = true -> in_open_code s t ->
  exists s1 s2,
    step dyn s t (CCall (AExec false)) = Some s1 /\ step dyn s1 t CFail = Some s2 /\ same_state s s2.
Proof.
  intros dyn s t _ D L (f & r & E & O).
  assert (U : is_unwind f = false) by (destruct f; try discriminate O; reflexivity).
  exists (set_th s t (mkth (FExec false :: f :: r) (th_tsd (s_th s t)) true (th_nc (s_th s t)) (th_pend (s_th s t)))),
         (set_th (set_th s t (mkth (FExec false :: f :: r) (th_tsd (s_th s t)) true (th_nc (s_th s t)) (th_pend (s_th s t)))) t
            (mkth (f :: r) (th_tsd (s_th s t)) true (th_nc (s_th s t)) (th_pend (s_th s t)))).
  split; [|split].
  - unfold step. rewrite D, L, E, U. cbn [negb orb barred].
    destruct f; try discriminate O; cbn; unfold apply_eff; cbn; destruct s; reflexivity.
  - unfold step. cbn [set_th s_g s_th]. rewrite D, upd_same. cbn [th_live th_stack negb orb is_unwind barred].
    cbn. unfold apply_eff. cbn. destruct s; reflexivity.
  - split; [reflexivity|]. split; [|split; reflexivity]. intros u. cbn. rewrite !upd_if.
    destruct (Z.eqb_spec u t) as [->|]; [|reflexivity]. rewrite <- E, <- L. destruct (s_th s t); reflexivity.
Qed.

Example C81_example : exists s, reach false any s /\ g_dead (s_g s) = false /\ th_live (s_th s 2) = true /\ in_open_code s 2.
Proof.
  eexists. split; [apply (reach_run false (to_main ++ create1 1 10 11 5 ++ enter 2 6)); vm_compute; reflexivity|].
  split; [reflexivity|]. split; [reflexivity|]. eexists _, _. split; reflexivity.
Qed.

(** main calls exec of a file that looks executable; the exit callbacks run with how =
    exec; the real exec fails and exec returns. *)
Definition exec_fails : list (Z * choice) :=
  [(1, CCall (AExec true))] ++ ticks 1 4 ++ [(1, CRet 0)] ++ ticks 1 2 ++ [(1, CRet 0)] ++ ticks 1 2 ++ [(1, CFail)].

(** Refuted for a file that looks executable and that the system refuses: the program
    goes on, and its later exit issues neither begin_process_exit nor fini_process. *)
Theorem C81_no_exit_callbacks_refuted : exists dyn l s a b,
  run dyn init l = Some s /\
  s_tr s = a ++ EExit 1 EXIT_NORMAL :: b /\
  count is_fini_process b = 1%nat /\ In (ECall 1 (CbFiniProcess EXIT_EXEC 7)) b /\
  In (EQuery 1 QNum 0) b /\ In (EDead 1) a /\ existsb (fun e => match e with ECall _ _ => true | _ => false end) a = false.
Proof.
  assert (X : exists s, run false init (to_main ++ exec_fails ++ ask 1 QNum ++ [(1, CCall AExit)] ++ ticks 1 5 ++
                [(1, CRet 0)] ++ ticks 1 2) = Some s /\ exists a b,
    s_tr s = a ++ EExit 1 EXIT_NORMAL :: b /\
    count is_fini_process b = 1%nat /\ In (ECall 1 (CbFiniProcess EXIT_EXEC 7)) b /\
    In (EQuery 1 QNum 0) b /\ In (EDead 1) a /\ existsb (fun e => match e with ECall _ _ => true | _ => false end) a = false).
  { eexists. split; [vm_compute; reflexivity|]. cbn [s_tr].
    match goal with |- exists a b, ?l = _ /\ _ => exists (firstn 2 l), (skipn 3 l) end.
    vm_compute. tauto. }
  destruct X as (s & E & a & b & A). exists false. eexists. exists s, a, b. split; [exact E|exact A].
Qed.

(** And with threads: after the failed exec the program creates a thread, successfully,
    and the thread ends without having run its start routine. *)
Theorem C81_not_started_refuted : exists dyn l s a b q,
  run dyn init l = Some s /\
  s_tr s = a ++ EPast 1 :: b /\ In (ECreateRet 1 q) a /\ In (ECreate 1 q 3 true) a /\ In (EEnd 3) a /\
  (forall st ar, ~ In (EStart 3 st ar) (s_tr s)) /\ g_dead (s_g s) = false.
Proof.
  assert (X : exists s, run false init (to_main ++ create1 1 10 11 5 ++ enter 2 6 ++ leave 2 ++ [(2, CRet 0)] ++ ticks 2 1 ++
      [(1, CCall (AExec true))] ++ ticks 1 4 ++ [(1, CRet 0)] ++ ticks 1 12 ++ [(1, CRet 0)] ++ ticks 1 2 ++ [(1, CFail)] ++
      create3 1 20 21 8 ++ ticks 3 5 ++ [(3, CRet 0)] ++ ticks 3 1) = Some s /\
    exists a b q, s_tr s = a ++ EPast 1 :: b /\ In (ECreateRet 1 q) a /\ In (ECreate 1 q 3 true) a /\ In (EEnd 3) a /\
    (forall st ar, ~ In (EStart 3 st ar) (s_tr s)) /\ g_dead (s_g s) = false).
  { eexists. split; [vm_compute; reflexivity|]. cbn [s_tr].
    match goal with |- exists a b q, ?l = _ /\ _ => exists (firstn 10 l), (skipn 11 l), (mkcreq 1 20 21 99) end.
    split; [vm_compute; reflexivity|]. split; [vm_compute; tauto|]. split; [vm_compute; tauto|]. split; [vm_compute; tauto|].
    split; [|reflexivity]. intros st ar I. cbn in I. repeat (destruct I as [I|I]; [discriminate I|]). exact I. }
  destruct X as (s & E & a & b & q & A). exists false. eexists. exists s, a, b, q. split; [exact E|exact A].
Qed.

Print Assumptions C81_predicted.
Print Assumptions C81_no_exit_callbacks_refuted.
Print Assumptions C81_not_started_refuted.
