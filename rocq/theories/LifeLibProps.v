(** Theorems on fini_library: C31. *)
From Verif Require Import LifeLib.

Local Open Scope Z_scope.

(** fini_library is issued only when the exit callbacks are over: fini_process has
    returned, or the thread that runs them has entered exit again.  Partial: the
    assumptions of [orderly]. *)
Theorem C31_after_fini_process_partial : forall dyn s a t b,
  reach dyn orderly s ->
  s_tr s = a ++ ECall t CbFiniLibrary :: b ->
  (exists w how d v, In (ERet w (CbFiniProcess how d) v) b) \/
  (exists w, In (EWin w) b /\ (2 <= count (exit_of w) b)%nat).
Proof. intros dyn s a t b R E. exact (past_hist _ _ R a _ b E). Qed.

(** It is issued at most once per process image.  Partial: two runs of the library's
    end function do not overlap, it is not left by pthread_exit or cancellation,
    exit begins only once the process is initialised, and [orderly]. *)
Theorem C31_once_partial : forall dyn s,
  reach dyn library_ends s -> (count is_fini_library (image (s_tr s)) <= 1)%nat.
Proof. intros dyn s R. destruct (lib_reach _ _ R) as (w & _ & A & _). lia. Qed.

(** A process that exits normally gets it, after fini_process. *)
Example C31_case : exists s b a,
  reach true library_ends s /\ s_tr s = a ++ ECall 1 CbFiniLibrary :: b /\ In (ERet 1 (CbFiniProcess 1 7) 0) b /\
  In (EDead 1) a.
Proof.
  assert (X : exists s, run_ok library_b true init (to_main ++ exit1 1 ++ [(1, CRet 0)] ++ ticks 1 3 ++ [(1, CRet 0)] ++ ticks 1 2) = Some s /\
     exists b a, s_tr s = a ++ ECall 1 CbFiniLibrary :: b /\ In (ERet 1 (CbFiniProcess 1 7) 0) b /\ In (EDead 1) a).
  { eexists. split; [vm_compute; reflexivity|]. cbn [s_tr]. eexists. exists [EDead 1; ERet 1 CbFiniLibrary 0].
    split; [reflexivity|]. cbn; tauto. }
  destruct X as (s & E & b & a & A). exists s, b, a. split; [eapply library_run; exact E|exact A].
Qed.

(** Refuted: the client calls _exit inside begin_process_exit: fini_library before
    (without) fini_process. *)
Theorem C31_before_fini_process_refuted : exists l s,
  run true init l = Some s /\
  count is_fini_library (s_tr s) = 1%nat /\ count is_fini_process (s_tr s) = 0%nat.
Proof.
  exists (to_main ++ win 1 ++ [(1, CCall AUExit)] ++ ticks 1 7).
  eexists. split; [vm_compute; reflexivity|]. vm_compute. tauto.
Qed.

(** Refuted: fini_library calls _exit: it is issued again. *)
Theorem C31_reentry_refuted : exists l s,
  run true init l = Some s /\ (2 <= count is_fini_library (image (s_tr s)))%nat.
Proof.
  exists (to_main ++ exit1 1 ++ [(1, CRet 0)] ++ ticks 1 3 ++ [(1, CCall AUExit)] ++ ticks 1 7).
  eexists. split; [vm_compute; reflexivity|]. vm_compute. lia.
Qed.

(** Refuted: two threads in _exit; both see the flag clear. *)
Theorem C31_race_refuted : exists l s,
  run true init l = Some s /\ (2 <= count is_fini_library (image (s_tr s)))%nat.
Proof.
  exists (to_main ++ create1 1 10 11 5 ++ enter 2 6 ++ [(1, CCall AUExit)] ++ ticks 1 4 ++ [(2, CCall AUExit)] ++ ticks 2 3 ++
  [(1, CRet 0)] ++ ticks 1 9 ++ [(2, CShoot)] ++ ticks 2 5 ++ [(2, CRet 0)] ++ ticks 2 1 ++ ticks 1 6 ++
  [(1, CRet 0)] ++ ticks 1 4 ++ ticks 2 5).
  eexists. split; [vm_compute; reflexivity|]. vm_compute. lia.
Qed.

(** Refuted: a library constructor calls exec, which fails; then the process is
    initialised, and the flag is cleared. *)
Theorem C31_exec_before_main_refuted : exists l s,
  run true init l = Some s /\ (2 <= count is_fini_library (image (s_tr s)))%nat.
Proof.
  exists ([(1, CCall (AExec true))] ++ ticks 1 4 ++ [(1, CRet 0)] ++ ticks 1 2 ++ [(1, CRet 0)] ++ ticks 1 4 ++ [(1, CRet 0)] ++ ticks 1 1 ++ [(1, CFail)] ++
    to_main ++ [(1, CCall AUExit)] ++ ticks 1 7).
  eexists. split; [vm_compute; reflexivity|]. vm_compute. lia.
Qed.

Print Assumptions C31_after_fini_process_partial.
Print Assumptions C31_once_partial.
Print Assumptions C31_before_fini_process_refuted.
Print Assumptions C31_reentry_refuted.
Print Assumptions C31_race_refuted.
Print Assumptions C31_exec_before_main_refuted.
