(** The stack bottom of the main thread: the rest of C41. *)
From Verif Require Import LifeBottom LifeThreadProps.

Local Open Scope Z_scope.

(** From at_main on, the stack bottom reported in the main thread is the main thread's
    own (the machine names the bottom of a thread's stack by the thread).  Partial:
    forks made by main outside pthread_create. *)
Theorem C41_main_bottom_partial : forall dyn s a r b w,
  reach dyn clean_forks s ->
  s_tr s = a ++ EQuery MAIN QBottom r :: b -> In (ECall w CbAtMain) b -> r = MAIN.
Proof. intros dyn s a r b w R E I. exact (bottom_hist _ _ R a _ b E r w eq_refl I). Qed.

(** Main, with a thread, and in a child. *)
Example C41_main_bottom_example : exists s a b,
  reach false clean_forks s /\
  s_tr s = a ++ EQuery 1 QBottom 1 :: b /\ In (EQuery 1 QBottom 1) b /\ In (EQuery 2 QBottom 2) b /\
  In (EFork 1) b /\ In (ECall 1 CbAtMain) b.
Proof.
  eexists _, [], _. split; [|split; [|split; [|split; [|split]]]].
  - apply (clean_run false (to_main ++ create1 1 10 11 5 ++ enter 2 6 ++ ask 1 QBottom ++ ask 2 QBottom ++
      fork_child 1 3 4 ++ ask 1 QBottom)). vm_compute. reflexivity.
  - vm_compute. reflexivity.
  - vm_compute. tauto.
  - vm_compute. tauto.
  - vm_compute. tauto.
  - vm_compute. tauto.
Qed.

(** Earlier, in the callback at the start of the C library, the answer is null. *)
Theorem C41_early_bottom_refuted : exists dyn l s,
  run dyn init l = Some s /\ In (EQuery 1 QBottom 0) (s_tr s).
Proof.
  exists false, ([(MAIN, CRet 0); (MAIN, CStep); (MAIN, CCall (AQuery QBottom)); (MAIN, CStep)]).
  eexists. split; [vm_compute; reflexivity|]. vm_compute. tauto.
Qed.

Print Assumptions C41_main_bottom_partial.
Print Assumptions C41_early_bottom_refuted.
