(** Property C50: start-function address tests. *)
From Verif Require Import FenceModel.

(** The labels are in source order, so the function's body runs from the first to the
    last and the call of the application from the second to the third. *)
Definition in_order (l : labels) : Prop := f1 l <= f2 l /\ f2 l <= f3 l /\ f3 l <= f4 l.
Definition body (l : labels) (addr : Z) : Prop := f1 l <= addr <= f4 l.
Definition call_site (l : labels) (addr : Z) : Prop := f2 l <= addr <= f3 l.

Theorem C50_tests : forall m t addr, in_order m -> in_order t ->
  (unwind_process_bottom_frame m addr = true <-> body m addr) /\
  (unwind_thread_bottom_frame t addr = true <-> body t addr) /\
  (in_start_func_wide m t addr = true <-> body m addr \/ body t addr) /\
  (in_start_func_narrow m t addr = true <-> call_site m addr \/ call_site t addr) /\
  (in_start_func_narrow m t addr = true -> in_start_func_wide m t addr = true).
Proof.
  unfold in_order, body, call_site, unwind_process_bottom_frame, unwind_thread_bottom_frame,
    in_start_func_wide, in_start_func_narrow, in_main_start_func_wide, in_main_start_func_narrow.
  intros m t addr Hm Ht.
  rewrite ?orb_true_iff, ?andb_true_iff, ?Z.leb_le. lia.
Qed.
Print Assumptions C50_tests.

(** The process and the thread test never accept the same address when the functions do
    not overlap. *)
Theorem C50_disjoint : forall m t addr, f4 m < f1 t \/ f4 t < f1 m ->
  unwind_process_bottom_frame m addr = true -> unwind_thread_bottom_frame t addr = false.
Proof.
  unfold unwind_process_bottom_frame, unwind_thread_bottom_frame. intros m t addr H H1.
  apply andb_true_iff in H1. rewrite !Z.leb_le in H1. apply andb_false_iff.
  rewrite !Z.leb_gt. lia.
Qed.
Print Assumptions C50_disjoint.

(** Without the thread module: the same for the main function, and no address is in a
    thread. *)
Theorem C50_weak : forall m addr, in_order m ->
  (weak_in_start_func_wide m addr = true <-> body m addr) /\
  (weak_in_start_func_narrow m addr = true <-> call_site m addr) /\
  weak_unwind_thread_bottom_frame addr = false.
Proof.
  unfold in_order, body, call_site, weak_in_start_func_wide, weak_in_start_func_narrow,
    in_main_start_func_wide, in_main_start_func_narrow, weak_unwind_thread_bottom_frame.
  intros m addr Hm. rewrite !andb_true_iff, !Z.leb_le. lia.
Qed.
Print Assumptions C50_weak.

Example C50_example :
  let m := mklabels 1000 1040 1050 1090 in let t := mklabels 5000 5100 5110 5160 in
  in_order m /\ in_order t /\
  in_start_func_narrow m t 5105 = true /\ in_start_func_narrow m t 5005 = false /\
  in_start_func_wide m t 5005 = true /\ in_start_func_wide m t 3000 = false.
Proof. cbv. intuition discriminate. Qed.
