(** Property C68: monitor_real_execve called by several threads. *)
From Coq Require Import Ascii String.
From Verif Require Import EnvRaceModel EnvRaceSpec EnvRaceProofs ExecSpec ExecProofs.
Import List ListNotations.

(** In every schedule: no access outside the array, although the calls overwrite each
    other's terminator; and the new program is not monitored and gets only variables that
    some caller passed. *)
Theorem C68_safe : forall l t, ~ In (Bad t) (s_hist (run start l)).
Proof. intros l. exact (sf_bad _ (safe_run l start safe_start)). Qed.
Print Assumptions C68_safe.

Theorem C68_no_preload : forall l t got e,
  In (Exec t got) (s_hist (run start l)) -> In e got ->
  sets_preload e = false /\ was_passed (s_hist (run start l)) e.
Proof.
  intros l t got e H He.
  destruct (sf_exec _ (safe_run l start safe_start) t got e H He) as [A B]. split; [|exact B].
  destruct (sets_preload e) eqn:E; [|reflexivity]. apply sets_preload_contains in E. congruence.
Qed.
Print Assumptions C68_no_preload.

(** The caller's own environment: always with more than 248 variables, and otherwise if
    no other such call overlaps. *)
Theorem C68_own_environment_partial : forall l newer t got older env,
  s_hist (run start l) = newer ++ Exec t got :: older -> current older t = Some env ->
  (small env = true -> alone older t) -> got = without_preload env.
Proof. intros l newer t got older env. exact (ex_exec _ (exact_run l) newer t got older env). Qed.
Print Assumptions C68_own_environment_partial.

(** Thread 1's call fails; then thread 2 runs a program, while thread 3 with a large
    environment is in the middle of its own call. *)
Definition A1 : bytes := str "A=1".
Definition B2 : bytes := str "B=2".
Definition PRE : bytes := str "LD_PRELOAD=libmonitor.so".
Definition steps (t : Z) (n : nat) : list (Z * choice) := repeat (t, ChOk) n.
Definition run68 : list (Z * choice) :=
  [(1, ChCall [A1; A1; A1] 4096)] ++ steps 1 8 ++ [(1, ChFail)] ++
  [(2, ChCall [PRE; B2; A1] 4096)] ++ steps 2 2 ++
  [(3, ChCall (repeat A1 249) 4096)] ++ steps 3 20 ++ steps 2 6.
Example C68_example :
  exists older, s_hist (run start run68) = Exec 2 [B2; A1] :: older /\
    current older 2 = Some [PRE; B2; A1] /\ small [PRE; B2; A1] = true /\ alone older 2.
Proof.
  exists [Call 3 (repeat A1 249); Call 2 [PRE; B2; A1]; Fail 1; Call 1 [A1; A1; A1]].
  split; [vm_compute; reflexivity|]. split; [reflexivity|]. split; [reflexivity|].
  cbn [alone]. change (3 =? 2) with false. change (2 =? 2) with true. cbv iota.
  split; [reflexivity|]. intros v Hv (env & E & _). cbn [current] in E.
  destruct (1 =? v); discriminate.
Qed.
(** A large environment needs no such condition. *)
Example C68_example_large :
  exists l older, s_hist (run start l) = Exec 3 (repeat A1 249) :: older /\
    current older 3 = Some (repeat A1 249) /\ small (repeat A1 249) = false.
Proof.
  exists ([(2, ChCall [B2] 4096); (3, ChCall (repeat A1 249) 4096)] ++ steps 3 501).
  eexists. split; [vm_compute; reflexivity|]. split; vm_compute; reflexivity.
Qed.

(** Two overlapping calls: the program that thread 1 starts gets thread 2's variable in
    place of its own. *)
Theorem C68_mixed_refuted : exists l older,
  s_hist (run start l) = Exec 1 [B2; A1] :: older /\ current older 1 = Some [A1; A1].
Proof.
  exists ([(1, ChCall [A1; A1] 4096); (2, ChCall [B2] 4096)] ++ steps 1 3 ++ steps 2 1 ++ steps 1 4).
  eexists. split; vm_compute; reflexivity.
Qed.
Print Assumptions C68_mixed_refuted.

(** And it can lose all of it. *)
Theorem C68_lost_refuted : exists l older,
  s_hist (run start l) = Exec 1 [] :: older /\ current older 1 = Some [A1; A1].
Proof.
  exists ([(1, ChCall [A1; A1] 4096); (2, ChCall [] 4096)] ++ steps 1 3 ++ steps 2 1 ++ steps 1 2).
  eexists. split; vm_compute; reflexivity.
Qed.
Print Assumptions C68_lost_refuted.
