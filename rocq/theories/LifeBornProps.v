(** C87: a created thread runs its start routine, and ends after it. *)
From Verif Require Import LifeBornSpec LifeBorn LifeCreate LifeThreadProps.

Local Open Scope Z_scope.

(** In every reachable state, wherever a created thread stands in the library's code in
    front of its start routine: if it is on the thread list already, or exit has not
    frozen the list and the lock is free, it enters its start routine in at most 14 steps
    of its own, whatever init_thread returns. *)
Theorem C87_starts : forall dyn s u v,
  reach dyn any s -> in_start s u -> (unlisted s u -> may_start s u) ->
  exists l s', Forall (by_itself v) l /\ (length l <= 14)%nat /\ run dyn s (map (pair u) l) = Some s' /\
  exists x y, In (EStart u x y) (s_tr s') /\ exists r, th_stack (s_th s' u) = FApp AppStart :: r.
Proof.
  intros dyn s u v R S M. destruct (starts dyn u v s (live_lt _ _ _ R (proj1 (proj2 S))) S M) as (l & s' & A & B & C & _ & x & y & T & K).
  exists l, s'. repeat (split; [assumption|]). exists x, y. split; [rewrite T; now left|exact K].
Qed.

(** And it is the routine and the argument that were given to pthread_create.  Partial:
    see [clean_forks]. *)
Theorem C87_routine_partial : forall dyn s u v c q m,
  reach dyn clean_forks s -> In (ECreate c q u m) (s_tr s) -> in_start s u -> (unlisted s u -> may_start s u) ->
  exists l s', Forall (by_itself v) l /\ (length l <= 14)%nat /\ run dyn s (map (pair u) l) = Some s' /\
  In (EStart u (q_start q) (q_arg q)) (s_tr s').
Proof.
  intros dyn s u v c q m R I S M. assert (RA : reach dyn any s) by (eapply reach_weaken; [|exact R]; intros; exact Logic.I).
  destruct (starts dyn u v s (live_lt _ _ _ RA (proj1 (proj2 S))) S M) as (l & s' & A & B & C & RC & x & y & T & K).
  exists l, s'. repeat (split; [assumption|]). specialize (RC R).
  destruct (proj2 (C34_handover_partial dyn s' RC) [] u x y (skipn 1 (s_tr s')) T) as (c' & q' & -> & -> & H).
  assert (IN : exists m', In (ECreate c' q' u m') (s_tr s')).
  { destruct H as [H|(d & k & w & H & _)]; eexists; rewrite T; right; exact H. }
  destruct IN as [m' IN].
  assert (I' : In (ECreate c q u m) (s_tr s')).
  { clear - C I. revert s C I. induction (map (pair u) l) as [|[t0 c0] r IH]; intros s C I; cbn in C; [injection C as <-; exact I|].
    destruct (step dyn s t0 c0) as [s1|] eqn:ST; [|discriminate C]. apply (IH s1 C).
    apply step_view in ST. destruct ST as (_ & _ & V).
    destruct V as [E ->|E ->|E _ _ _ ->|f0 r0 E _ _ _ _ ->|f0 r0 E SK _ _ ->|r0 E SK _ ->|E SK ->|f r0 e SK U BA F ->]; cbn; auto.
    rewrite apply_tr. apply in_or_app. now right. }
  assert (RA' : reach dyn any s') by (eapply reach_weaken; [|exact RC]; intros; exact Logic.I).
  destruct (one_create dyn s' _ _ _ _ _ _ _ RA' I' IN) as (_ & -> & _). rewrite T. now left.
Qed.

(** After its start routine has returned, wherever a thread stands in the library's
    cleanup code, it ends in at most 15 steps of its own if the lock is free or held by
    it; also when exit has begun. *)
Theorem C87_ends : forall dyn s u v,
  reach dyn any s -> ending s u -> lock_ok s u ->
  exists l s', Forall (by_itself v) l /\ (length l <= 15)%nat /\ run dyn s (map (pair u) l) = Some s' /\
  th_live (s_th s' u) = false /\ In (EEnd u) (s_tr s').
Proof.
  intros dyn s u v R S M. destruct (quits_all dyn u v s (live_lt _ _ _ R (proj1 (proj2 S))) S M) as (l & s' & A & B & C & D & T).
  exists l, s'. repeat (split; [assumption|]). rewrite T. now left.
Qed.

(** The condition on exit is needed: main exits while thread 2 has not registered; the
    thread ends, and its start routine has not run. *)
Theorem C87_exit_refuted : exists l s1 q l2 s,
  run false init l = Some s1 /\ in_start s1 2 /\ In (ECreate 1 q 2 true) (s_tr s1) /\ run false s1 l2 = Some s /\
  Forall (fun x => fst x = 2) l2 /\ In (EEnd 2) (s_tr s) /\ g_dead (s_g s) = false /\ forall x y, ~ In (EStart 2 x y) (s_tr s).
Proof.
  exists (to_main ++ create1 1 10 11 5 ++ [(1, CCall AExit)] ++ ticks 1 4 ++ [(1, CRet 0)] ++ ticks 1 4).
  eexists _, _. exists (ticks 2 5 ++ [(2, CRet 0); (2, CStep)]). eexists.
  split; [vm_compute; reflexivity|]. split; [split; [reflexivity|]; split; [reflexivity|]; left; eexists _, _; split; [reflexivity|]; split; discriminate|].
  split; [vm_compute; auto 30|]. split; [vm_compute; reflexivity|].
  split; [repeat constructor|]. split; [vm_compute; auto|]. split; [reflexivity|].
  intros x y I. vm_compute in I. repeat (destruct I as [I|I]; [discriminate I|]). exact I.
Qed.

(** A thread just created; and one whose start routine has returned. *)
Example C87_example :
  (exists s q, reach false clean_forks s /\ In (ECreate 1 q 2 true) (s_tr s) /\ in_start s 2 /\ unlisted s 2 /\ may_start s 2) /\
  (exists s, reach false any s /\ ending s 2 /\ lock_ok s 2).
Proof.
  split.
  - eexists _, _. split; [apply (clean_run false (to_main ++ create1 1 10 11 5)); vm_compute; reflexivity|].
    split; [vm_compute; auto 30|]. split; [split; [reflexivity|]; split; [reflexivity|]; left; eexists _, _; split; [reflexivity|]; split; discriminate|].
    split; [eexists _, _, _; split; [reflexivity|auto]|]. split; [reflexivity|now left].
  - eexists. split; [apply (reach_run false (to_main ++ create1 1 10 11 5 ++ enter 2 6 ++ [(2, CRet 0)])); vm_compute; reflexivity|].
    split; [split; [reflexivity|]; split; [reflexivity|]; left; eexists; reflexivity|]. now left.
Qed.

Print Assumptions C87_starts.
Print Assumptions C87_routine_partial.
Print Assumptions C87_ends.
Print Assumptions C87_exit_refuted.
