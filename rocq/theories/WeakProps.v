(** Theorems on the spinlock and the exit flags under delayed stores and early loads:
    C71 and C72. *)
From Verif Require Import WeakModel WeakSpec WeakProofs.

(** On every processor that keeps the order of stores, or has the barrier in
    spinlock_unlock, and that keeps the order of loads, or has isync after the lock is
    taken, for any number of threads, any program that uses the protected data only inside
    the lock, and every order in which the stores reach memory and the loads are done: the
    threads are inside one at a time, and whoever is inside reads what was stored last. *)
Theorem C71_lock_publishes : forall a prot m s,
  fifo a = true \/ barrier a = true -> early a = false \/ isync a = true -> prot LOCK = false ->
  wreach a prot m s -> as_one prot m (w_hist s).
Proof. intros a prot m s O L P R. destruct (inv_reach a prot m O L P s R) as [o [_ [_ [_ [_ X]]]]]. exact X. Qed.

(** The processors of spinlock.h and atomic.h for which this holds. *)
Theorem C71_x86 : forall prot m s, prot LOCK = false -> wreach x86 prot m s -> as_one prot m (w_hist s).
Proof. intros. apply (C71_lock_publishes x86); auto. Qed.
Theorem C71_powerpc : forall prot m s, prot LOCK = false -> wreach powerpc prot m s -> as_one prot m (w_hist s).
Proof. intros. apply (C71_lock_publishes powerpc); auto. Qed.

(** When nobody is inside and no store is under way, the lock is free: the next
    compare_and_swap takes it. *)
Theorem C71_free_again : forall a prot m s t,
  fifo a = true \/ barrier a = true -> early a = false \/ isync a = true -> prot LOCK = false ->
  wreach a prot m s -> holder (w_hist s) = None -> (forall u, w_buf s u = []) ->
  exists s', wstep a s (Cas t) = Some s' /\ holder (w_hist s') = Some t.
Proof.
  intros a prot m s t O L P R H B. destruct (inv_reach a prot m O L P s R) as [o [HO [_ [OM _]]]].
  unfold wstep. rewrite (B t).
  assert (E : (if drains a then true else negb (existsb of_lock [])) = true) by (destruct (drains a); reflexivity).
  rewrite E. destruct o as [u|].
  - exfalso. destruct OM as [_ OM]. destruct (w_in s u); [congruence|].
    destruct OM as [b1 [b2 [OM _]]]. rewrite (B u) in OM. destruct b1; discriminate OM.
  - rewrite OM. cbn. eexists. split; [reflexivity|]. reflexivity.
Qed.

(** Running a schedule. *)
Fixpoint wrun (a : arch) (prot : Z -> bool) (s : wstate) (l : list item) : option wstate :=
  match l with
  | [] => Some s
  | i :: l' => if obeys prot s i then match wstep a s i with Some s' => wrun a prot s' l' | None => None end else None
  end.
Lemma wrun_reach a prot m l : forall s s', wreach a prot m s -> wrun a prot s l = Some s' -> wreach a prot m s'.
Proof.
  induction l as [|i l IH]; intros s s' R H; cbn in H; [now inversion H; subst|].
  destruct (obeys prot s i) eqn:E; [|discriminate H]. destruct (wstep a s i) as [s1|] eqn:S; [|discriminate H].
  apply (IH s1); [|exact H]. econstructor; eauto.
Qed.

Lemma wrun_hist a prot m l h : option_map w_hist (wrun a prot (w0 m) l) = Some h ->
  exists s, wreach a prot m s /\ w_hist s = h.
Proof.
  intros H. destruct (wrun a prot (w0 m) l) as [s|] eqn:E; [|discriminate H]. exists s.
  split; [eapply wrun_reach; [constructor|exact E]|]. now inversion H.
Qed.

(** Non-vacuous: on x86 and on powerpc two threads hand the lock and place 5 over,
    with the releasing store late and a store of other data outside the lock. *)
Definition data (x : Z) : bool := 5 <=? x.
Definition hand_over (n : nat) : list item :=
  [Cas 1; Store 1 5 10; Store 1 6 11; Load 1 5; Unlock 1; Store 1 2 3; Load 2 LOCK; Cas 2] ++
  repeat (Flush 1 0) n ++ [Cas 2; Load 2 5; Load 2 6; Store 2 5 20; Unlock 2; Flush 2 0].
Definition expected : list ev :=
  [Rel 2; St 2 5 20; Ld 2 6 11; Ld 2 5 10; Acq 2; St 1 2 3; Rel 1; Ld 1 5 10; St 1 6 11; St 1 5 10; Acq 1].
Example C71_case :
  option_map w_hist (wrun x86 data (w0 (fun _ => 0)) (hand_over 3)) = Some expected /\
  option_map w_hist (wrun powerpc data (w0 (fun _ => 0)) (hand_over 4)) = Some expected /\
  as_one data (fun _ => 0) expected /\
  exists s, wreach x86 data (fun _ => 0) s /\ w_hist s = expected.
Proof.
  split; [vm_compute; reflexivity|]. split; [vm_compute; reflexivity|].
  split; [vm_compute; intuition congruence|].
  apply (wrun_hist _ _ _ (hand_over 3)). vm_compute. reflexivity.
Qed.

(** Non-vacuous with early loads, on powerpc: thread 2 loads place 5 early, before thread 1
    has stored it; thread 1 loads place 6 early while inside.  Thread 2 takes the lock
    later and reads the new value. *)
Definition guess : list item :=
  [Early 2 5; Cas 1; Early 1 6; Store 1 5 10; Load 1 6; Unlock 1] ++ repeat (Flush 1 0) 3 ++
  [Cas 2; Early 2 6; Load 2 5; Load 2 6].
Example C71_early_case : exists s, wreach powerpc data (fun _ => 0) s /\
  w_hist s = [Ld 2 6 0; Ld 2 5 10; Acq 2; Rel 1; Ld 1 6 0; St 1 5 10; Acq 1].
Proof. apply (wrun_hist _ _ _ guess). vm_compute. reflexivity. Qed.

(** Refuted without isync, whatever the stores do: the early load is used inside. *)
Theorem C71_no_isync_refuted : forall a, early a = true -> isync a = false ->
  exists prot m s, prot LOCK = false /\ wreach a prot m s /\ ~ as_one prot m (w_hist s).
Proof.
  intros [f b d e i] E I. cbn in E, I. subst e i. exists data, (fun _ => 0).
  destruct (wrun_hist (mkarch f b d true false) data (fun _ => 0)
    ([Early 2 5; Cas 1; Store 1 5 10; Unlock 1] ++ repeat (Flush 1 0) (if b then 3 else 2) ++ [Cas 2; Load 2 5])
    [Ld 2 5 0; Acq 2; Rel 1; St 1 5 10; Acq 1]) as [s [R H]]; [destruct b, d; vm_compute; reflexivity|].
  exists s. split; [reflexivity|]. split; [exact R|]. rewrite H. vm_compute.
  intros [_ X]. destruct (X eq_refl) as [_ Y]. discriminate Y.
Qed.

(** Refuted where stores are not ordered and compare_and_swap is the GNU builtin: the
    releasing store overtakes the data and the next thread inside reads the old value. *)
Theorem C71_arm_refuted : exists prot m s, prot LOCK = false /\ wreach arm prot m s /\ ~ as_one prot m (w_hist s).
Proof.
  exists data, (fun _ => 0).
  destruct (wrun_hist arm data (fun _ => 0) [Cas 1; Store 1 5 10; Unlock 1; Flush 1 1; Cas 2; Load 2 5]
    [Ld 2 5 0; Acq 2; Rel 1; St 1 5 10; Acq 1]) as [s [R H]]; [vm_compute; reflexivity|].
  exists s. split; [reflexivity|]. split; [exact R|]. rewrite H. vm_compute.
  intros [_ X]. destruct (X eq_refl) as [_ Y]. discriminate Y.
Qed.

(** ** C72 *)

(** Where stores reach memory in order and loads are done in order: once another thread has read the flag as set,
    every load of the thread's data gives what the thread stored last. *)
Theorem C72_hand_over_partial : forall a w F D m s,
  fifo a = true -> early a = false -> D LOCK = false -> F <> LOCK -> D F = false -> m F = 0 ->
  freach a w F D m s -> handed_over w F D m (w_hist s).
Proof. intros a w F D m s O L DL FL DF M0 R. apply (finv_reach a w F D m O L DL FL DF M0 s R). Qed.

(** The same as a statement about two moments of one execution. *)
Theorem C72_reads_latest_partial : forall a w F D m s h1 h2 u u' x v,
  fifo a = true -> early a = false -> D LOCK = false -> F <> LOCK -> D F = false -> m F = 0 ->
  freach a w F D m s -> w_hist s = h1 ++ Ld u' x v :: h2 -> D x = true ->
  u <> w -> In (Ld u F 1) h2 -> v = latest m h2 x.
Proof.
  intros a w F D m s h1 h2 u u' x v O L DL FL DF M0 R E P U J.
  pose proof (C72_hand_over_partial a w F D m s O L DL FL DF M0 R) as H. rewrite E in H. clear E.
  induction h1 as [|e h1 IH]; cbn in H; destruct H as [H1 H2]; [|now apply IH].
  apply H2; [exact P|]. now exists u.
Qed.

Fixpoint frun (a : arch) (w F : Z) (D : Z -> bool) (s : wstate) (l : list item) : option wstate :=
  match l with
  | [] => Some s
  | i :: l' => if obeys_flag w F D s i then match wstep a s i with Some s' => frun a w F D s' l' | None => None end else None
  end.
Lemma frun_reach a w F D m l : forall s s', freach a w F D m s -> frun a w F D s l = Some s' -> freach a w F D m s'.
Proof.
  induction l as [|i l IH]; intros s s' R H; cbn in H; [now inversion H; subst|].
  destruct (obeys_flag w F D s i) eqn:E; [|discriminate H]. destruct (wstep a s i) as [s1|] eqn:S; [|discriminate H].
  apply (IH s1); [|exact H]. econstructor; eauto.
Qed.
Lemma frun_hist a w F D m l h : option_map w_hist (frun a w F D (w0 m) l) = Some h ->
  exists s, freach a w F D m s /\ w_hist s = h.
Proof.
  intros H. destruct (frun a w F D (w0 m) l) as [s|] eqn:E; [|discriminate H]. exists s.
  split; [eapply frun_reach; [constructor|exact E]|]. now inversion H.
Qed.

(** Non-vacuous: thread 1 stores 10 and then 11, and the flag; thread 2 first sees
    neither, later the flag and 11. *)
Example C72_case : exists s, freach x86 1 4 data (fun _ => 0) s /\
  w_hist s = [Ld 2 5 11; Ld 2 4 1; Ld 2 5 10; Ld 2 4 0; St 1 4 1; St 1 5 11; St 1 5 10] /\
  flag_seen 1 4 (w_hist s).
Proof.
  destruct (frun_hist x86 1 4 data (fun _ => 0)
    [Store 1 5 10; Store 1 5 11; Store 1 4 1; Flush 1 0; Load 2 4; Load 2 5; Flush 1 0; Flush 1 0; Load 2 4; Load 2 5]
    [Ld 2 5 11; Ld 2 4 1; Ld 2 5 10; Ld 2 4 0; St 1 4 1; St 1 5 11; St 1 5 10]) as [s [R H]]; [vm_compute; reflexivity|].
  exists s. split; [exact R|]. split; [exact H|]. rewrite H. exists 2. split; [discriminate|]. cbn. auto.
Qed.

(** Refuted on powerpc and ARM: no barrier stands between the data and the flag, nor
    between the loads in the other thread.  The flag can be seen first; or the data can be
    loaded before the flag. *)
Theorem C72_unordered_refuted : forall a, fifo a = false \/ early a = true ->
  exists w F D m s, D LOCK = false /\ F <> LOCK /\ D F = false /\ m F = 0 /\
    freach a w F D m s /\ ~ handed_over w F D m (w_hist s).
Proof.
  intros a A. exists 1, 4, data, (fun _ => 0).
  assert (X : exists s, freach a 1 4 data (fun _ => 0) s /\ w_hist s = [Ld 2 5 0; Ld 2 4 1; St 1 4 1; St 1 5 10]).
  { destruct a as [f b d e i], A as [A|A]; cbn in A; subst.
    - apply (frun_hist _ 1 4 data (fun _ => 0) [Store 1 5 10; Store 1 4 1; Flush 1 1; Load 2 4; Load 2 5]).
      vm_compute; reflexivity.
    - apply (frun_hist _ 1 4 data (fun _ => 0)
        [Early 2 5; Store 1 5 10; Store 1 4 1; Flush 1 0; Flush 1 0; Load 2 4; Load 2 5]).
      vm_compute; reflexivity. }
  destruct X as [s [R H]].
  exists s. split; [reflexivity|]. split; [discriminate|]. split; [reflexivity|]. split; [reflexivity|].
  split; [exact R|]. rewrite H. cbn. intros [_ X]. specialize (X eq_refl).
  assert (FS : flag_seen 1 4 [Ld 2 4 1; St 1 4 1; St 1 5 10]) by (exists 2; split; [discriminate|cbn; auto]).
  apply X in FS. discriminate FS.
Qed.

Print Assumptions C71_lock_publishes.
Print Assumptions C71_x86.
Print Assumptions C71_powerpc.
Print Assumptions C71_free_again.
Print Assumptions C71_case.
Print Assumptions C71_early_case.
Print Assumptions C71_no_isync_refuted.
Print Assumptions C71_arm_refuted.
Print Assumptions C72_hand_over_partial.
Print Assumptions C72_reads_latest_partial.
Print Assumptions C72_case.
Print Assumptions C72_unordered_refuted.
