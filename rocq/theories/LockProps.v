(** Properties C24 (spinlock) and C25 (compare_and_swap). *)
From Verif Require Import LockModel LockSpec LockProofs.

(** C24, mutual exclusion: in every execution of any number of threads, at most one
    thread has acquired the lock more often than it has released it. *)
Theorem C24_mutual_exclusion : forall sch s es t u,
  lock_run lock_init sch = (s, es) -> inside t es -> inside u es -> t = u.
Proof.
  intros sch s es t u H Ht Hu. unfold inside in *.
  pose proof (lock_counts sch lock_init s es t H) as Ct.
  pose proof (lock_counts sch lock_init s es u H) as Cu. cbn in Ct, Cu.
  assert (At : in_cs (l_pc s t) = true) by (destruct (in_cs (l_pc s t)); [reflexivity|lia]).
  assert (Au : in_cs (l_pc s u) = true) by (destruct (in_cs (l_pc s u)); [reflexivity|lia]).
  destruct (lock_inv_run sch lock_init s es lock_inv_init H) as [[_ N]|[_ [h N]]].
  - rewrite N in At. discriminate.
  - apply N in At, Au. congruence.
Qed.
Print Assumptions C24_mutual_exclusion.

(** C24, trylock never waits: whatever the others do, its first step returns; a failure
    changes nothing, and it fails exactly when some thread is inside. *)
Theorem C24_trylock : forall sch s es t,
  lock_run lock_init sch = (s, es) -> l_pc s t = PTry ->
  exists s' r, lock_step s t Go = Some (s', LTry r) /\
  ((r = -1 /\ l_val s' = l_val s /\ l_pc s' t = PIdle /\
    (forall u, u <> t -> l_pc s' u = l_pc s u) /\ exists u, inside u es) \/
   (r = 0 /\ l_pc s' t = PHeld /\ forall u, ~ inside u es)).
Proof.
  intros sch s es t H Hp. unfold lock_step. rewrite Hp.
  pose proof (fun u => lock_counts sch lock_init s es u H) as C. cbn in C.
  destruct (lock_inv_run sch lock_init s es lock_inv_init H) as [[V N]|[V [h N]]]; rewrite V; simpl.
  - eexists _, _. split; [reflexivity|]. right. split; [reflexivity|]. split; [apply upd_same|].
    intros u Hu. unfold inside in Hu. specialize (C u). rewrite (N u) in C. lia.
  - eexists _, _. split; [reflexivity|]. left. split; [reflexivity|]. split; [reflexivity|].
    split; [apply upd_same|]. split; [intros u Hu; now apply upd_other|].
    exists h. unfold inside. specialize (C h).
    assert (in_cs (l_pc s h) = true) by now apply N. rewrite H0 in C. lia.
Qed.
Print Assumptions C24_trylock.

(** C24, a free lock can be taken: when no thread is inside, a waiting thread gets it by
    its own next two steps. *)
Theorem C24_free_lock : forall sch s es t,
  lock_run lock_init sch = (s, es) -> (forall u, ~ inside u es) -> l_pc s t = PTest ->
  exists s', lock_run s [(t, Go); (t, Go)] = (s', [(t, LNone); (t, LLocked)]).
Proof.
  intros sch s es t H Hfree Hp.
  pose proof (fun u => lock_counts sch lock_init s es u H) as C. cbn in C.
  destruct (lock_inv_run sch lock_init s es lock_inv_init H) as [[V N]|[V [h N]]].
  - unfold lock_run, lock_step. rewrite Hp, V. cbn. rewrite upd_same. cbn. eexists. reflexivity.
  - exfalso. apply (Hfree h). unfold inside. specialize (C h).
    assert (in_cs (l_pc s h) = true) by now apply N. rewrite H0 in C. lia.
Qed.
Print Assumptions C24_free_lock.

(** Three threads: 1 takes the lock, 2 spins, 3's trylock fails, 1 unlocks, 2 gets it. *)
Example C24_example :
  snd (lock_run lock_init [(1, CallLock); (2, CallLock); (1, Go); (2, Go); (1, Go); (2, Go); (3, CallTry);
         (3, Go); (1, CallUnlock); (1, Go); (2, Go); (2, Go)]) =
  [(1, LNone); (2, LNone); (1, LNone); (2, LNone); (1, LLocked); (2, LNone); (3, LNone);
   (3, LTry (-1)); (1, LNone); (1, LUnlocked); (2, LNone); (2, LLocked)].
Proof. reflexivity. Qed.

(** C25.  Every execution's trace of calls, stores and returns can be marked with one
    instant per completed compare_and_swap, between its call and its return, such that
    executing the marks and stores in this order on an atomic register gives exactly the
    returned values, and the final memory. *)
Theorem C25_linearisable : forall v sch s tr,
  cas_run (cas_init v) sch = (s, tr) ->
  exists marked, external marked = tr /\
    atomic_ok v marked /\ atomic_val v marked = m_val s /\
    forall t, thread_ok t CNone marked.
Proof.
  intros v sch s tr H. exists (mark_run (cas_init v) sch).
  rewrite mark_external, H. split; [reflexivity|].
  destruct (run_atomic sch (cas_init v) (cas_inv_init v)) as [H1 H2]. rewrite H in H2.
  split; [exact H1|]. split; [exact H2|].
  intros t. exact (run_thread t sch (cas_init v)).
Qed.
Print Assumptions C25_linearisable.

(** A thread that runs alone gets through: a compare_and_swap that nobody disturbs
    returns the old value after three accesses at most and has stored the new one if it
    should; one that was disturbed before returns too. *)
Definition three_accesses (t : Z) : list (Z * cact) :=
  [(t, ActGo false); (t, ActGo false); (t, ActGo false); (t, ActRet)].
Theorem C25_alone : forall s t old new,
  m_pc s t = CIdle ->
  let '(s', tr) := cas_run s ((t, ActCall old new) :: three_accesses t) in
  tr = [VCall t old new; VRet t (m_val s)] /\ m_pc s' t = CIdle /\
  m_val s' = if m_val s =? old then new else m_val s.
Proof.
  intros s t old new H. unfold three_accesses. cbn [cas_run]. unfold cas_step.
  rewrite H. cbn [m_val m_res m_pc]. rewrite upd_same.
  destruct (m_val s =? old) eqn:E; cbn [m_val m_res m_pc]; rewrite ?upd_same;
    cbn [andb negb m_val m_res m_pc]; rewrite ?upd_same; cbn [m_val m_res m_pc app]; rewrite ?upd_same; auto.
Qed.
Print Assumptions C25_alone.
Theorem C25_resumed : forall s t, m_pc s t <> CIdle ->
  exists s' r, cas_run s (three_accesses t) = (s', [VRet t r]) /\ m_pc s' t = CIdle.
Proof.
  intros s t H. unfold three_accesses.
  destruct (m_pc s t) as [|old new|old new prev|prev] eqn:E; [contradiction| | |].
  - cbn [cas_run]. unfold cas_step. rewrite E. cbn [m_val m_res m_pc]. rewrite upd_same.
    destruct (m_val s =? old); cbn [m_val m_res m_pc]; rewrite ?upd_same;
      cbn [andb negb m_val m_res m_pc]; rewrite ?upd_same; cbn [m_val m_res m_pc app];
      eexists _, _; (split; [reflexivity|]); cbn [m_pc]; now rewrite upd_same.
  - cbn [cas_run]. unfold cas_step. rewrite E. destruct (m_res s t); cbn [andb negb m_val m_res m_pc];
      rewrite ?upd_same; cbn [m_val m_res m_pc].
    + eexists _, _. split; [reflexivity|]. cbn [m_pc]. now rewrite upd_same.
    + destruct (m_val s =? old); cbn [m_val m_res m_pc]; rewrite ?upd_same;
        cbn [andb negb m_val m_res m_pc]; rewrite ?upd_same; cbn [m_val m_res m_pc app];
        eexists _, _; (split; [reflexivity|]); cbn [m_pc]; now rewrite upd_same.
  - cbn [cas_run]. unfold cas_step. rewrite E. eexists _, _. split; [reflexivity|].
    cbn [m_pc]. now rewrite upd_same.
Qed.
Print Assumptions C25_resumed.

(** Thread 1 loads, thread 2 swaps in between, thread 1's store fails and it sees 2's
    value; thread 2 had one spurious failure. *)
Example C25_example :
  cas_run (cas_init 0) [(1, ActCall 0 5); (1, ActGo false); (2, ActCall 0 7); (2, ActGo false);
    (2, ActGo true); (2, ActGo false); (2, ActGo false); (1, ActGo false); (1, ActGo false);
    (2, ActRet); (1, ActRet)] =
  (mkcstate 7 (m_res (fst (cas_run (cas_init 0) [(1, ActCall 0 5); (1, ActGo false); (2, ActCall 0 7); (2, ActGo false);
    (2, ActGo true); (2, ActGo false); (2, ActGo false); (1, ActGo false); (1, ActGo false);
    (2, ActRet); (1, ActRet)])))
    (m_pc (fst (cas_run (cas_init 0) [(1, ActCall 0 5); (1, ActGo false); (2, ActCall 0 7); (2, ActGo false);
    (2, ActGo true); (2, ActGo false); (2, ActGo false); (1, ActGo false); (1, ActGo false);
    (2, ActRet); (1, ActRet)]))),
   [VCall 1 0 5; VCall 2 0 7; VRet 2 0; VRet 1 7]).
Proof. reflexivity. Qed.
