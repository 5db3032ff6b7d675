(** Theorems on threads: C33, C34, C40, C41, C42 and the order of events in
    pthread_create (C44). *)
From Verif Require Import LifeCreate.

Local Open Scope Z_scope.

(** The executable form of [clean_forks], for the examples. *)
Definition clean_b (s : state) (t : Z) (c : choice) : bool :=
  match c with
  | CChild => (t =? MAIN) && negb (existsb creating (th_stack (s_th s t)))
              && negb (existsb resetting (th_stack (s_th s t)))
  | CStep => true
  | _ => negb (existsb resetting (th_stack (s_th s t)))
  end.
Lemma clean_b_ok s t c : clean_b s t c = true -> clean_forks s t c.
Proof.
  unfold clean_b, clean_forks. intros H. split.
  - intros ->. apply andb_prop in H. destruct H as [H _]. apply andb_prop in H. destruct H as [H1 H2].
    apply Z.eqb_eq in H1. apply Bool.negb_true_iff in H2. auto.
  - intros R. rewrite R in H. destruct c; cbn in H; try discriminate H; auto.
    rewrite Bool.andb_false_r in H. discriminate H.
Qed.
Lemma clean_run dyn l s : run_ok clean_b dyn init l = Some s -> reach dyn clean_forks s.
Proof. intros H. eapply run_ok_reach; [exact clean_b_ok|apply reach_init|exact H]. Qed.

(** *** C33 *)

(** In every execution: the numbers handed out so far are 1, 2, 3, ... in this order. *)
Theorem C33_dense : forall dyn l s,
  run dyn init l = Some s ->
  numbers (s_tr s) = map Z.of_nat (seq 1 (length (numbers (s_tr s)))).
Proof. exact numbers_in_order. Qed.

(** In every execution: a thread gets at most one number, and different threads get
    different numbers, from 1 up. *)
Theorem C33_unique : forall dyn l s,
  run dyn init l = Some s ->
  (forall t, (count (reg_of t) (s_tr s) <= 1)%nat) /\
  (forall t t' k k', In (EReg t k) (s_tr s) -> In (EReg t' k') (s_tr s) -> (t = t' <-> k = k')) /\
  (forall t k, In (EReg t k) (s_tr s) -> 1 <= k).
Proof.
  intros dyn l s H. split; [|split].
  - intros t. apply (reg_once dyn). now apply reach_run in H.
  - exact (num_unique dyn l s H).
  - intros t k. exact (num_pos dyn l s t k H).
Qed.

(** While the thread lives, up to the return of its fini_thread,
    monitor_get_thread_num() in it answers its number; main is 0.  Partial: forks
    inside pthread_create or outside the main thread are excluded. *)
Theorem C33_stable_partial : forall dyn s a t r b,
  reach dyn clean_forks s ->
  s_tr s = a ++ EQuery t QNum r :: b ->
  (t = MAIN -> r = 0) /\
  (forall k, In (EReg t k) b -> ~ fini_returned t b -> r = k).
Proof.
  intros dyn s a t r b R E. destruct (query_hist _ _ R a _ b E) as (A & B & _).
  split; [intros; now apply A|]. intros k I N. destruct (B k I N) as (_ & _ & _ & _ & X). exact X.
Qed.

Example C33_example : exists s,
  reach false clean_forks s /\
  s_tr s = EQuery 3 QNum 2 :: EQuery 2 QNum 1 :: EQuery MAIN QNum 0 :: skipn 3 (s_tr s) /\
  In (EReg 3 2) (s_tr s) /\ ~ fini_returned 3 (s_tr s) /\ numbers (s_tr s) = [1; 2].
Proof.
  eexists. split; [|split; [|split; [|split]]].
  - apply (clean_run false (to_main ++ create1 1 10 11 5 ++ enter 2 6 ++ create2 2 20 21 7 ++ enter 3 8
      ++ ask 1 QNum ++ ask 2 QNum ++ ask 3 QNum)). vm_compute. reflexivity.
  - vm_compute. reflexivity.
  - vm_compute. tauto.
  - intros (d & v & I). vm_compute in I. repeat (destruct I as [I|I]; [discriminate I|]). exact I.
  - reflexivity.
Qed.

(** Refuted for a forked child: the first thread it creates is number 2 if its
    parent had created one. *)
Theorem C33_child_starts_at_one_refuted : exists dyn l s,
  run dyn init l = Some s /\ numbers (image (s_tr s)) = [2].
Proof.
  exists false, (to_main ++ create1 1 10 11 5 ++ enter 2 6 ++ fork_child 1 3 4 ++ create2 1 10 11 5 ++ enter 3 8).
  eexists. split; vm_compute; reflexivity.
Qed.

(** *** C34 *)

(** init_thread is issued at most once per thread, and so is its start routine; a
    thread is created once; pre_create is answered once per call. *)
Theorem C34_once : forall dyn l s,
  run dyn init l = Some s ->
  (forall t, (count (init_thread_of t) (s_tr s) <= 1)%nat /\ (count (start_of t) (s_tr s) <= 1)%nat) /\
  (forall u c q m c' q' m', In (ECreate c q u m) (s_tr s) -> In (ECreate c' q' u m') (s_tr s) ->
     c = c' /\ q = q' /\ m = m') /\
  (forall i t t' d d', In (ERet t (CbPreCreate i) d) (s_tr s) -> In (ERet t' (CbPreCreate i) d') (s_tr s) ->
     t = t' /\ d = d').
Proof.
  intros dyn l s H. apply reach_run in H. split; [|split].
  - intros t. split; [now apply (init_thread_once dyn)|now apply (start_once dyn)].
  - intros u c q m c' q' m'. now apply (one_create dyn).
  - intros i t t' d d'. now apply (one_pre dyn).
Qed.

(** init_thread in thread t has t's own number and the data pre_create returned for
    the call that created t; the start routine and argument of that call run in t
    only after this init_thread has returned.  Partial: see [clean_forks]. *)
Theorem C34_handover_partial : forall dyn s,
  reach dyn clean_forks s ->
  (forall a t k d b, s_tr s = a ++ ECall t (CbInitThread k d) :: b ->
     In (EReg t k) b /\
     exists c q, In (ECreate c q t true) b /\ In (ERet c (CbPreCreate (q_id q)) d) b) /\
  (forall a t st ar b, s_tr s = a ++ EStart t st ar :: b ->
     exists c q, st = q_start q /\ ar = q_arg q /\
       (In (ECreate c q t false) b \/
        exists d k v, In (ECreate c q t true) b /\ In (ERet c (CbPreCreate (q_id q)) d) b /\
                      In (EReg t k) b /\ In (ERet t (CbInitThread k d) v) b)).
Proof.
  intros dyn s R. split.
  - intros a t k d b E. exact (data_hist _ _ R a _ b E).
  - intros a t st ar b E. exact (data_hist _ _ R a _ b E).
Qed.

Example C34_example : exists s,
  reach false clean_forks s /\
  s_tr s = EStart 2 10 11 :: ERet 2 (CbInitThread 1 5) 6 :: ECall 2 (CbInitThread 1 5) :: skipn 3 (s_tr s).
Proof.
  eexists. split; [apply (clean_run false (to_main ++ create1 1 10 11 5 ++ enter 2 6)); vm_compute; reflexivity|].
  vm_compute. reflexivity.
Qed.

(** Refuted with forks anywhere: a thread that forks inside init_thread, and whose
    child creates a thread and then returns from init_thread, runs the new thread's
    start routine instead of its own. *)
Theorem C34_fork_in_init_thread_refuted : exists dyn l s c q c' q',
  run dyn init l = Some s /\
  In (ECreate c q 2 true) (s_tr s) /\ q_start q = 10 /\
  In (ECreate c' q' 3 true) (s_tr s) /\ q_start q' = 20 /\ In (EStart 2 20 21) (s_tr s).
Proof.
  exists false, (to_main ++ create1 1 10 11 5 ++ register 2 ++
    [(2, CCall AFork); (2, CStep); (2, CRet 0); (2, CChild)] ++ ticks 2 6 ++ [(2, CRet 4)] ++ ticks 2 2 ++
    create2 2 20 21 8 ++ register 3 ++ [(2, CRet 6)] ++ ticks 2 4).
  eexists. exists 1, (mkcreq 0 10 11 99), 2, (mkcreq 1 20 21 99).
  split; [vm_compute; reflexivity|]. vm_compute. tauto.
Qed.

(** *** C40 *)

(** No element is on the thread list or the free list twice or on both; no list
    operation is applied outside its precondition; a node is held by at most one
    thread, from its making to its release, and never while it is on the free
    list.  Partial: see [clean_forks]. *)
Theorem C40_lists_partial : forall dyn s,
  reach dyn clean_forks s ->
  NoDup (g_list (s_g s)) /\ NoDup (g_free (s_g s)) /\
  (forall n, In n (g_free (s_g s)) -> ~ In n (g_list (s_g s))) /\
  g_bad (s_g s) = false /\
  (forall t t' f f' n, In f (th_stack (s_th s t)) -> In f' (th_stack (s_th s t')) ->
     holds n f = true -> holds n f' = true -> t = t') /\
  (forall t f n, In f (th_stack (s_th s t)) -> holds n f = true -> ~ In n (g_free (s_g s))).
Proof.
  intros dyn s R. destruct (nodes_reach _ _ R) as (N & _ & B).
  split; [apply N|]. split; [apply N|]. split; [intros n I; apply (ni_free _ N n I)|]. split; [exact B|]. split.
  - intros t t' f f' n I I' H H'. destruct (ni_own _ N) as (ow & A & _).
    pose proof (held_owned s ow t f n A I H). pose proof (held_owned s ow t' f' n A I' H'). congruence.
  - intros t f n I H. apply (held_alloc s t f n N I H).
Qed.

(** Every node on the list, main's apart, belongs to the registered thread it names. *)
Theorem C40_listed_partial : forall dyn s n,
  reach dyn clean_forks s -> In n (g_list (s_g s)) -> n <> MAIN_TN ->
  existsb resetting (th_stack (s_th s MAIN)) = false ->
  In (EReg (n_self (nd (s_g s) n)) (n_num (nd (s_g s) n))) (s_tr s) /\
  th_tsd (s_th s (n_self (nd (s_g s) n))) = Some n.
Proof.
  intros dyn s n R I NM NR. pose proof (listed_reach _ _ R) as LI.
  destruct (li_fact _ LI NR n I NM) as ((c & q & d & _ & _ & _ & _ & _ & _ & A & _) & B). auto.
Qed.

Example C40_example : exists s,
  reach false clean_forks s /\ g_list (s_g s) = [2] /\ g_free (s_g s) = [1].
Proof.
  eexists. split; [apply (clean_run false (to_main ++ create1 1 10 11 5 ++ enter 2 6 ++ create2 1 20 21 7 ++ enter 3 8 ++ leave 2)); vm_compute; reflexivity|].
  vm_compute. auto.
Qed.

(** Refuted with forks in other threads: a monitored thread forks; its child has an
    empty list; when its start routine returns it is removed from the list it is
    not on (LIST_REMOVE on stale links). *)
Theorem C40_fork_in_thread_refuted : exists dyn l s,
  run dyn init l = Some s /\ g_bad (s_g s) = true.
Proof.
  exists false, (to_main ++ create1 1 10 11 5 ++ enter 2 6 ++ fork_child 2 3 4 ++ leave 2).
  eexists. split; vm_compute; reflexivity.
Qed.

(** *** C41 *)

(** Main's number is 0.  A registered thread, up to the return of its fini_thread,
    is told its own number, start routine and stack, and as client data what
    pre_create returned for it or, always once its start routine runs, what its
    init_thread returned.  An ignored thread is told -1 and 0.  Partial: see
    [clean_forks]; main's client data is not covered. *)
Theorem C41_queries_partial : forall dyn s a t q r b,
  reach dyn clean_forks s ->
  s_tr s = a ++ EQuery t q r :: b ->
  (t = MAIN -> q = QNum -> r = 0) /\
  (forall k, In (EReg t k) b -> ~ fini_returned t b ->
     exists c q' d, In (ECreate c q' t true) b /\ In (ERet c (CbPreCreate (q_id q')) d) b /\
       match q with
       | QNum => r = k
       | QStart => r = q_start q'
       | QBottom => r = t
       | QThreaded => r = 1
       | QData => (r = d \/ In (ERet t (CbInitThread k d) r) b) /\
                  ((exists x y, In (EStart t x y) b) -> In (ERet t (CbInitThread k d) r) b)
       end) /\
  (forall c q', In (ECreate c q' t false) b ->
     r = match q with QNum => -1 | QThreaded => 1 | _ => 0 end).
Proof.
  intros dyn s a t q r b R E. destruct (query_hist _ _ R a _ b E) as (A & B & C).
  split; [exact A|]. split; [|exact C].
  intros k I N. destruct (B k I N) as (c & q' & d & [M1 M2] & X). exists c, q', d. auto.
Qed.

Example C41_example : exists s,
  reach false clean_forks s /\
  s_tr s = EQuery 3 QData 0 :: EQuery 3 QNum (-1) :: EQuery 2 QStart 10 :: EQuery 2 QData 6 :: skipn 4 (s_tr s) /\
  In (EReg 2 1) (s_tr s) /\ ~ fini_returned 2 (s_tr s) /\ (exists c q, In (ECreate c q 3 false) (s_tr s)).
Proof.
  eexists. split; [|split; [|split; [|split]]].
  - apply (clean_run false (to_main ++ create1 1 10 11 5 ++ enter 2 6 ++ create_ign 2 20 21 ++ ticks 3 1
      ++ ask 2 QData ++ ask 2 QStart ++ ask 3 QNum ++ ask 3 QData)). vm_compute. reflexivity.
  - vm_compute. reflexivity.
  - vm_compute. tauto.
  - intros (d & v & I). vm_compute in I. repeat (destruct I as [I|I]; [discriminate I|]). exact I.
  - exists 2, (mkcreq 1 20 21 99). vm_compute. tauto.
Qed.

(** Refuted after fini_thread: a thread-specific-data destructor of thread 2, whose
    node was released and given to thread 3, is told thread 3's number. *)
Theorem C41_after_fini_refuted : exists dyn l s,
  run dyn init l = Some s /\
  In (EReg 2 1) (s_tr s) /\ In (EReg 3 2) (s_tr s) /\ In (EQuery 2 QNum 2) (s_tr s).
Proof.
  exists false, (to_main ++ create1 1 10 11 5 ++ enter 2 6 ++ leave 2 ++ create3 1 30 31 9 ++ enter 3 8 ++ ask 2 QNum).
  eexists. split; [vm_compute; reflexivity|]. vm_compute. tauto.
Qed.

(** *** C42 *)

(** In every execution: if pre_create returned the ignore value for a call, the
    thread that call creates is an ignored one. *)
Theorem C42_ignore_value : forall dyn l s c q c' u m,
  run dyn init l = Some s ->
  In (ERet c (CbPreCreate (q_id q)) IGNORE_NEW_THREAD) (s_tr s) ->
  In (ECreate c' q u m) (s_tr s) -> m = false.
Proof. intros dyn l s c q c' u m H. apply reach_run in H. now apply (ignore_value dyn). Qed.

(** An ignored thread runs the routine and argument of the call that created it, and
    init_thread and fini_thread are never issued in it.  Partial: see [clean_forks]. *)
Theorem C42_no_callbacks_partial : forall dyn s c q u,
  reach dyn clean_forks s ->
  In (ECreate c q u false) (s_tr s) ->
  (forall k d, ~ In (ECall u (CbInitThread k d)) (s_tr s)) /\
  (forall d, ~ In (ECall u (CbFiniThread d)) (s_tr s)) /\
  (forall st ar, In (EStart u st ar) (s_tr s) -> st = q_start q /\ ar = q_arg q).
Proof. exact ignored_quiet. Qed.

Example C42_example : exists s,
  reach false clean_forks s /\
  s_tr s = EStart 2 20 21 :: skipn 1 (s_tr s) /\
  In (ERet 1 (CbPreCreate 0) IGNORE_NEW_THREAD) (s_tr s) /\
  In (ECreate 1 (mkcreq 0 20 21 99) 2 false) (s_tr s).
Proof.
  eexists. split; [|split; [|split]].
  - apply (clean_run false (to_main ++ [(1, CCall (ACreate 20 21 99))] ++ ticks 1 7 ++ [(1, CRet 0)] ++ ticks 1 1
      ++ [(1, CRet (-1))] ++ ticks 1 1 ++ [(1, COk)] ++ ticks 1 1 ++ ticks 2 1)). vm_compute. reflexivity.
  - vm_compute. reflexivity.
  - vm_compute. tauto.
  - vm_compute. tauto.
Qed.

(** Refuted with forks inside pre_create: in the child the ignored thread is taken
    for main by its own pthread_create, and gets fini_thread when main exits. *)
Theorem C42_fork_in_pre_create_refuted : exists dyn l s q,
  run dyn init l = Some s /\
  In (ECreate 1 q 2 false) (s_tr s) /\ In (ECall 2 (CbFiniThread 4)) (s_tr s).
Proof.
  exists false, (to_main ++
    [(1, CCall (ACreate 10 11 99))] ++ ticks 1 7 ++ [(1, CRet 0)] ++ ticks 1 1 ++
    [(1, CCall AFork); (1, CStep); (1, CRet 0); (1, CChild)] ++ ticks 1 6 ++ [(1, CRet 4)] ++ ticks 1 2 ++
    [(1, CRet (-1))] ++ ticks 1 1 ++ [(1, COk)] ++ ticks 1 1 ++ ticks 2 1 ++
    create2 2 20 21 8 ++ [(1, CCall AExit)] ++ ticks 1 4 ++ [(1, CRet 0)] ++ ticks 1 11 ++
    [(2, CShoot)] ++ ticks 2 5).
  eexists. exists (mkcreq 0 10 11 99). split; [vm_compute; reflexivity|]. vm_compute. tauto.
Qed.

Print Assumptions C33_dense.
Print Assumptions C33_unique.
Print Assumptions C33_stable_partial.
Print Assumptions C33_child_starts_at_one_refuted.
Print Assumptions C34_once.
Print Assumptions C34_handover_partial.
Print Assumptions C34_fork_in_init_thread_refuted.
Print Assumptions C40_lists_partial.
Print Assumptions C40_listed_partial.
Print Assumptions C40_fork_in_thread_refuted.
Print Assumptions C41_queries_partial.
Print Assumptions C41_after_fini_refuted.
Print Assumptions C42_ignore_value.
Print Assumptions C42_no_callbacks_partial.
Print Assumptions C42_fork_in_pre_create_refuted.
