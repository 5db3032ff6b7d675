(** C77: init_thread_support comes once, before the first thread; monitor_is_threaded. *)
From Verif Require Import LifeSupOnce LifeSupSpec LifeCreate LifeThreadProps.

Local Open Scope Z_scope.

(** *** C77 *)

(** init_thread_support is called at most once, in a process and the children it
    becomes.  Partial: see [flag_alone]. *)
Theorem C77_once_partial : forall dyn s,
  reach dyn flag_alone s -> (count is_support (s_tr s) <= 1)%nat.
Proof. exact once2. Qed.

(** It has returned before the first pre_create callback, before the first monitored
    thread is made and before the first init_thread.  Partial: see [support_alone]. *)
Theorem C77_before_partial : forall dyn s a e b,
  reach dyn support_alone s ->
  s_tr s = a ++ e :: b ->
  (exists t k, e = ECall t (CbPreCreate k)) \/ (exists t q u, e = ECreate t q u true) \/
  (exists t k d, e = ECall t (CbInitThread k d)) ->
  exists t v, In (ERet t CbThreadSupport v) b.
Proof.
  intros dyn s a e b R E C.
  assert (RC : reach dyn clean_forks s) by (eapply reach_weaken; [|exact R]; intros ? ? ? X; apply X).
  assert (RA : reach dyn any s) by (eapply reach_weaken; [|exact R]; intros; exact I).
  pose proof (pre_reach _ _ R) as P.
  assert (K : forall t k v a' b', s_tr s = a' ++ ERet t (CbPreCreate k) v :: b' ->
                exists w x, In (ERet w CbThreadSupport x) b').
  { intros t k v a' b' E'. pose proof (ret_after_call _ _ RA _ _ _ E') as Q. cbn in Q.
    apply in_split in Q. destruct Q as (b1 & b2 & ->).
    destruct (P (a' ++ ERet t (CbPreCreate k) v :: b1) t k b2) as (w & x & J).
    - rewrite E', <- app_assoc. reflexivity.
    - exists w, x. apply in_or_app. right. now right. }
  assert (K2 : forall t k v, In (ERet t (CbPreCreate k) v) b -> exists w x, In (ERet w CbThreadSupport x) b).
  { intros t k v J. apply in_split in J. destruct J as (b1 & b2 & ->).
    destruct (K t k v (a ++ e :: b1) b2) as (w & x & J).
    - rewrite E, <- app_assoc. reflexivity.
    - exists w, x. apply in_or_app. right. now right. }
  destruct C as [(t & k & ->)|[(t & q & u & ->)|(t & k & d & ->)]].
  - now apply (P a t k b).
  - destruct (cre_hist _ _ RA _ _ _ E) as (d & _ & J). now apply (K2 _ _ _ J).
  - destruct (C34_handover_partial dyn s RC) as [H _]. destruct (H _ _ _ _ _ E) as (_ & c & q & _ & J).
    now apply (K2 _ _ _ J).
Qed.

(** monitor_is_threaded answers 1 only if the process has called pthread_create since
    it started or was forked, and 0 only if no thread has been made and no call of
    pthread_create has returned since.  Partial: see [outside_create]. *)
Theorem C77_threaded_partial : forall dyn s a t r b,
  reach dyn outside_create s ->
  s_tr s = a ++ EQuery t QThreaded r :: b ->
  (r = 1 /\ exists w q, In (ECreateCall w q) (image b)) \/
  (r = 0 /\ forall e, In e (image b) -> ~ created e).
Proof. intros dyn s a t r b R E. exact (ask_reach _ _ R _ _ _ _ E). Qed.

(** The executable forms of the conditions. *)
Definition is_create (c : choice) : bool := match c with CCall (ACreate _ _ _) => true | _ => false end.
Definition alone_b (s : state) (t : Z) (c : choice) : bool :=
  clean_b s t c &&
  (negb (existsb asking (th_stack (s_th s t))) ||
   negb (is_create c || match c with CCall APthreadExit | CCancel => true | _ => false end)).
Definition flag_b (s : state) (t : Z) (c : choice) : bool :=
  clean_b s t c && (negb (existsb at_flag (th_stack (s_th s t))) || negb (is_create c)).
Definition outside_b (s : state) (t : Z) (c : choice) : bool :=
  clean_b s t c && match c with CChild => negb (existsb entering (th_stack (s_th s t))) | _ => true end.

Lemma alone_b_ok s t c : alone_b s t c = true -> support_alone s t c.
Proof.
  intros H. apply andb_prop in H. destruct H as [H1 H2]. split; [now apply clean_b_ok|].
  intros A. rewrite A in H2. cbn [negb orb] in H2. apply Bool.negb_true_iff in H2.
  repeat split; intros; intros ->; discriminate H2.
Qed.
Lemma flag_b_ok s t c : flag_b s t c = true -> flag_alone s t c.
Proof.
  intros H. apply andb_prop in H. destruct H as [H1 H2]. split; [now apply clean_b_ok|].
  intros A. rewrite A in H2. cbn [negb orb] in H2. apply Bool.negb_true_iff in H2.
  intros st ar ra ->. discriminate H2.
Qed.
Lemma outside_b_ok s t c : outside_b s t c = true -> outside_create s t c.
Proof.
  intros H. apply andb_prop in H. destruct H as [H1 H2]. split; [now apply clean_b_ok|].
  intros ->. now apply Bool.negb_true_iff in H2.
Qed.

(** Main creates a thread, which creates another; a signal handler interrupts the
    callback; main forks and the child creates a third. *)
Definition three : list (Z * choice) :=
  to_main ++ [(1, CCall (ACreate 10 11 99))] ++ ticks 1 7 ++ [(1, CSignal); (1, CRet 0)] ++
  [(1, CRet 0)] ++ ticks 1 1 ++ [(1, CRet 5)] ++
  ticks 1 9 ++ [(1, CRet 0); (1, COk)] ++ ticks 1 1 ++ [(1, CRet 0)] ++ ticks 1 2 ++
  enter 2 6 ++ create2 2 20 21 7 ++ enter 3 8 ++ fork_child 1 3 4 ++ create2 1 30 31 9.

Example C77_example : exists s,
  reach false support_alone s /\ reach false flag_alone s /\
  count is_support (s_tr s) = 1%nat /\
  In (ECreate 1 (mkcreq 0 10 11 99) 2 true) (s_tr s) /\ In (ECreate 2 (mkcreq 1 20 21 99) 3 true) (s_tr s) /\
  In (ECreate 1 (mkcreq 2 30 31 99) 4 true) (s_tr s) /\ In (ECall 2 (CbInitThread 1 5)) (s_tr s).
Proof.
  eexists. split; [|split; [|split]].
  - apply (run_ok_reach false support_alone alone_b three alone_b_ok init); [apply reach_init|].
    vm_compute. reflexivity.
  - apply (run_ok_reach false flag_alone flag_b three flag_b_ok init); [apply reach_init|].
    vm_compute. reflexivity.
  - vm_compute. reflexivity.
  - vm_compute. tauto.
Qed.

(** 0 in main() before threads, 1 after, 0 in the child, 1 after the child's own
    pthread_create. *)
Example C77_threaded_example : exists s,
  reach false outside_create s /\
  filter (fun e => match e with EQuery _ _ _ => true | _ => false end) (s_tr s) =
  [EQuery 1 QThreaded 1; EQuery 1 QThreaded 0; EQuery 1 QThreaded 1; EQuery 1 QThreaded 0].
Proof.
  eexists. split.
  - apply (run_ok_reach false outside_create outside_b
      (to_main ++ ask 1 QThreaded ++ create1 1 10 11 5 ++ ask 1 QThreaded ++ fork_child 1 3 4 ++
       ask 1 QThreaded ++ create2 1 30 31 9 ++ ask 1 QThreaded) outside_b_ok init); [apply reach_init|].
    vm_compute. reflexivity.
  - vm_compute. reflexivity.
Qed.

(** Refuted for a process image: a child whose parent had threads creates its own, and
    init_thread_support is not called in it. *)
Theorem C77_child_refuted : exists l s,
  run false init l = Some s /\
  In (ECreate 1 (mkcreq 1 30 31 99) 3 true) (image (s_tr s)) /\ count is_support (image (s_tr s)) = 0%nat.
Proof.
  exists (to_main ++ create1 1 10 11 5 ++ enter 2 6 ++ fork_child 1 3 4 ++ create2 1 30 31 9).
  eexists. split; [vm_compute; reflexivity|]. split; [vm_compute; tauto|vm_compute; reflexivity].
Qed.

(** Refuted if the callback itself creates a thread: pre_create and the thread's
    init_thread come before init_thread_support has returned. *)
Theorem C77_create_in_callback_refuted : exists l s,
  run false init l = Some s /\
  In (ECall 2 (CbInitThread 1 7)) (s_tr s) /\ (forall t v, ~ In (ERet t CbThreadSupport v) (s_tr s)).
Proof.
  exists (to_main ++ [(1, CCall (ACreate 10 11 99))] ++ ticks 1 7 ++ create2 1 20 21 7 ++ enter 2 6).
  eexists. split; [vm_compute; reflexivity|]. split; [vm_compute; tauto|].
  intros t v I. vm_compute in I. repeat (destruct I as [I|I]; [discriminate I|]). exact I.
Qed.

(** Refuted if main leaves the callback by pthread_exit: a destructor of its
    thread-specific data then creates a monitored thread. *)
Theorem C77_exit_in_callback_refuted : exists l s,
  run false init l = Some s /\
  In (ECreate 1 (mkcreq 1 20 21 99) 2 true) (s_tr s) /\ (forall t v, ~ In (ERet t CbThreadSupport v) (s_tr s)).
Proof.
  exists (to_main ++ [(1, CCall (ACreate 10 11 99))] ++ ticks 1 7 ++ [(1, CCall APthreadExit)] ++ ticks 1 5 ++
    [(1, CRet 0)] ++ ticks 1 12 ++ [(1, CRet 0)] ++ ticks 1 2 ++ create2 1 20 21 7).
  eexists. split; [vm_compute; reflexivity|]. split; [vm_compute; tauto|].
  intros t v I. vm_compute in I. repeat (destruct I as [I|I]; [discriminate I|]). exact I.
Qed.

(** "Once" refuted if code that interrupts main between its test of the flag and its
    setting it creates a thread: an unmonitored thread calls exit(), the shootdown
    signal hits main there, and the client's fini_thread creates a thread. *)
Theorem C77_twice_refuted : exists l s,
  run false init l = Some s /\ count is_support (s_tr s) = 2%nat /\
  (forall t, ~ In (EFork t) (s_tr s)).
Proof.
  exists (to_main ++ [(1, CCall ADisable); (1, CStep); (1, CCall (ACreate 20 21 99))] ++ ticks 1 4 ++ [(1, COk)] ++
    ticks 1 1 ++ ticks 2 1 ++ [(1, CCall AEnable); (1, CStep)] ++ [(1, CCall (ACreate 10 11 99))] ++ ticks 1 5 ++
    [(2, CCall AExit)] ++ ticks 2 4 ++ [(2, CRet 0)] ++ ticks 2 20 ++
    [(1, CShoot)] ++ ticks 1 5 ++ create1 1 30 31 5 ++ [(1, CRet 0)] ++ ticks 1 3).
  eexists. split; [vm_compute; reflexivity|]. split; [vm_compute; reflexivity|].
  intros t I. vm_compute in I. repeat (destruct I as [I|I]; [discriminate I|]). exact I.
Qed.

(** "Before" refuted for a child forked by another thread in the middle: main has set
    the flag and not yet made the call when an unmonitored thread forks.  The child
    creates monitored threads, and init_thread_support is never called. *)
Theorem C77_fork_in_window_refuted : exists l s,
  run false init l = Some s /\
  In (ECreate 2 (mkcreq 2 30 31 99) 3 true) (s_tr s) /\ count is_support (s_tr s) = 0%nat.
Proof.
  exists (to_main ++ [(1, CCall ADisable); (1, CStep); (1, CCall (ACreate 20 21 99))] ++ ticks 1 4 ++ [(1, COk)] ++
    ticks 1 1 ++ ticks 2 1 ++ [(1, CCall AEnable); (1, CStep)] ++ [(1, CCall (ACreate 10 11 99))] ++ ticks 1 6 ++
    fork_child 2 3 4 ++ create2 2 30 31 9).
  eexists. split; [vm_compute; reflexivity|]. split; [vm_compute; tauto|vm_compute; reflexivity].
Qed.

(** monitor_is_threaded: refuted for a fork in a handler at the first step of
    pthread_create: 1 in a child that never calls pthread_create itself. *)
Theorem C77_threaded_fork_refuted : exists l s,
  run false init l = Some s /\
  In (EQuery 1 QThreaded 1) (image (s_tr s)) /\ (forall w q, ~ In (ECreateCall w q) (image (s_tr s))).
Proof.
  exists (to_main ++ [(1, CCall (ACreate 10 11 99)); (1, CSignal)] ++ fork_child 1 3 4 ++
    [(1, CRet 0)] ++ ticks 1 1 ++ [(1, CSignal)] ++ ask 1 QThreaded).
  eexists. split; [vm_compute; reflexivity|]. split; [vm_compute; tauto|].
  intros w q I. vm_compute in I. repeat (destruct I as [I|I]; [discriminate I|]). exact I.
Qed.

Print Assumptions C77_once_partial.
Print Assumptions C77_before_partial.
Print Assumptions C77_threaded_partial.
Print Assumptions C77_child_refuted.
Print Assumptions C77_create_in_callback_refuted.
Print Assumptions C77_exit_in_callback_refuted.
Print Assumptions C77_twice_refuted.
Print Assumptions C77_fork_in_window_refuted.
Print Assumptions C77_threaded_fork_refuted.
