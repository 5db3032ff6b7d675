(** Theorems on fini_thread and on the freeze of the thread list: C35, C36. *)
From Verif Require Import LifeFreeze.

Local Open Scope Z_scope.

(** *** C35 *)

(** fini_thread in a created thread is issued only after its init_thread returned,
    with the value it returned -- or in the thread that runs the exit callbacks, which
    may still be inside its init_thread; it then has the data pre_create returned.
    Partial: the exception, and the assumptions of [orderly]. *)
Theorem C35_order_data_partial : forall dyn s a t d b,
  reach dyn orderly s ->
  s_tr s = a ++ ECall t (CbFiniThread d) :: b -> t <> MAIN ->
  (exists k d', In (ERet t (CbInitThread k d') d) b) \/
  (In (EWin t) b /\ (exists k, In (EReg t k) b) /\
   exists c q, In (ECreate c q t true) b /\ In (ERet c (CbPreCreate (q_id q)) d) b).
Proof. intros dyn s a t d b R E NM. exact (fini_hist _ _ R a _ b E NM). Qed.

(** It is issued at most once in every thread, main included.  Partial: no signal is
    delivered between the test and the setting of the thread's flag, and [orderly]. *)
Theorem C35_once_partial : forall dyn s t,
  reach dyn fini_safe s -> (count (fini_thread_of t) (s_tr s) <= 1)%nat.
Proof. intros dyn s t R. now apply (fini_once_all dyn). Qed.

(** A thread that runs to its end while another is shot down by the exit of main. *)
Definition two_threads : list (Z * choice) :=
  to_main ++ create1 1 10 11 5 ++ enter 2 6 ++ create2 1 20 21 7 ++ enter 3 8.
(** Main exits, up to its first signal to a thread. *)
Definition shoot_first (t : Z) : list (Z * choice) := win t ++ [(t, CRet 0)] ++ ticks t 9.
(** A shot thread runs its handler. *)
Definition shot (u : Z) : list (Z * choice) := [(u, CShoot)] ++ ticks u 5 ++ [(u, CRet 0)] ++ ticks u 1.

Example C35_case : exists s a b,
  reach false fini_safe s /\
  s_tr s = a ++ ECall 3 (CbFiniThread 8) :: b /\ In (ECall 2 (CbFiniThread 6)) b /\
  In (ERet 3 (CbInitThread 2 7) 8) b /\ In (EWin 1) b /\ ~ In (EWin 1) (skipn 12 b).
Proof.
  assert (X : exists s, run_ok safe_b false init (two_threads ++ leave 2 ++ shoot_first 1 ++ shot 3) = Some s /\
    exists a b, s_tr s = a ++ ECall 3 (CbFiniThread 8) :: b /\ In (ECall 2 (CbFiniThread 6)) b /\
      In (ERet 3 (CbInitThread 2 7) 8) b /\ In (EWin 1) b /\ ~ In (EWin 1) (skipn 12 b)).
  { eexists. split; [vm_compute; reflexivity|]. cbn [s_tr]. exists [ERet 3 (CbFiniThread 8) 0]. eexists.
    split; [reflexivity|]. vm_compute. intuition discriminate. }
  destruct X as (s & E & a & b & A). exists s, a, b. split; [eapply safe_run; exact E|exact A].
Qed.

(** Refuted: the shootdown signal arrives in the cleanup handler, between the test of
    the flag and its setting: fini_thread runs twice in the same thread. *)
Theorem C35_once_refuted : exists dyn l s,
  run dyn init l = Some s /\ count (fini_thread_of 2) (image (s_tr s)) = 2%nat.
Proof.
  exists false, (to_main ++ create1 1 10 11 5 ++ enter 2 6 ++ [(2, CRet 0)] ++ ticks 2 2 ++ shoot_first 1 ++
    shot 2 ++ ticks 2 3).
  eexists. split; [vm_compute; reflexivity|]. vm_compute. reflexivity.
Qed.

(** Refuted: init_thread calls exit: fini_thread is issued in the same thread although
    its init_thread has not returned, with the data pre_create returned. *)
Theorem C35_after_init_refuted : exists dyn l s,
  run dyn init l = Some s /\
  hd_error (s_tr s) = Some (ECall 2 (CbFiniThread 5)) /\ In (ECall 2 (CbInitThread 1 5)) (s_tr s) /\
  (forall k d v, ~ In (ERet 2 (CbInitThread k d) v) (s_tr s)).
Proof.
  exists false, (to_main ++ create1 1 10 11 5 ++ register 2 ++ win 2 ++ [(2, CRet 0)] ++ ticks 2 11 ++ [(2, CGiveUp)] ++ ticks 2 3).
  eexists. split; [vm_compute; reflexivity|]. split; [vm_compute; reflexivity|]. split; [vm_compute; tauto|].
  intros k d v. vm_compute. intuition discriminate.
Qed.

(** *** C36 *)

(** A monitored thread that has no number when exit freezes the thread list never
    gets one, and it runs neither init_thread nor its start routine; in all schedules. *)
Theorem C36_no_late_start : forall dyn l s a w b c q t,
  run dyn init l = Some s ->
  s_tr s = a ++ EFreeze w :: b ->
  In (ECreate c q t true) (s_tr s) -> (forall k, ~ In (EReg t k) b) ->
  (forall k, ~ In (EReg t k) (s_tr s)) /\
  (forall k d, ~ In (ECall t (CbInitThread k d)) (s_tr s)) /\
  (forall st ar, ~ In (EStart t st ar) (s_tr s)).
Proof.
  intros dyn l s a w b c q t H E CR NR. apply reach_run in H. pose proof (reg_hist _ _ H) as HH.
  assert (NG : forall k, ~ In (EReg t k) (s_tr s)).
  { intros k I. rewrite E in I. apply in_app_or in I. destruct I as [I|[I|I]]; [|discriminate I|exact (NR k I)].
    destruct (in_split _ _ I) as (x & y & ->). rewrite <- app_assoc in E. cbn in E.
    pose proof (HH _ _ _ E) as J. cbn in J. apply (J w). apply in_or_app. right. now left. }
  split; [exact NG|]. split.
  - intros k d I. destruct (in_split _ _ I) as (x & y & E2). destruct (HH _ _ _ E2) as (k' & J).
    apply (NG k'). rewrite E2. apply in_or_app. right. now right.
  - intros st ar I. destruct (in_split _ _ I) as (x & y & E2). destruct (HH _ _ _ E2) as [(c' & q' & J)|(k' & J)].
    + assert (J' : In (ECreate c' q' t false) (s_tr s)) by (rewrite E2; apply in_or_app; right; now right).
      destruct (one_create dyn s t c q true c' q' false H CR J') as (_ & _ & X). discriminate X.
    + apply (NG k'). rewrite E2. apply in_or_app. right. now right.
Qed.

(** Nor does it run fini_thread.  Partial: the assumptions of [orderly]. *)
Theorem C36_no_late_fini_partial : forall dyn s a w b t,
  reach dyn orderly s ->
  s_tr s = a ++ EFreeze w :: b -> t <> MAIN -> (forall k, ~ In (EReg t k) b) ->
  forall d, ~ In (ECall t (CbFiniThread d)) (s_tr s).
Proof.
  intros dyn s a w b t R E NM NR d I. pose proof (orderly_any _ _ R) as RA. pose proof (reg_hist _ _ RA) as HH.
  assert (NG : forall k, ~ In (EReg t k) (s_tr s)).
  { intros k J. rewrite E in J. apply in_app_or in J. destruct J as [J|[J|J]]; [|discriminate J|exact (NR k J)].
    destruct (in_split _ _ J) as (x & y & ->). rewrite <- app_assoc in E. cbn in E.
    pose proof (HH _ _ _ E) as K. cbn in K. apply (K w). apply in_or_app. right. now left. }
  destruct (in_split _ _ I) as (x & y & E2). destruct (fini_hist _ _ R _ _ _ E2 NM) as [(k & d' & J)|(_ & (k & J) & _)].
  - destruct (in_split _ _ J) as (y1 & y2 & ->).
    rewrite app_comm_cons, app_assoc in E2. pose proof (ret_after_call _ _ RA _ _ _ E2) as K. cbn in K.
    destruct (in_split _ _ K) as (z1 & z2 & ->). rewrite app_comm_cons, app_assoc in E2.
    destruct (HH _ _ _ E2) as (k' & G). apply (NG k'). rewrite E2. apply in_or_app. right. now right.
  - apply (NG k). rewrite E2. apply in_or_app. right. now right.
Qed.

(** The list that the exit code walks does not change any more, other than by adding
    main, once.  Partial: the assumptions of [orderly]. *)
Theorem C36_list_partial : forall dyn s s' w,
  reach dyn orderly s -> In (EFreeze w) (s_tr s) -> later dyn orderly s s' ->
  g_list (s_g s') = g_list (s_g s) \/
  (~ In MAIN_TN (g_list (s_g s)) /\ g_list (s_g s') = MAIN_TN :: g_list (s_g s)).
Proof. intros dyn s s' w R F L. exact (list_later _ _ _ _ R F L). Qed.

(** Thread 3 is created, exit begins in thread 2, thread 3 is refused and ends; later
    main is added. *)
Definition refused : list (Z * choice) :=
  to_main ++ create1 1 10 11 5 ++ enter 2 6 ++ create2 1 20 21 7 ++ win 2 ++ [(2, CRet 0)] ++ ticks 2 3.
Example C36_case : exists s s',
  reach false orderly s /\ hd_error (s_tr s) = Some (EFreeze 2) /\ later false orderly s s' /\
  In (ECreate 1 (mkcreq 1 20 21 99) 3 true) (s_tr s) /\ (forall k, ~ In (EReg 3 k) (s_tr s)) /\
  In (EEnd 3) (s_tr s') /\ length (g_list (s_g s)) = 1%nat /\ g_list (s_g s') = MAIN_TN :: g_list (s_g s).
Proof.
  assert (X : exists s, run_ok orderly_b false init refused = Some s /\
    exists s', later_ok orderly_b false s (ticks 2 3 ++ ticks 3 5 ++ [(3, CRet 0)] ++ ticks 3 1) = Some s' /\
    hd_error (s_tr s) = Some (EFreeze 2) /\
    In (ECreate 1 (mkcreq 1 20 21 99) 3 true) (s_tr s) /\ (forall k, ~ In (EReg 3 k) (s_tr s)) /\
    In (EEnd 3) (s_tr s') /\ length (g_list (s_g s)) = 1%nat /\ g_list (s_g s') = MAIN_TN :: g_list (s_g s)).
  { eexists. split; [vm_compute; reflexivity|]. eexists. split; [vm_compute; reflexivity|].
    split; [reflexivity|]. split; [vm_compute; tauto|]. split; [intros k; vm_compute; intuition discriminate|].
    split; [vm_compute; tauto|]. split; reflexivity. }
  destruct X as (s & E & s' & E' & A1 & A2 & A3 & A4 & A5 & A6). exists s, s'. split; [eapply orderly_run; exact E|].
  split; [exact A1|]. split; [eapply later_run; [apply later_now|exact E']|]. tauto.
Qed.
Print Assumptions C35_order_data_partial.
Print Assumptions C35_once_partial.
Print Assumptions C35_case.
Print Assumptions C35_once_refuted.
Print Assumptions C35_after_init_refuted.
Print Assumptions C36_no_late_start.
Print Assumptions C36_no_late_fini_partial.
Print Assumptions C36_list_partial.
Print Assumptions C36_case.
