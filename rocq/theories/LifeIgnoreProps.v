(** Theorems on monitor_disable_new_threads: the rest of C42. *)
From Verif Require Import LifeIgnore LifeRunB.

Local Open Scope Z_scope.

(** Thread t, main or a thread with a number, has returned from
    monitor_disable_new_threads, then calls pthread_create, and has not returned from
    monitor_enable_new_threads since.  If that call creates a thread, it is an ignored
    one, and the client gets neither pre_create nor post_create for it.
    Partial: the assumptions of [orderly]. *)
Theorem C42_disabled_partial : forall dyn s a e m t q m' b,
  reach dyn orderly s ->
  s_tr s = a ++ e :: m ++ ECreateCall t q :: m' ++ EIgnore t true :: b ->
  ~ In (EIgnore t false) m -> ~ In (EIgnore t false) m' ->
  t = MAIN \/ (exists k, In (EReg t k) b) ->
  (forall u mon, e = ECreate t q u mon -> mon = false) /\
  e <> ECall t (CbPreCreate (q_id q)) /\
  (forall d, e <> ECall t (CbPostCreate (q_id q) d)).
Proof.
  intros dyn s a e m t q m' b R E N N' K. pose proof (dis_hist _ _ R a _ _ E) as J.
  assert (D : disabled_call t q (m ++ ECreateCall t q :: m' ++ EIgnore t true :: b)) by (exists m, m', b; auto).
  split; [|split].
  - intros u mon ->. destruct mon; [|reflexivity]. elim (J D).
  - intros ->. exact (J q eq_refl D).
  - intros d ->. exact (J q eq_refl D).
Qed.

(** Conversely a created thread is ignored only because pre_create returned the ignore
    value for the call that created it; or because, at a moment of that call, its
    creator had disabled new threads; or because its creator is itself neither main nor
    a thread with a number.  Partial: as above. *)
Theorem C42_only_partial : forall dyn s a t q u b,
  reach dyn orderly s ->
  s_tr s = a ++ ECreate t q u false :: b ->
  In (ERet t (CbPreCreate (q_id q)) IGNORE_NEW_THREAD) b \/
  exists ev b', b = ev ++ b' /\ In (ECreateCall t q) b' /\
    (disabled t b' \/ ~ (t = MAIN \/ exists k, In (EReg t k) b')).
Proof.
  intros dyn s a t q u b R E. destruct (dis_hist _ _ R a _ _ E) as [A|[(ev & b' & A)|(ev & b' & A)]]; [now left|right..];
    exists ev, b'; intuition.
Qed.

(** Main disables new threads and creates thread 2, enables them and creates thread 3. *)
Definition disable_enable : list (Z * choice) :=
  to_main ++ [(1, CCall ADisable); (1, CStep); (1, CCall (ACreate 20 21 99))] ++ ticks 1 4 ++ [(1, COk)] ++ ticks 1 1 ++
  ticks 2 1 ++ [(1, CCall AEnable); (1, CStep)] ++ create1 1 30 31 5 ++ enter 3 6.
Example C42_disabled_case : exists s a m b m2 b2,
  reach false orderly s /\
  s_tr s = a ++ ECreate 1 (mkcreq 0 20 21 99) 2 false :: m ++ ECreateCall 1 (mkcreq 0 20 21 99) :: EIgnore 1 true :: b /\
  m = [] /\ In (EStart 2 20 21) a /\
  a = m2 ++ EIgnore 1 false :: b2 /\ In (ECreate 1 (mkcreq 1 30 31 99) 3 true) m2 /\ In (EStart 3 30 31) m2.
Proof.
  assert (X : exists s, run_ok orderly_b false init disable_enable = Some s /\ exists a m b m2 b2,
    s_tr s = a ++ ECreate 1 (mkcreq 0 20 21 99) 2 false :: m ++ ECreateCall 1 (mkcreq 0 20 21 99) :: EIgnore 1 true :: b /\
    m = [] /\ In (EStart 2 20 21) a /\
    a = m2 ++ EIgnore 1 false :: b2 /\ In (ECreate 1 (mkcreq 1 30 31 99) 3 true) m2 /\ In (EStart 3 30 31) m2).
  { eexists. split; [vm_compute; reflexivity|]. cbn [s_tr].
    match goal with |- exists a m b m2 b2, ?l = _ /\ _ => exists (firstn 18 l), [], (skipn 21 l), (firstn 15 l), (firstn 2 (skipn 16 l)) end.
    split; [vm_compute; reflexivity|]. split; [reflexivity|]. split; [vm_compute; tauto|]. split; [vm_compute; reflexivity|]. vm_compute. tauto. }
  destruct X as (s & E & a & m & b & m2 & b2 & A). exists s, a, m, b, m2, b2. split; [eapply orderly_run; exact E|exact A].
Qed.

(** Refuted for the child of a fork: thread 2 disables new threads and forks; the child
    does not inherit this, the thread it creates is monitored. *)
Theorem C42_disabled_fork_refuted : exists dyn l s u,
  run dyn init l = Some s /\ In (EReg 2 1) (s_tr s) /\
  In (EIgnore 2 true) (s_tr s) /\ ~ In (EIgnore 2 false) (s_tr s) /\
  hd_error (s_tr s) = Some (ECreate 2 (mkcreq 1 20 21 99) u true) /\
  In (EFork 2) (s_tr s).
Proof.
  exists false, (to_main ++ create1 1 10 11 5 ++ enter 2 6 ++ [(2, CCall ADisable); (2, CStep)] ++ fork_child 2 0 7 ++
    [(2, CCall (ACreate 20 21 99))] ++ ticks 2 6 ++ [(2, CRet 8)] ++ ticks 2 9 ++ [(2, CRet 0); (2, COk)]).
  eexists. exists 3. split; [vm_compute; reflexivity|]. vm_compute. intuition discriminate.
Qed.

(** The child of a fork made by main keeps the setting. *)
Example C42_disabled_fork_main : exists s,
  reach false orderly s /\ In (EFork 1) (s_tr s) /\
  hd_error (s_tr s) = Some (ECreate 1 (mkcreq 0 20 21 99) 2 false).
Proof.
  assert (X : exists s, run_ok orderly_b false init (to_main ++ [(1, CCall ADisable); (1, CStep)] ++ fork_child 1 0 7 ++
    [(1, CCall (ACreate 20 21 99))] ++ ticks 1 4 ++ [(1, COk)]) = Some s /\ In (EFork 1) (s_tr s) /\
    hd_error (s_tr s) = Some (ECreate 1 (mkcreq 0 20 21 99) 2 false)).
  { eexists. split; [vm_compute; reflexivity|]. vm_compute. tauto. }
  destruct X as (s & E & A). exists s. split; [eapply orderly_run; exact E|exact A].
Qed.

Print Assumptions C42_disabled_partial.
Print Assumptions C42_only_partial.
Print Assumptions C42_disabled_case.
Print Assumptions C42_disabled_fork_refuted.
Print Assumptions C42_disabled_fork_main.
