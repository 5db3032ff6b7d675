(** C79: callbacks that the client does not define do nothing. *)
From Verif Require Import LifeDefaultSpec LifeDefault LifeThreadProps LifeProcProps LifeIgnoreProps LifeRunB LifeProc LifeIgnore.
From Verif Require AttrModel AttrSpec AttrProofs.

Local Open Scope Z_scope.

(** *** C79 *)

(** A client that defines no callback, every execution: all client data anywhere is
    null.  Each callback that is issued gets NULL as its data, and
    monitor_get_user_data returns NULL, in every thread and in every child. *)
Theorem C79_no_data : forall dyn s e d,
  reach dyn (undefined every) s -> In e (s_tr s) -> data_of e = Some d -> d = 0.
Proof.
  intros dyn s e d R I D. destruct (zero_reach _ _ R) as (_ & _ & Z).
  rewrite Forall_forall in Z. exact (Z e I d D).
Qed.

(** A client that does not define pre_create: a created thread is an ignored one only
    because its creator had disabled new threads at a moment of the call, or is itself
    neither main nor a thread with a number.  Partial: see [orderly]. *)
Theorem C79_pre_create_partial : forall dyn s a t q u b,
  reach dyn (fun s t c => orderly s t c /\ undefined only_pre_create s t c) s ->
  s_tr s = a ++ ECreate t q u false :: b ->
  exists ev b', b = ev ++ b' /\ In (ECreateCall t q) b' /\
    (disabled t b' \/ ~ (t = MAIN \/ exists k, In (EReg t k) b')).
Proof.
  intros dyn s a t q u b R E.
  assert (RO : reach dyn orderly s) by (eapply reach_weaken; [|exact R]; intros ? ? ? X; apply X).
  assert (RU : reach dyn (undefined only_pre_create) s) by (eapply reach_weaken; [|exact R]; intros ? ? ? X; apply X).
  destruct (C42_only_partial dyn s a t q u b RO E) as [I|X]; [|exact X].
  assert (I' : In (ERet t (CbPreCreate (q_id q)) IGNORE_NEW_THREAD) (s_tr s)).
  { rewrite E. apply in_or_app. right. now right. }
  pose proof (ret_reach _ _ _ RU _ I' eq_refl) as V. discriminate V.
Qed.

(** A client that does not define init_thread: monitor_get_user_data, in a thread that
    has a number and up to the return of its fini_thread, gives what pre_create
    returned for the call that created the thread.  Partial: see [clean_forks]. *)
Theorem C79_init_thread_partial : forall dyn s a t r k b,
  reach dyn (fun s t c => clean_forks s t c /\ undefined only_init_thread s t c) s ->
  s_tr s = a ++ EQuery t QData r :: b ->
  In (EReg t k) b -> ~ fini_returned t b ->
  exists c q, In (ECreate c q t true) b /\ In (ERet c (CbPreCreate (q_id q)) r) b.
Proof.
  intros dyn s a t r k b R E I N.
  assert (RC : reach dyn clean_forks s) by (eapply reach_weaken; [|exact R]; intros ? ? ? X; apply X).
  assert (RU : reach dyn (undefined only_init_thread) s) by (eapply reach_weaken; [|exact R]; intros ? ? ? X; apply X).
  destruct (C41_queries_partial dyn s a t QData r b RC E) as (_ & A & _).
  destruct (A k I N) as (c & q & d & C & P & [J _]). exists c, q. split; [exact C|].
  destruct J as [->|J]; [exact P|].
  assert (J' : In (ERet t (CbInitThread k d) r) (s_tr s)) by (rewrite E; apply in_or_app; right; now right).
  pose proof (ret_reach _ _ _ RU _ J' eq_refl) as V. cbn in V. now subst r.
Qed.

(** A client that does not define init_process: the data of the process is the
    argument of init_process, which is NULL in the first process and in a child what
    pre_fork returned there.  Partial: see [stores]. *)
Theorem C79_init_process_partial : forall dyn s a e m w x v b,
  reach dyn (fun s t c => stores s t c /\ undefined only_init_process s t c) s ->
  s_tr s = a ++ e :: m ++ ERet w (CbInitProcess x) v :: b ->
  existsb is_init_ret m = false -> existsb is_fork m = false ->
  (exists e', In e' (e :: m) /\ actor e' = w) ->
  (forall w' how d, e = ECall w' (CbFiniProcess how d) -> d = x) /\
  (forall r, e = EQuery MAIN QData r -> r = x).
Proof.
  intros dyn s a e m w x v b R E A B C.
  assert (RC : reach dyn stores s) by (eapply reach_weaken; [|exact R]; intros ? ? ? X; apply X).
  assert (RU : reach dyn (undefined only_init_process) s) by (eapply reach_weaken; [|exact R]; intros ? ? ? X; apply X).
  assert (J : In (ERet w (CbInitProcess x) v) (s_tr s)).
  { rewrite E. apply in_or_app. right. right. apply in_or_app. right. now left. }
  pose proof (ret_reach _ _ _ RU _ J eq_refl) as V. cbn in V. subst v.
  exact (C61_process_data_partial dyn s a e m w x x b RC E A B C).
Qed.

(** Every execution, whatever the client defines: the argument of init_process is NULL
    or a value that pre_fork returned in the same thread, and that of post_fork is a
    value that pre_fork returned in the same thread. *)
Theorem C79_fork_value : forall dyn s a t d b,
  reach dyn any s ->
  (s_tr s = a ++ ECall t (CbInitProcess d) :: b -> d = 0 \/ In (ERet t CbPreFork d) b) /\
  (s_tr s = a ++ ECall t (CbPostFork d) :: b -> In (ERet t CbPreFork d) b).
Proof. intros dyn s a t d b R. split; intros E; exact (src_hist _ _ R a _ b E). Qed.

(** The default reset_stacksize returns its argument.  Then pthread_create passes on
    the attribute object that the application gave, with its size (NULL if it gave
    none), for every behaviour of the C library's attribute functions, and every
    attribute object is afterwards as before. *)
Theorem C79_stack_size : forall l w orig def,
  def <> 0 -> w def = None -> (orig <> 0 -> exists n, w orig = Some n) ->
  let '(w', t) := AttrModel.create_with_attr l (fun n => n) w orig def in
  (forall a, w' a = w a) /\ AttrSpec.creations t = [(orig, if orig =? 0 then None else w orig)].
Proof.
  intros l w orig def D W O.
  assert (NA : forall a n, AttrSpec.applicable l (fun x => x) a n = false).
  { intros a n. unfold AttrSpec.applicable. rewrite Z.eqb_refl. cbn. now rewrite Bool.andb_false_r. }
  destruct (Z.eqb_spec orig 0) as [->|N].
  - destruct (AttrProofs.create_null l (fun n => n) w def D W) as [H1 H2].
    destruct (AttrModel.create_with_attr l (fun n => n) w 0 def) as [w' t]. cbn [fst snd] in *. subst t.
    split; [exact H1|]. destruct (AttrModel.a_init l); [rewrite NA|]; reflexivity.
  - destruct (O N) as [n E]. destruct (AttrProofs.adjust_given l (fun n => n) w orig def n N E) as [old A].
    unfold AttrModel.create_with_attr. rewrite A, NA.
    cbn [AttrModel.j_attrs AttrModel.j_attr AttrModel.j_restore AttrModel.j_destroy].
    destruct (Z.eqb_spec orig 0); [contradiction|]. split; reflexivity.
Qed.

(** *** Examples *)
Definition undef_b (f : cb -> bool) (s : state) (t : Z) (c : choice) : bool :=
  match c, th_stack (s_th s t) with
  | CRet v, FCb x _ :: _ => negb (f x) || (v =? default_ret x)
  | _, _ => true
  end.
Lemma undef_b_ok f s t c : undef_b f s t c = true -> undefined f s t c.
Proof.
  unfold undef_b, undefined. intros H x k r v E -> F. rewrite E in H. rewrite F in H. now apply Z.eqb_eq.
Qed.
Definition both_b (g : state -> Z -> choice -> bool) f s t c := g s t c && undef_b f s t c.
Lemma both_b_ok g (P : state -> Z -> choice -> Prop) f s t c :
  (forall s t c, g s t c = true -> P s t c) -> both_b g f s t c = true -> P s t c /\ undefined f s t c.
Proof. intros K H. apply andb_prop in H. destruct H as [A B]. split; [auto|now apply undef_b_ok]. Qed.

(** Up to main() with the default init_process. *)
Definition to_main0 : list (Z * choice) :=
  [(MAIN, CRet 0); (MAIN, CStep); (MAIN, CRet 0); (MAIN, CRet 0)] ++ ticks MAIN 5 ++
  [(MAIN, CRet 0); (MAIN, CStep); (MAIN, CRet 0)] ++ ticks MAIN 2 ++ [(MAIN, CRet 0)].

(** No callback defined: main creates a thread, which runs and ends; main forks, and the
    child asks for its data and exits. *)
Example C79_example : exists s,
  reach false (undefined every) s /\
  In (ECall 2 (CbInitThread 1 0)) (s_tr s) /\ In (ECall 2 (CbFiniThread 0)) (s_tr s) /\
  In (EQuery 2 QData 0) (s_tr s) /\ In (EQuery 1 QData 0) (image (s_tr s)) /\
  In (ECall 1 (CbInitProcess 0)) (image (s_tr s)) /\ In (ECall 1 (CbFiniProcess EXIT_NORMAL 0)) (image (s_tr s)).
Proof.
  eexists. split.
  - apply (run_ok_reach false _ (undef_b every) (to_main0 ++ create1 1 10 11 0 ++ enter 2 0 ++ ask 2 QData ++ leave 2 ++
      fork_child 1 0 0 ++ ask 1 QData ++ exit1 1) (undef_b_ok every) init); [apply reach_init|].
    vm_compute. reflexivity.
  - vm_compute. tauto.
Qed.

(** A client with pre_create (returning 5) and without init_thread: the thread's data is
    5.  A client with pre_fork (returning 3) and without init_process: the data of the
    child is 3, also in fini_process. *)
Example C79_init_thread_example : exists s a b,
  reach false (fun s t c => clean_forks s t c /\ undefined only_init_thread s t c) s /\
  s_tr s = a ++ EQuery 2 QData 5 :: b /\ In (EReg 2 1) b /\ ~ fini_returned 2 b /\
  In (ECreate 1 (mkcreq 0 10 11 99) 2 true) b /\ In (ERet 1 (CbPreCreate 0) 5) b.
Proof.
  eexists _, [], _. split; [|split; [|split; [|split; [|split]]]].
  - apply (run_ok_reach false _ (both_b clean_b only_init_thread) (to_main ++ create1 1 10 11 5 ++ enter 2 5 ++ ask 2 QData)
      (fun s t c => both_b_ok _ _ _ s t c clean_b_ok) init); [apply reach_init|].
    vm_compute. reflexivity.
  - vm_compute. reflexivity.
  - vm_compute. tauto.
  - intros (d & v & I). vm_compute in I. repeat (destruct I as [I|I]; [discriminate I|]). exact I.
  - vm_compute. tauto.
  - vm_compute. tauto.
Qed.

Definition fork3 : list (Z * choice) := to_main0 ++ fork_child 1 3 3 ++ ask 1 QData ++ exit1 1.
Example C79_init_process_example : exists s a m b m2,
  reach false (fun s t c => stores s t c /\ undefined only_init_process s t c) s /\
  s_tr s = a ++ ECall 1 (CbFiniProcess EXIT_NORMAL 3) :: m ++ ERet 1 (CbInitProcess 3) 3 :: b /\
  existsb is_init_ret m = false /\ existsb is_fork m = false /\ m = m2 ++ [EQuery 1 QData 3; EForkRet 1] /\
  In (ECall 1 (CbInitProcess 3)) b /\ In (ERet 1 CbPreFork 3) b.
Proof.
  assert (X : exists s, run_ok (both_b stores_b only_init_process) false init fork3 = Some s /\ exists a m b m2,
    s_tr s = a ++ ECall 1 (CbFiniProcess EXIT_NORMAL 3) :: m ++ ERet 1 (CbInitProcess 3) 3 :: b /\
    existsb is_init_ret m = false /\ existsb is_fork m = false /\ m = m2 ++ [EQuery 1 QData 3; EForkRet 1] /\
    In (ECall 1 (CbInitProcess 3)) b /\ In (ERet 1 CbPreFork 3) b).
  { eexists. split; [vm_compute; reflexivity|]. cbn [s_tr].
    match goal with |- exists a m b m2, ?l = _ /\ _ =>
      exists (firstn 2 l), (firstn 6 (skipn 3 l)), (skipn 10 l), (firstn 4 (skipn 3 l)) end.
    vm_compute. tauto. }
  destruct X as (s & E & a & m & b & m2 & A). exists s, a, m, b, m2. split; [|exact A].
  eapply (run_ok_reach false _ (both_b stores_b only_init_process)); [|apply reach_init|exact E].
  intros s' t c. apply both_b_ok. apply stores_b_ok.
Qed.

(** A client without pre_create: new threads are disabled, and the thread is ignored. *)
Example C79_pre_create_example : exists s a b,
  reach false (fun s t c => orderly s t c /\ undefined only_pre_create s t c) s /\
  s_tr s = a ++ ECreate 1 (mkcreq 1 20 21 99) 3 false :: b /\
  In (ECreate 1 (mkcreq 0 10 11 99) 2 true) b /\ In (EIgnore 1 true) b.
Proof.
  eexists _, [ECreateRet 1 (mkcreq 1 20 21 99)], _. split; [|split].
  - apply (run_ok_reach false _ (both_b orderly_b only_pre_create) (to_main ++ create1 1 10 11 0 ++
      [(1, CCall ADisable); (1, CStep); (1, CCall (ACreate 20 21 99))] ++ ticks 1 4 ++ [(1, COk)] ++ ticks 1 1)
      (fun s t c => both_b_ok _ _ _ s t c orderly_b_ok) init); [apply reach_init|].
    vm_compute. reflexivity.
  - vm_compute. reflexivity.
  - vm_compute. tauto.
Qed.

(** Attribute objects: the application's at 50 with 1000 bytes; none given. *)
Example C79_stack_example :
  AttrSpec.creations (snd (AttrModel.create_with_attr
    (AttrModel.mklib (Some 8000) (fun _ => true) (fun n => 100 <=? n)) (fun n => n)
    (upd (fun _ => None) 50 (Some 1000)) 50 90)) = [(50, Some 1000)] /\
  AttrSpec.creations (snd (AttrModel.create_with_attr
    (AttrModel.mklib (Some 8000) (fun _ => true) (fun n => 100 <=? n)) (fun n => n)
    (upd (fun _ => None) 50 (Some 1000)) 0 90)) = [(0, None)].
Proof. split; reflexivity. Qed.

Print Assumptions C79_no_data.
Print Assumptions C79_pre_create_partial.
Print Assumptions C79_init_thread_partial.
Print Assumptions C79_init_process_partial.
Print Assumptions C79_fork_value.
Print Assumptions C79_stack_size.
