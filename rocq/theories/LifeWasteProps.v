(** C73: records of threads are not lost, and a new array of records is allocated
    only when all are in use. *)
From Verif Require Export LifeWaste.

Local Open Scope Z_scope.

(** *** C73 *)

(** In every state: each record handed out so far is in use, or waits to be used
    again.  Partial: see [thrifty]. *)
Theorem C73_no_loss_partial : forall dyn s,
  reach dyn thrifty s -> forall n, ~ lost s n.
Proof.
  intros dyn s R n (A & F & U). destruct (wa_acc _ (waste_reach _ _ R) n A); contradiction.
Qed.

(** A step that allocates an array of records finds every record of the arrays there
    are in use; so their number is at most that of the uses: of the monitored threads
    that have not ended and of the calls of pthread_create that have not yet made
    their thread.  Partial: see [thrifty]. *)
Theorem C73_new_array_partial : forall dyn s t c s',
  reach dyn thrifty s -> thrifty s t c -> step dyn s t c = Some s' ->
  g_chunks (s_g s') <> g_chunks (s_g s) ->
  (forall n, 1 <= n <= g_chunks (s_g s) * TN_ARRAY_SIZE -> in_use s n) /\
  (forall us : list (Z * frame),
     (forall t f n, In f (th_stack (s_th s t)) -> holds n f = true -> In (t, f) us) ->
     g_chunks (s_g s) * TN_ARRAY_SIZE <= Z.of_nat (length us)).
Proof.
  intros dyn s t c s' R HO HS NE. pose proof (new_array _ _ _ _ _ R HO HS NE) as U. split; [exact U|].
  intros us C. apply (count_uses s us); auto.
  pose proof (nodes_reach _ _ (thrifty_clean _ _ R)) as (N & _ & _).
  pose proof (ni_chunk _ N). unfold TN_ARRAY_SIZE in *. lia.
Qed.

(** A record that is lost stays lost, whatever happens short of a fork. *)
Theorem C73_lost_for_good : forall dyn s n,
  reach dyn no_child s -> lost s n ->
  forall l s', run dyn s l = Some s' -> (forall t c, In (t, c) l -> c <> CChild) -> lost s' n.
Proof.
  intros dyn s n R L l. revert s R L. induction l as [|[t c] l IH]; intros s R L s' H C; cbn in H.
  - now inversion H; subst.
  - destruct (step dyn s t c) as [s1|] eqn:E; [|discriminate].
    assert (K : no_child s t c) by (apply (C t c); now left).
    apply (IH s1); auto.
    + eapply reach_step; eauto.
    + eapply lost_step; eauto.
    + intros t' c' I. apply (C t' c'). now right.
Qed.

(** A record taken, given back by a thread that ends, and taken again by the next
    pthread_create: one record for two threads. *)
Example C73_reuse_example : exists s,
  reach false thrifty s /\
  In (ECreate 1 (mkcreq 1 20 21 99) 3 true) (s_tr s) /\ In (EEnd 2) (s_tr s) /\
  handed_out (s_g s) 1 /\ ~ handed_out (s_g s) 2 /\ in_use s 1 /\ g_free (s_g s) = [].
Proof.
  eexists. split; [|split; [|split; [|split; [|split; [|split]]]]].
  - apply (thrifty_run false (to_main ++ create1 1 10 11 5 ++ enter 2 6 ++ leave 2 ++
      [(2, CRet 0); (2, CStep)] ++ create3 1 20 21 7)).
    vm_compute. reflexivity.
  - vm_compute. tauto.
  - vm_compute. tauto.
  - vm_compute. split; intros; discriminate.
  - vm_compute. intros [_ X]. now apply X.
  - exists 3, (FBT BTSelf 1). split; [vm_compute; auto|reflexivity].
  - vm_compute. reflexivity.
Qed.

(** The second array is allocated when 600 threads live at once. *)
Example C73_array_example : exists s s',
  reach false thrifty s /\ thrifty s 1 CStep /\ step false s 1 CStep = Some s' /\
  g_chunks (s_g s') <> g_chunks (s_g s).
Proof.
  assert (V : match run_ok thrifty_b false init
                      (to_main ++ create1 1 10 11 5 ++ creates 599 ++ create_start 1 10 11 5) with
              | Some s => thrifty_b s 1 CStep &&
                          match step false s 1 CStep with
                          | Some s' => negb (g_chunks (s_g s') =? g_chunks (s_g s)) | None => false end
              | None => false end = true) by (vm_compute; reflexivity).
  destruct (run_ok _ _ _ _) as [s|] eqn:E; [|discriminate]. apply andb_prop in V. destruct V as [A B].
  destruct (step false s 1 CStep) as [s'|] eqn:S; [|discriminate].
  exists s, s'. split; [eapply thrifty_run; exact E|]. split; [now apply thrifty_b_ok|]. split; [exact S|].
  intros X. rewrite X, Z.eqb_refl in B. discriminate.
Qed.

(** Refuted when the real pthread_create fails: pthread.c 1148-1170 does not give the
    record back.  Nothing else happens in this execution, and no call is under way. *)
Theorem C73_failed_create_refuted : exists l s,
  run false init l = Some s /\ lost s 1 /\
  th_stack (s_th s MAIN) = [FApp AppMain; FEPGet EXIT_NORMAL; FRealExit] /\
  s_tr s = ECreateRet 1 (mkcreq 0 10 11 99) :: skipn 1 (s_tr s) /\ In (ECreateFail 1 (mkcreq 0 10 11 99) true) (s_tr s).
Proof.
  exists (to_main ++ create1_fail 1 10 11 5). eexists. split; [vm_compute; reflexivity|].
  split; [|split; [|split]].
  - split; [vm_compute; split; intros; discriminate|]. split; [vm_compute; tauto|].
    intros (t & f & I & X). destruct t as [|[t|t|]|t]; vm_compute in I; try (destruct I; fail).
    repeat (destruct I as [<-|I]; [discriminate X|]). destruct I.
  - vm_compute. reflexivity.
  - vm_compute. reflexivity.
  - vm_compute. tauto.
Qed.

(** Refuted when a thread ends while it blocks the shootdown signal: the cleanup
    routine, pthread.c 915-920, returns before it unlinks the record. *)
Theorem C73_blocked_end_refuted : exists l s,
  run false init l = Some s /\ lost s 1 /\ In (EBlock 2 false) (s_tr s) /\
  s_tr s = EEnd 2 :: skipn 1 (s_tr s) /\ g_cookie (s_g s) = false.
Proof.
  exists (to_main ++ create1 1 10 11 5 ++ enter 2 6 ++ [(2, CCall ABlock)] ++ ticks 2 2 ++ [(2, CRet 0)] ++
          ticks 2 2 ++ [(2, CRet 0)] ++ ticks 2 1). eexists. split; [vm_compute; reflexivity|].
  split; [|split; [|split]].
  - split; [vm_compute; split; intros; discriminate|]. split; [vm_compute; tauto|].
    intros (t & f & I & X). destruct t as [|[t|[t|t|]|]|t]; vm_compute in I; try (destruct I; fail).
    repeat (destruct I as [<-|I]; [discriminate X|]). destruct I.
  - vm_compute. tauto.
  - vm_compute. reflexivity.
  - reflexivity.
Qed.

(** Refuted when a thread calls pthread_exit inside its init_thread callback. *)
Theorem C73_exit_in_init_refuted : exists l s,
  run false init l = Some s /\ lost s 1 /\ In (ECall 2 (CbInitThread 1 5)) (s_tr s) /\
  s_tr s = EEnd 2 :: skipn 1 (s_tr s) /\ g_cookie (s_g s) = false.
Proof.
  exists (to_main ++ create1 1 10 11 5 ++ register 2 ++ [(2, CCall APthreadExit)] ++ ticks 2 3 ++ [(2, CRet 0)] ++
          ticks 2 1). eexists. split; [vm_compute; reflexivity|].
  split; [|split; [|split]].
  - split; [vm_compute; split; intros; discriminate|]. split; [vm_compute; tauto|].
    intros (t & f & I & X). destruct t as [|[t|[t|t|]|]|t]; vm_compute in I; try (destruct I; fail).
    repeat (destruct I as [<-|I]; [discriminate X|]). destruct I.
  - vm_compute. tauto.
  - vm_compute. reflexivity.
  - reflexivity.
Qed.

Print Assumptions C73_no_loss_partial.
Print Assumptions C73_new_array_partial.
Print Assumptions C73_lost_for_good.
Print Assumptions C73_failed_create_refuted.
Print Assumptions C73_blocked_end_refuted.
Print Assumptions C73_exit_in_init_refuted.
