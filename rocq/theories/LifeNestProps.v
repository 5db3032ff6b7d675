(** C86: the callbacks of a thread nest. *)
From Verif Require Import LifeNestSpec LifeNest LifeOnce.

Local Open Scope Z_scope.

(** In every schedule, a callback that returns in a thread is the newest one of that
    thread that has not returned. *)
Theorem C86_nested : forall dyn s a t c v b,
  reach dyn any s -> s_tr s = a ++ ERet t c v :: b -> exists r, opens t b = c :: r.
Proof. intros dyn s a t c v b R E. eapply nest_ret; eassumption. Qed.

(** The callbacks a thread is in are, in order, the newest ones of that thread that have
    not returned. *)
Theorem C86_within : forall dyn s t,
  reach dyn any s -> exists J, opens t (s_tr s) = within (th_stack (s_th s t)) ++ J.
Proof. exact nest_reach. Qed.

(** A callback that a thread has left by pthread_exit or cancellation, or whose thread is
    missing in the child of a fork, never returns, nor does one below it. *)
Theorem C86_left : forall dyn s t J l s',
  reach dyn any s -> opens t (s_tr s) = within (th_stack (s_th s t)) ++ J ->
  run dyn s l = Some s' -> exists K, opens t (s_tr s') = K ++ J.
Proof.
  intros dyn s t J l s' R O H. destruct (nest_run dyn t l s s' J R H O) as [K X].
  rewrite app_assoc in X. eauto.
Qed.

(** If a thread does not leave that way, every callback issued in it has returned when it
    has ended or is back in the application's code; also in the children of its own forks. *)
Theorem C86_closed : forall dyn s t,
  reach dyn (stays_put t) s -> within (th_stack (s_th s t)) = [] -> opens t (s_tr s) = [].
Proof. intros dyn s t R W. now rewrite (nest_exact dyn s t R). Qed.

(** In general it is false: a thread calls pthread_exit inside init_thread. *)
Theorem C86_closed_refuted : exists l s d,
  run false init l = Some s /\ In (EEnd 2) (s_tr s) /\ opens 2 (s_tr s) = [CbInitThread 1 d].
Proof.
  exists (to_main ++ create1 1 10 11 5 ++ register 2 ++ [(2, CCall APthreadExit)] ++ ticks 2 3 ++ [(2, CRet 0); (2, CStep)]).
  do 2 eexists. split; [vm_compute; reflexivity|]. split; [vm_compute; auto 60|vm_compute; reflexivity].
Qed.

Definition stays_put_b (t : Z) (s : state) (u : Z) (c : choice) : bool :=
  (negb (u =? t) || (match c with CCancel => false | _ => true end &&
                     match th_stack (s_th s t) with FUnwind :: _ => false | _ => true end)) &&
  match c with CChild => u =? t | _ => true end.
Lemma stays_put_b_ok t s u c : stays_put_b t s u c = true -> stays_put t s u c.
Proof.
  unfold stays_put_b. intros H. apply andb_prop in H. destruct H as [A B]. split.
  - intros ->. rewrite Z.eqb_refl in A. cbn in A. apply andb_prop in A. destruct A as [A1 A2].
    split; [intros ->; discriminate A1|]. intros r E. rewrite E in A2. discriminate A2.
  - intros ->. now apply Z.eqb_eq.
Qed.

(** A fork inside pre_create, up to pre_fork; then both return. *)
Example C86_example : exists s s',
  reach false (stays_put 1) s /\
  opens 1 (s_tr s) = [CbPreFork; CbPreCreate 0] /\ within (th_stack (s_th s 1)) = [CbPreFork; CbPreCreate 0] /\
  run false s [(1, CRet 3); (1, COk); (1, CStep); (1, CRet 0); (1, CRet 4)] = Some s' /\
  within (th_stack (s_th s' 1)) = [] /\ opens 1 (s_tr s') = [].
Proof.
  assert (X : exists s, run_ok (stays_put_b 1) false init (to_main ++ [(1, CCall (ACreate 10 11 12))] ++ ticks 1 7 ++ [(1, CRet 0)] ++ ticks 1 1 ++ [(1, CCall AFork)] ++ ticks 1 1) = Some s /\
    exists s', opens 1 (s_tr s) = [CbPreFork; CbPreCreate 0] /\ within (th_stack (s_th s 1)) = [CbPreFork; CbPreCreate 0] /\
      run false s [(1, CRet 3); (1, COk); (1, CStep); (1, CRet 0); (1, CRet 4)] = Some s' /\
      within (th_stack (s_th s' 1)) = [] /\ opens 1 (s_tr s') = []).
  { eexists. split; [vm_compute; reflexivity|]. eexists. split; [reflexivity|]. split; [reflexivity|]. split; [vm_compute; reflexivity|]. split; reflexivity. }
  destruct X as (s & E & s' & X). exists s, s'. split; [|exact X]. eapply run_ok_reach; [exact (stays_put_b_ok 1)|apply reach_init|exact E].
Qed.

Print Assumptions C86_nested.
Print Assumptions C86_within.
Print Assumptions C86_left.
Print Assumptions C86_closed.
Print Assumptions C86_closed_refuted.
