(** Theorems on what a thread ends with: C88. *)
From Verif Require Import JoinPlain.
Local Open Scope Z_scope.

(** With the library the application sees only what it could see without: what
    pthread_create returns and the thread it names, the routine and argument the new
    thread starts with, the cleanup handlers and their order, and the value pthread_join
    gives.  Partial: no cancellation inside a callback of the client, no created thread
    comes to begin after exit has begun. *)
Theorem C88_same_partial : forall s, reach quiet s ->
  exists l p, p_run p_init l = Some p /\ p_log p = filter seen (s_log s).
Proof. intros s R. destruct (sim_reach s R) as (l & p & P & L). exists l, p. split; [exact P|apply L]. Qed.

(** And all of that: everything the application can see without the library it can
    see with it.  Partial: main does not call pthread_exit. *)
Theorem C88_all_partial : forall l p, p_run p_init l = Some p -> (forall v, ~ In (MAIN, AExit v) l) ->
  exists s, reach quiet s /\ filter seen (s_log s) = p_log p.
Proof. intros l p H N. destruct (full_run l p H N) as (s & R & L & _). exists s. split; [exact R|symmetry; apply L]. Qed.

(** A thread joined with value v returned v from its start routine before, or gave v to
    pthread_exit, or was cancelled and v is PTHREAD_CANCELED.  Partial: no created thread
    comes to begin after exit has begun.  Cancellations may take effect anywhere. *)
Theorem C88_cause_partial : forall s a t u v b, reach no_late s -> s_log s = a ++ OJoin t u v :: b ->
  exists e, In e b /\ ended_with u v e.
Proof. exact join_cause. Qed.

(** If the start routine returned v, or the thread called pthread_exit (v), then
    pthread_join gives v.  Partial: no cancellation inside fini_thread. *)
Theorem C88_value_partial : forall s t u v w, reach fini_quiet s ->
  In (OReturn u v) (s_log s) \/ In (OExit u v) (s_log s) -> In (OJoin t u w) (s_log s) -> w = v.
Proof. intros s t u v w R [A|A] J; [eapply returned|eapply exited]; eassumption. Qed.

(** fini_thread is the last thing in a thread: after it neither the start routine nor a
    cleanup handler runs, and it is not issued again.  (When the process exits, the
    shootdown signal issues it earlier.) *)
Theorem C88_fini_last : forall s a e u b, reach no_shoot s -> s_log s = a ++ e :: b -> does u e = true -> ~ In (LFini u) b.
Proof. exact fini_last. Qed.

(** Thread t creates a thread with routine r and argument a; a new thread begins; a
    thread runs its cleanup routine. *)
Definition make_ (t r a : Z) : list (Z * choice) :=
  [(t, CCreate r a); (t, CRet 0); (t, CStep); (t, CStep); (t, COk); (t, CRet 0); (t, CStep)].
Definition begin_ (u : Z) : list (Z * choice) := [(u, CStep); (u, CRet 0); (u, CStep); (u, CStep)].
Definition clean_ (u : Z) : list (Z * choice) := [(u, CStep); (u, CRet 0); (u, CStep)].

(** Two threads: one returns 5; the other pushes two handlers and is cancelled; then the
    records are used again for a third, which calls pthread_exit; a fourth is ignored. *)
Definition story : list (Z * choice) :=
  make_ 1 10 20 ++ make_ 1 11 21 ++ begin_ 3 ++ begin_ 2 ++
  [(3, CPush 71); (3, CPush 72); (2, CCancel 3); (2, CReturn 5); (3, CAct); (3, CStep); (3, CStep); (3, CStep)] ++
  clean_ 3 ++ clean_ 2 ++ [(1, CJoin 2); (1, CJoin 3)] ++
  make_ 1 12 22 ++ begin_ 4 ++ [(4, CExit 9); (4, CStep)] ++ clean_ 4 ++ [(1, CJoin 4)] ++
  [(1, CCreate 13 23); (1, CRet IGNORE); (1, COk); (1, CStep); (5, CStep); (5, CReturn 6); (1, CJoin 5)].

Example C88_story : exists s, reach quiet s /\ run init story = Some s /\ rev (filter seen (s_log s)) =
  [OCall 1 10 20; OCreate 1 0 2; OCall 1 11 21; OCreate 1 0 3; OStart 3 11 21; OStart 2 10 20; OReturn 2 5; OCancel 3;
   OHandler 3 72; OHandler 3 71; OJoin 1 2 5; OJoin 1 3 CANCELED; OCall 1 12 22; OCreate 1 0 4; OStart 4 12 22; OExit 4 9; OJoin 1 4 9;
   OCall 1 13 23; OCreate 1 0 5; OStart 5 13 23; OReturn 5 6; OJoin 1 5 6] /\
  In (LFini 3) (s_log s) /\ In (LFini 4) (s_log s) /\ s_pos s = 2.
Proof.
  eexists. split; [apply (run_reach quiet quietb quietb_ok story init); [constructor|vm_compute; reflexivity]|].
  split; [vm_compute; reflexivity|]. split; [vm_compute; reflexivity|]. split; [vm_compute; auto 40|]. split; [vm_compute; auto 40|reflexivity].
Qed.

(** The hypotheses of the others hold in this execution too. *)
Example C88_story_hyps : forall s, reach quiet s -> reach fini_quiet s /\ reach no_late s.
Proof.
  intros s R. split; [exact (quiet_fini s R)|]. induction R as [|s t c s1 R IH Q S]; [constructor|]. eapply r_step; [exact IH|exact (proj2 Q)|exact S].
Qed.
Example C88_story_shoot : exists s, reach no_shoot s /\ run init story = Some s.
Proof.
  eexists. split; [|vm_compute; reflexivity].
  apply (run_reach no_shoot (fun _ _ c => match c with CShoot => false | _ => true end) ltac:(intros s t [] H; discriminate) story init); [constructor|vm_compute; reflexivity].
Qed.
Example C88_plain_story : exists p, p_run p_init
  [(1, ACreate 10 20); (1, AOk); (2, AStep); (2, APush 7); (1, AStep); (1, ACancel 2); (2, AAct); (2, AStep); (2, AStep); (1, AJoin 2)] = Some p /\
  rev (p_log p) = [OCall 1 10 20; OStart 2 10 20; OCreate 1 0 2; OCancel 2; OHandler 2 7; OJoin 1 2 CANCELED].
Proof. eexists. split; vm_compute; reflexivity. Qed.

(** False in general.  A cancellation is asked for; the start routine returns 5 without
    a cancellation point; the cancellation takes effect inside fini_thread; pthread_join
    gives PTHREAD_CANCELED.  Without the library no execution looks like this. *)
Theorem C88_fini_refuted : exists l s, run init l = Some s /\
  In (OReturn 2 5) (s_log s) /\ In (OJoin 1 2 CANCELED) (s_log s) /\
  forall l p, p_run p_init l = Some p -> p_log p <> filter seen (s_log s).
Proof.
  exists (make_ 1 10 20 ++ begin_ 2 ++ [(1, CCancel 2); (2, CReturn 5); (2, CStep); (2, CAct); (1, CJoin 2)]). eexists.
  split; [vm_compute; reflexivity|]. split; [vm_compute; auto 20|]. split; [vm_compute; auto 20|].
  intros l p H E. assert (X : CANCELED = 5); [|discriminate X].
  eapply (plain_returned l p 1 2 5 CANCELED H); rewrite E; vm_compute; [|auto 20|auto 20].
  intros x K. repeat (destruct K as [K|K]; [discriminate K|]). exact K.
Qed.

(** A cancellation takes effect inside init_thread: the thread ends and its start
    routine never ran.  Without the library it begins in any case. *)
Theorem C88_init_refuted : exists l s, run init l = Some s /\
  In (OJoin 1 2 CANCELED) (s_log s) /\ (forall r a, ~ In (OStart 2 r a) (s_log s)) /\
  forall l p, p_run p_init l = Some p -> p_log p <> filter seen (s_log s).
Proof.
  exists (make_ 1 10 20 ++ [(1, CCancel 2); (2, CStep); (2, CAct); (2, CStep); (1, CJoin 2)]). eexists.
  split; [vm_compute; reflexivity|]. split; [vm_compute; auto 20|].
  split; [intros r a K; vm_compute in K; repeat (destruct K as [K|K]; [discriminate K|]); exact K|].
  intros l p H E. destruct (plain_started l p 1 2 CANCELED H ltac:(discriminate)) as (r & a & K); rewrite E in *; [vm_compute; auto 20|].
  vm_compute in K. repeat (destruct K as [K|K]; [discriminate K|]). exact K.
Qed.

(** A created thread that comes to begin after exit has begun ends with NULL; its
    start routine never ran. *)
Theorem C88_late_refuted : exists l s, run init l = Some s /\
  In (OJoin 1 2 0) (s_log s) /\ (forall e, ended_with 2 0 e -> ~ In e (s_log s)) /\
  forall l p, p_run p_init l = Some p -> p_log p <> filter seen (s_log s).
Proof.
  exists (make_ 1 10 20 ++ [(1, CProcessExit); (2, CStep); (1, CJoin 2)]). eexists.
  split; [vm_compute; reflexivity|]. split; [vm_compute; auto 20|].
  split; [intros e [->|[->|[-> _]]] K; vm_compute in K; repeat (destruct K as [K|K]; [discriminate K|]); exact K|].
  intros l p H E. destruct (plain_started l p 1 2 0 H ltac:(discriminate)) as (r & a & K); rewrite E in *; [vm_compute; auto 20|].
  vm_compute in K. repeat (destruct K as [K|K]; [discriminate K|]). exact K.
Qed.

(** main calls pthread_exit, another thread creates a thread and joins it: with the
    library the new thread never runs. *)
Theorem C88_main_exit_refuted : exists l p l2 s, p_run p_init l = Some p /\ In (OStart 3 11 21) (p_log p) /\ In (OJoin 2 3 4) (p_log p) /\
  run init l2 = Some s /\ In (OExit 1 0) (s_log s) /\ In (OCreate 2 0 3) (s_log s) /\ In (OJoin 2 3 0) (s_log s) /\
  forall r a, ~ In (OStart 3 r a) (s_log s).
Proof.
  exists [(1, ACreate 10 20); (1, AOk); (2, AStep); (1, AStep); (1, AExit 0); (2, ACreate 11 21); (2, AOk); (2, AStep); (3, AStep); (3, AReturn 4); (2, AJoin 3)].
  eexists. exists (make_ 1 10 20 ++ begin_ 2 ++ [(1, CExit 0)] ++ make_ 2 11 21 ++ [(3, CStep); (2, CJoin 3)]). eexists.
  split; [vm_compute; reflexivity|]. split; [vm_compute; auto 20|]. split; [vm_compute; auto 20|].
  split; [vm_compute; reflexivity|]. split; [vm_compute; auto 20|]. split; [vm_compute; auto 20|]. split; [vm_compute; auto 20|].
  intros r a K; vm_compute in K; repeat (destruct K as [K|K]; [discriminate K|]); exact K.
Qed.

Print Assumptions C88_same_partial.
Print Assumptions C88_all_partial.
Print Assumptions C88_cause_partial.
Print Assumptions C88_value_partial.
Print Assumptions C88_fini_last.
Print Assumptions C88_fini_refuted.
Print Assumptions C88_init_refuted.
Print Assumptions C88_late_refuted.
Print Assumptions C88_main_exit_refuted.
