(** Theorems on the thread lock, fatal signals and forks: C47. *)
From Verif Require Import LifeStuck LifeFiniProps LifeAliveProps.

Local Open Scope Z_scope.

(** A thread that waits for the lock, be it in the exit code run by a fatal signal,
    does not wait for itself: another thread, running alone, releases the lock in
    finitely many steps and then the thread goes on.
    Partial: no signal or cancellation arrives inside a region that holds the lock, and
    no fork is made while it is held. *)
Theorem C47_wait_partial : forall dyn s t f r,
  reach dyn shielded s -> g_dead (s_g s) = false -> th_live (s_th s t) = true ->
  th_stack (s_th s t) = f :: r -> waiting f = true ->
  exists h k s' s'', run dyn s (ticks h k) = Some s' /\ h <> t /\ step dyn s' t CStep = Some s'' /\ g_lock (s_g s'') = Some t.
Proof. exact waiter_goes. Qed.

Definition shielded_b (s : state) (t : Z) (c : choice) : bool :=
  match c with CChild => match g_lock (s_g s) with None => true | _ => false end | _ => true end &&
  match th_stack (s_th s t) with
  | f :: _ => negb (locked f) || match c with CStep => true | _ => false end
  | [] => true
  end.
Lemma shielded_b_ok s t c : shielded_b s t c = true -> shielded s t c.
Proof.
  unfold shielded_b. intros H. apply andb_prop in H. destruct H as [A B]. split.
  - intros ->. now destruct (g_lock (s_g s)).
  - intros f r E L. rewrite E, L in B. cbn in B. now destruct c.
Qed.

(** Main gets a fatal signal while thread 2 registers and holds the lock. *)
Definition die_waiting (t : Z) : list (Z * choice) := [(t, CFatal)] ++ ticks t 4 ++ [(t, CRet 0)] ++ ticks t 1.
Example C47_wait_case : exists s r,
  reach false shielded s /\ g_dead (s_g s) = false /\ th_live (s_th s 1) = true /\
  th_stack (s_th s 1) = FSLock false :: r /\ g_lock (s_g s) = Some 2.
Proof.
  assert (X : exists s, run_ok shielded_b false init (to_main ++ create1 1 10 11 5 ++ ticks 2 3 ++ die_waiting 1) = Some s /\
    exists r, g_dead (s_g s) = false /\ th_live (s_th s 1) = true /\
      th_stack (s_th s 1) = FSLock false :: r /\ g_lock (s_g s) = Some 2).
  { eexists. split; [vm_compute; reflexivity|]. eexists. vm_compute. repeat split. }
  destruct X as (s & E & r & A). exists s, r. split; [|exact A].
  eapply run_ok_reach; [exact shielded_b_ok|apply reach_init|exact E].
Qed.

(** A thread that waits for the lock and holds it, in a frame below, waits for ever: as
    long as we stay in this process nothing that any thread does gets it further. *)
Theorem C47_own_lock : forall dyn s t x f y l s',
  reach dyn any s -> th_stack (s_th s t) = x ++ f :: y -> waiting f = true -> existsb locked y = true ->
  stays l -> run dyn s l = Some s' ->
  exists x', th_stack (s_th s' t) = x' ++ f :: y.
Proof. intros dyn s t x f y l s' R ST W LY SY H. eapply stuck_run; eauto. Qed.

(** Refuted: main is inside pthread_create, in the region that takes a thread node, and
    gets a fatal signal.  The exit code waits for the lock main holds, for ever. *)
Definition in_create : list (Z * choice) :=
  to_main ++ [(1, CCall (ACreate 10 11 12))] ++ ticks 1 7 ++ [(1, CRet 0); (1, CStep); (1, CRet 5)] ++ ticks 1 2.
Theorem C47_fatal_refuted : exists dyn l s f y,
  run dyn init l = Some s /\ g_dead (s_g s) = false /\ th_stack (s_th s 1) = f :: y /\ waiting f = true /\
  In (EExit 1 EXIT_SIGNAL) (s_tr s) /\
  forall l' s', stays l' -> run dyn s l' = Some s' -> exists x, th_stack (s_th s' 1) = x ++ f :: y.
Proof.
  assert (X : exists s, run false init (in_create ++ die_waiting 1) = Some s /\ exists f y, g_dead (s_g s) = false /\
    th_stack (s_th s 1) = f :: y /\ waiting f = true /\ In (EExit 1 EXIT_SIGNAL) (s_tr s) /\ existsb locked y = true).
  { eexists. split; [vm_compute; reflexivity|]. do 2 eexists. split; [reflexivity|]. split; [vm_compute; reflexivity|].
    split; [reflexivity|]. split; [vm_compute; auto|reflexivity]. }
  destruct X as (s & E & f & y & D & ST & W & I & LY).
  exists false, (in_create ++ die_waiting 1), s, f, y. repeat split; auto.
  intros l' s' SY H. apply (stuck_run false 1 f y l' s [] s'); auto. eapply reach_run; exact E.
Qed.

(** Refuted: thread 2 registers and holds the lock when main forks.  The child has no
    thread 2; the lock stays held, whatever happens; the child's first pthread_create
    waits for it. *)
Definition child_creates : list (Z * choice) :=
  to_main ++ create1 1 10 11 5 ++ ticks 2 3 ++ fork_child 1 7 8 ++ 
  [(1, CCall (ACreate 10 11 12))] ++ ticks 1 6 ++ [(1, CRet 5); (1, CStep)].
Theorem C47_fork_refuted : exists dyn l s f r,
  run dyn init l = Some s /\ In (EForkRet 1) (image (s_tr s)) /\ th_stack (s_th s 1) = f :: r /\ waiting f = true /\
  forall l' s', run dyn s l' = Some s' -> g_lock (s_g s') = Some 2 /\ th_live (s_th s' 2) = false /\
    forall t f' r', th_stack (s_th s' t) = f' :: r' -> waiting f' = true -> step dyn s' t CStep = None.
Proof.
  assert (X : exists s, run false init child_creates = Some s /\ exists f r, In (EForkRet 1) (image (s_tr s)) /\
    th_stack (s_th s 1) = f :: r /\ waiting f = true /\ g_lock (s_g s) = Some 2 /\ th_live (s_th s 2) = false /\ (2 <? s_next s) = true).
  { eexists. split; [vm_compute; reflexivity|]. do 2 eexists. split; [vm_compute; auto|]. split; [vm_compute; reflexivity|].
    repeat split. }
  destruct X as (s & E & f & r & I & ST & W & LK & LD & N).
  exists false, child_creates, s, f, r. repeat split; auto.
  - destruct (orphan_run false 2 l' s s'); auto; [eapply reach_run; exact E|now apply Z.ltb_lt].
  - destruct (orphan_run false 2 l' s s'); auto; [eapply reach_run; exact E|now apply Z.ltb_lt].
  - intros t f' r' ST' W'. eapply waits; eauto.
    destruct (orphan_run false 2 l' s s'); eauto; [eapply reach_run; exact E|now apply Z.ltb_lt].
Qed.

Print Assumptions C47_wait_partial.
Print Assumptions C47_wait_case.
Print Assumptions C47_own_lock.
Print Assumptions C47_fatal_refuted.
Print Assumptions C47_fork_refuted.
