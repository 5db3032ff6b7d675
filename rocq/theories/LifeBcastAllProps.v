(** Theorems on monitor_broadcast_signal beside other threads: C46. *)
From Verif Require Import LifeBcastAll LifeFiniProps LifeAliveProps.

Local Open Scope Z_scope.

(** A call of monitor_broadcast_signal(sig) by thread t returns v, with any steps of any
    threads in between; [m] is what happened during the call.  If v is -1, t has sent
    nothing.  Otherwise v is 0 and: t has sent only [sig], never to itself, and only to
    main and to threads whose init_thread has returned; no created thread has been sent
    it twice; and if the thread list is not frozen by the exit code, every other thread
    in its start routine from before the call until its return has been sent it exactly
    once, and so has main unless it is the caller.
    Partial: the assumptions of [orderly]; no fork while the thread lock is held. *)
Theorem C46_concurrent_partial : forall dyn s t c s' v m sig older,
  reach dyn free s -> step dyn s t c = Some s' ->
  (exists ev, s_tr s' = EBcastRet t v :: ev ++ s_tr s) ->
  s_tr s' = EBcastRet t v :: m ++ EBcast t sig :: older -> existsb (bc_mark t) m = false ->
  (v = -1 /\ forall u x, ~ In (EKill t u x) m) \/
  (v = 0 /\
   (forall u x, In (EKill t u x) m -> x = sig /\ u <> t /\ (u = MAIN \/ initiated u (s_tr s))) /\
   (forall u, u <> MAIN -> (count (kill_of t u sig) m <= 1)%nat) /\
   ((forall w, ~ In (EFreeze w) (image (s_tr s))) ->
     (forall u, u <> t -> in_start s u -> begun u older -> count (kill_of t u sig) m = 1%nat) /\
     (t <> MAIN -> count (kill_of t MAIN sig) m = 1%nat))).
Proof. exact bc_all. Qed.

Definition free_b (s : state) (t : Z) (c : choice) : bool :=
  orderly_b s t c && match c with CChild => match g_lock (s_g s) with None => true | _ => false end | _ => true end.
Lemma free_b_ok s t c : free_b s t c = true -> free s t c.
Proof.
  unfold free_b. intros H. apply andb_prop in H. destruct H as [A B]. split; [now apply orderly_b_ok|].
  intros ->. now destruct (g_lock (s_g s)).
Qed.

(** Thread 2 broadcasts.  While it walks the list thread 3 asks for its number and
    main begins to create a third thread. *)
Example C46_concurrent_case : exists s s' m older,
  reach false free s /\ step false s 2 CStep = Some s' /\ s_tr s' = EBcastRet 2 0 :: [] ++ s_tr s /\
  s_tr s' = EBcastRet 2 0 :: m ++ EBcast 2 10 :: older /\ existsb (bc_mark 2) m = false /\
  in_start s 3 /\ begun 3 older /\ (forall w, ~ In (EFreeze w) (image (s_tr s))) /\
  m = [EKill 2 1 10; ECreateCall 1 (mkcreq 2 30 31 99); EKill 2 3 10; EQuery 3 QNum 2].
Proof.
  assert (X : exists s, run_ok free_b false init (two_threads ++ [(2, CCall (ABroadcast 10))] ++ ticks 2 3 ++ ask 3 QNum ++
      ticks 2 2 ++ [(1, CCall (ACreate 30 31 99))] ++ ticks 1 4 ++ ticks 2 2) = Some s /\
    exists s' m older, step false s 2 CStep = Some s' /\ s_tr s' = EBcastRet 2 0 :: [] ++ s_tr s /\
    s_tr s' = EBcastRet 2 0 :: m ++ EBcast 2 10 :: older /\ existsb (bc_mark 2) m = false /\
    in_start s 3 /\ begun 3 older /\ forallb (fun e => match e with EFreeze _ => false | _ => true end) (image (s_tr s)) = true /\
    m = [EKill 2 1 10; ECreateCall 1 (mkcreq 2 30 31 99); EKill 2 3 10; EQuery 3 QNum 2]).
  { eexists. split; [vm_compute; reflexivity|]. do 3 eexists. split; [vm_compute; reflexivity|]. cbn [s_tr s_th].
    split; [reflexivity|]. split; [instantiate (2 := [_; _; _; _]); reflexivity|]. split; [reflexivity|].
    split; [exists 2; vm_compute; auto|]. split; [do 2 eexists; left; reflexivity|]. split; vm_compute; reflexivity. }
  destruct X as (s & E & s' & m & older & A1 & A2 & A3 & A4 & A5 & A6 & A7 & A8). exists s, s', m, older.
  split; [eapply run_ok_reach; [exact free_b_ok|apply reach_init|exact E]|]. repeat (split; [assumption|]). split; [|exact A8].
  intros w J. rewrite forallb_forall in A7. specialize (A7 _ J). discriminate A7.
Qed.

Print Assumptions C46_concurrent_partial.
Print Assumptions C46_concurrent_case.
