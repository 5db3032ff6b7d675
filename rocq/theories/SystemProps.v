(** Properties C15 (system), C16 (fork), C52 (several threads in system). *)
From Verif Require Import SystemModel SystemSpec SystemProofs ExecModel ExecSpec ExecProofs.

(** C15, application call, parent side: for every command, fork result, sequence of
    waitpid answers and kernel. *)
Theorem C15_application : forall o shell_ok pre command pid ws libc k,
  sane o k -> pid <> 0 ->
  match system_parent o true shell_ok pre (Some command) pid ws libc k with
  | Returned status k' tr =>
      same_signals k' k /\
      callbacks_of tr = [SPreFork; SPostFork pid pre] /\
      forks_of tr = [pid] /\ waits_only pid tr /\
      ((pid < 0 /\ status = -1) \/ (pid > 0 /\ wait_answer ws = Some status))
  | Running tr =>
      pid > 0 /\ wait_answer ws = None /\
      callbacks_of tr = [SPreFork] /\ forks_of tr = [pid] /\ waits_only pid tr
  end.
Proof.
  intros o shell_ok pre command pid ws libc k Hk Hp. unfold system_parent.
  pose proof (parent_shape o true shell_ok pre command pid ws k Hp Hk) as H.
  destruct (monitor_system_parent o true shell_ok pre (Some command) pid ws k) as [st k' tr|tr].
  - destruct H as (H1 & H2 & H3 & H4 & H5 & H6). do 4 (split; [assumption|]).
    destruct (Z.ltb_spec pid 0) as [L|L]; [left; auto|right]. split; [lia|].
    destruct (wait_answer ws); [now subst|]. exfalso. apply H3; [lia|reflexivity].
  - exact H.
Qed.
Print Assumptions C15_application.

(** C15, client variant: no callbacks, same effects. *)
Theorem C15_client : forall o shell_ok command pid ws k,
  sane o k -> pid <> 0 ->
  match real_system_parent o shell_ok (Some command) pid ws k with
  | Returned status k' tr =>
      same_signals k' k /\ callbacks_of tr = [] /\
      forks_of tr = [pid] /\ waits_only pid tr /\
      ((pid < 0 /\ status = -1) \/ (pid > 0 /\ wait_answer ws = Some status))
  | Running tr =>
      pid > 0 /\ wait_answer ws = None /\
      callbacks_of tr = [] /\ forks_of tr = [pid] /\ waits_only pid tr
  end.
Proof.
  intros o shell_ok command pid ws k Hk Hp. unfold real_system_parent.
  pose proof (parent_shape o false shell_ok 0 command pid ws k Hp Hk) as H.
  destruct (monitor_system_parent o false shell_ok 0 (Some command) pid ws k) as [st k' tr|tr].
  - destruct H as (H1 & H2 & H3 & H4 & H5 & H6). do 4 (split; [assumption|]).
    destruct (Z.ltb_spec pid 0) as [L|L]; [left; auto|right]. split; [lia|].
    destruct (wait_answer ws); [now subst|]. exfalso. apply H3; [lia|reflexivity].
  - exact H.
Qed.
Print Assumptions C15_client.

(** C15, the child of an application call: one exec of /bin/sh -c command with the
    caller's environment, made under the caller's original dispositions and mask;
    if it fails the child leaves with 127. *)
Theorem C15_child_application : forall o pagesize mmap_ok env command exec_ok k, sane o k ->
  exists k', same_signals k' k /\
  monitor_system_child o true pagesize mmap_ok env command exec_ok k =
  [SPreFork; SForked 0;
   SExec (str "/bin/sh") [str "/bin/sh"; str "-c"; command] (Ok (map Some env ++ [None])) k']
  ++ (if exec_ok then [] else [SExit127]).
Proof.
  intros o pg mm env command ok k Hk.
  destruct (child_shape o true pg mm env command ok k Hk) as (k2 & H1 & H2).
  exists k2. split; [exact H1|]. exact H2.
Qed.
Print Assumptions C15_child_application.

(** C15, the child of a client call: the environment has no LD_PRELOAD setting. *)
Theorem C15_child_client : forall o pagesize mmap_ok env command exec_ok k, sane o k ->
  0 < pagesize -> (mmap_ok = true \/ Z.of_nat (length env) <= 248) ->
  exists k' new, same_signals k' k /\
  (forall e, In e new -> sets_preload e = false) /\ (forall e, In e new -> In e env) /\
  monitor_system_child o false pagesize mmap_ok env command exec_ok k =
  [SForked 0;
   SExec (str "/bin/sh") [str "/bin/sh"; str "-c"; command] (Ok (map Some new ++ [None])) k']
  ++ (if exec_ok then [] else [SExit127]).
Proof.
  intros o pg mm env command ok k Hk Hpg Hmm.
  destruct (child_shape o false pg mm env command ok k Hk) as (k2 & H1 & H2).
  destruct (copy_environ_ok pg mm env Hpg Hmm) as (cap & E1 & _).
  exists k2, (kept env). split; [exact H1|].
  split; [|split].
  - intros e He. apply filter_In in He. destruct He as [_ He2].
    destruct (sets_preload e) eqn:E; [|reflexivity].
    apply sets_preload_contains in E. rewrite E in He2. discriminate.
  - intros e He. now apply filter_In in He.
  - rewrite H2, E1. reflexivity.
Qed.
Print Assumptions C15_child_client.

(** C15, NULL command: only the shell test. *)
Theorem C15_null_command : forall o callback shell_ok pre pid ws k,
  monitor_system_parent o callback shell_ok pre None pid ws k =
  Returned (if shell_ok then 1 else 0) k [].
Proof. reflexivity. Qed.
Print Assumptions C15_null_command.

(** C15, override switched off by the environment: the C library's system() only. *)
Theorem C15_no_override : forall o shell_ok pre command pid ws libc k,
  system_parent o false shell_ok pre command pid ws libc k = Returned libc k [SRealSystem command].
Proof. reflexivity. Qed.
Print Assumptions C15_no_override.

(** A caller with its own SIGINT handler and a mask; two EINTRs, then status 256. *)
Definition C15_os : os := mkos (fun s => (s =? 32) || (s =? 33)) (N.lor (sadd 9 0) (sadd 19 0)).
Definition C15_kern : kern :=
  mkkern (upd (fun _ => act0) SIGINT (mkact (HFun 77) 0 (sadd 10 0%N))) (sadd 12 0%N).
Example C15_example :
  sane C15_os C15_kern /\
  exists k, system_parent C15_os true true 5 (Some (str "ls")) 42 [WIntr; WIntr; WStatus 256] 0 C15_kern =
  Returned 256 k [SPreFork; SForked 42; SWait 42; SWait 42; SWait 42; SPostFork 42 5] /\
  k_act k SIGINT = mkact (HFun 77) 0 (sadd 10 0%N) /\ k_mask k = sadd 12 0%N.
Proof.
  split.
  - split; [reflexivity|]. split; [|split; reflexivity].
    intros sig. unfold C15_kern, upd. cbn [k_act]. destruct (sig =? SIGINT); reflexivity.
  - eexists. repeat split; reflexivity.
Qed.

(** C16, parent: success and failure; for every prior state of the process. *)
Theorem C16_parent : forall s pre pid init_ret, pid <> 0 ->
  monitor_fork s pre pid init_ret = (s, [SPreFork; SForked pid; SPostFork pid pre], pid).
Proof.
  intros s pre pid r H. unfold monitor_fork. destruct (Z.eqb_spec pid 0); [contradiction|reflexivity].
Qed.
Print Assumptions C16_parent.

(** C16, child: one init_process with pre_fork's value, whether or not the parent had
    already run init_process or its exit callbacks; fork returns 0; the marks that say
    fini_process and fini_library have run are cleared (whether the exit callbacks then
    run is C32). *)
Theorem C16_child : forall s pre init_ret,
  exists s' tr, monitor_fork s pre 0 init_ret = (s', [SPreFork; SForked 0] ++ tr, 0) /\
  (callbacks_of tr = [SInitProcess pre] \/
   (p_lib_begun s = false /\ callbacks_of tr = [SInitLib; SInitProcess pre])) /\
  p_init_called s' = true /\ p_data s' = init_ret /\
  p_fini_library s' = false /\ p_fini_process s' = false.
Proof.
  intros s pre r. unfold monitor_fork, begin_process. simpl.
  eexists _, _. split; [reflexivity|]. split; [|repeat split; reflexivity].
  destruct (p_lib_begun s); [left|right]; repeat split.
Qed.
Print Assumptions C16_child.

Example C16_example :
  monitor_fork (mkpstate true false false true 3) 8 0 9 =
  (mkpstate true false false true 9, [SPreFork; SForked 0; SResetThreads; SInitProcess 8], 0).
Proof. reflexivity. Qed.

(** C52.  A thread that runs system() while no other thread does leaves everything as
    it was, whatever the other threads' positions. *)
Theorem C52_alone_partial : forall o s t,
  sane o (mkkern (y_acts s) (y_mask s t)) -> y_loc s t = L1 ->
  let s' := y_run o s [t; t; t; t; t; t; t] in
  y_loc s' t = LDone /\
  same_signals (mkkern (y_acts s') (y_mask s' t)) (mkkern (y_acts s) (y_mask s t)).
Proof. exact seven_steps. Qed.
Print Assumptions C52_alone_partial.

(** C52.  Two threads overlapping: both calls return and SIGINT stays ignored for good,
    although it was handled before. *)
Theorem C52_overlap_refuted : exists s sch,
  sane C15_os (mkkern (y_acts s) (y_mask s 1)) /\ sane C15_os (mkkern (y_acts s) (y_mask s 2)) /\
  y_loc s 1 = L1 /\ y_loc s 2 = L1 /\
  sa_handler (y_acts s SIGINT) = HFun 77 /\
  let s' := y_run C15_os s sch in
  y_loc s' 1 = LDone /\ y_loc s' 2 = LDone /\ sa_handler (y_acts s' SIGINT) = HIgn.
Proof.
  exists (mksysall (k_act C15_kern) (fun _ => L1) (fun _ => 0%N)), [1; 2; 1; 1; 1; 1; 1; 1; 2; 2; 2; 2; 2; 2].
  assert (H : sane C15_os (mkkern (k_act C15_kern) 0)).
  { split; [reflexivity|]. split; [|split; reflexivity].
    intros sig. unfold C15_kern, upd. cbn [k_act]. destruct (sig =? SIGINT); reflexivity. }
  split; [exact H|]. split; [exact H|]. vm_compute. repeat split.
Qed.
Print Assumptions C52_overlap_refuted.
