(** Properties C11 - C14: exec. *)
From Coq Require Import Ascii String.
From Verif Require Import ExecModel ExecSpec ExecProofs.
Import List ListNotations.

(** C11.  Memory safety, termination by NULL and absence of LD_PRELOAD hold in
    general.  "Keeps every other variable" holds when no other variable mentions
    the text LD_PRELOAD. *)
Theorem C11_safe_no_preload : forall pagesize mmap_ok env,
  0 < pagesize -> (mmap_ok = true \/ Z.of_nat (length env) <= 248) ->
  exists cap new, copy_environ pagesize mmap_ok env = Ok (cap, map Some new ++ [None]) /\
    Z.of_nat (length new) + 1 <= cap /\
    (forall e, In e new -> sets_preload e = false) /\ (forall e, In e new -> In e env).
Proof.
  intros pagesize mmap_ok env Hp Hm.
  destruct (copy_environ_ok pagesize mmap_ok env Hp Hm) as (cap & H1 & H2).
  exists cap, (kept env). split; [exact H1|]. split; [exact H2|].
  split; intros e He; apply filter_In in He; destruct He as [He1 He2]; [|exact He1].
  destruct (sets_preload e) eqn:E; [|reflexivity].
  apply sets_preload_contains in E. rewrite E in He2. discriminate.
Qed.
Print Assumptions C11_safe_no_preload.

Theorem C11_keeps_others_partial : forall pagesize mmap_ok env,
  0 < pagesize -> (mmap_ok = true \/ Z.of_nat (length env) <= 248) ->
  (forall e, In e env -> sets_preload e = false -> ~ exists a b, e = a ++ str "LD_PRELOAD" ++ b) ->
  exists cap, copy_environ pagesize mmap_ok env =
    Ok (cap, map Some (filter (fun e => negb (sets_preload e)) env) ++ [None]).
Proof.
  intros pagesize mmap_ok env Hp Hm Hother.
  destruct (copy_environ_ok pagesize mmap_ok env Hp Hm) as (cap & H1 & _).
  exists cap. rewrite H1. unfold kept.
  rewrite (filter_ext_in (fun e => negb (contains LD_PRELOAD e)) (fun e => negb (sets_preload e)));
    [reflexivity|].
  intros e He. f_equal. destruct (sets_preload e) eqn:E.
  - now apply sets_preload_contains.
  - destruct (contains LD_PRELOAD e) eqn:C; [|reflexivity].
    apply contains_iff in C. now destruct (Hother e He E C).
Qed.
Print Assumptions C11_keeps_others_partial.

(** In general: what is dropped is exactly every string with LD_PRELOAD somewhere in it;
    the others stay in order. *)
Theorem C11_exactly : forall pagesize mmap_ok env,
  0 < pagesize -> (mmap_ok = true \/ Z.of_nat (length env) <= 248) ->
  exists cap keep, copy_environ pagesize mmap_ok env = Ok (cap, map Some (filter keep env) ++ [None]) /\
    forall e, keep e = false <-> exists a b, e = a ++ str "LD_PRELOAD" ++ b.
Proof.
  intros pagesize mmap_ok env Hp Hm.
  destruct (copy_environ_ok pagesize mmap_ok env Hp Hm) as (cap & H1 & _).
  exists cap, (fun e => negb (contains LD_PRELOAD e)). split; [exact H1|].
  intros e. rewrite negb_false_iff. apply contains_iff.
Qed.
Print Assumptions C11_exactly.

(** The client's monitor_real_execve: NULL arguments are refused, and otherwise the new
    program gets exactly that environment. *)
Theorem C11_real_execve : forall pagesize mmap_ok path argv envp,
  (monitor_real_execve pagesize mmap_ok path argv envp = None <->
     path = None \/ argv = 0 \/ envp = None) /\
  (forall env r, envp = Some env -> monitor_real_execve pagesize mmap_ok path argv envp = Some r ->
     r = copy_environ pagesize mmap_ok env).
Proof.
  intros pagesize mmap_ok path argv envp. unfold monitor_real_execve.
  destruct path as [p|], envp as [env|]; split; try tauto; try discriminate.
  - destruct (Z.eqb_spec argv 0); split; auto; try discriminate. intros [|[|]]; congruence.
  - intros env' r E. injection E as <-. destruct (argv =? 0); congruence.
Qed.
Print Assumptions C11_real_execve.

Example C11_real_execve_example :
  monitor_real_execve 4096 true (Some (str "/bin/ls")) 5 (Some [str "LD_PRELOAD=x"; str "A=b"]) =
  Some (Ok (250, [Some (str "A=b"); None])).
Proof. reflexivity. Qed.

(** A variable that only mentions the text is dropped. *)
Theorem C11_other_variable_dropped_refuted : exists env e,
  In e env /\ sets_preload e = false /\
  copy_environ 4096 true env = Ok (250, [None]).
Proof.
  exists [str "NOTE=unset LD_PRELOAD first"], (str "NOTE=unset LD_PRELOAD first").
  vm_compute. repeat split. now left.
Qed.
Print Assumptions C11_other_variable_dropped_refuted.

(** C12: execl/execlp ([want] false) and execle ([want] true).  The caller passes
    [first], then [args], then NULL, then for execle the environment. *)
Theorem C12_arguments_partial : forall want first args tail,
  first <> 0 -> Forall (fun a => a <> 0) args -> (want = true -> tail <> []) ->
  copy_va_args want first (args ++ 0 :: tail) =
  Ok (first :: args ++ [0], if want then hd_error tail else None).
Proof. intros want first args tail _. exact (copy_va_args_ok want first args tail). Qed.
Print Assumptions C12_arguments_partial.

(** With no arguments at all, execl(path, NULL), the code reads on. *)
Theorem C12_null_first_refuted :
  copy_va_args false 0 [] = BadRead /\
  exists garbage argv, copy_va_args false 0 garbage = Ok (argv, None) /\ argv <> [0].
Proof. split; [reflexivity|]. exists [77; 0], [0; 77; 0]. split; [reflexivity|discriminate]. Qed.
Print Assumptions C12_null_first_refuted.

Example C12_example :
  copy_va_args true 1 (map Z.of_nat (seq 2 130) ++ [0; 99]) =
  Ok (map Z.of_nat (seq 1 131) ++ [0], Some 99).
Proof. vm_compute. reflexivity. Qed.

(** C13.  The full claim ranges over every PATH and name; proved when PATH is set,
    has no empty element, fits the buffer, and the name is not empty. *)
Theorem C13_prediction_partial : forall access path file,
  file <> [] ->
  (forall d, In d (elements path) -> d <> []) ->
  (forall d, In d (elements path) -> Z.of_nat (length d) + Z.of_nat (length file) + 2 <= 4096) ->
  is_executable access (Some path) (Some file) =
  Ok (existsb access (candidates (Some path) file)).
Proof.
  intros access path file Hne Hel Hfit. apply is_executable_search; [exact Hne| |].
  - apply forallb_forall. intros d Hd. specialize (Hel d Hd). now destruct d.
  - apply Forall_forall. exact Hfit.
Qed.
Print Assumptions C13_prediction_partial.

(** With a slash nothing else is needed. *)
Theorem C13_slash : forall access path file,
  existsb (Ascii.eqb "/"%char) file = true ->
  is_executable access path (Some file) = Ok (existsb access (candidates path file)).
Proof.
  intros access path file H. unfold is_executable, candidates. rewrite has_char_spec.
  change SLASH with "/"%char. rewrite H. cbn. now rewrite orb_false_r.
Qed.
Print Assumptions C13_slash.

(** No name, no prediction. *)
Theorem C13_null : forall access path, is_executable access path None = Ok false.
Proof. reflexivity. Qed.
Print Assumptions C13_null.

(** Each restriction is needed. *)
Theorem C13_empty_element_refuted : exists access path file,
  is_executable access (Some path) (Some file) = Ok false /\
  existsb access (candidates (Some path) file) = true.
Proof.
  exists (fun b => beqb b (str "tool")), (str "/bin::/usr/bin"), (str "tool").
  vm_compute. split; reflexivity.
Qed.
Print Assumptions C13_empty_element_refuted.

Theorem C13_empty_name_refuted : exists access path,
  is_executable access (Some path) (Some []) = Ok true /\
  existsb access (candidates (Some path) []) = false.
Proof. exists (fun b => beqb b (str "/bin/")), (str "/bin"). vm_compute. split; reflexivity. Qed.
Print Assumptions C13_empty_name_refuted.

Theorem C13_unset_path_refuted : exists access file,
  is_executable access None (Some file) = BadRead.
Proof. exists (fun _ => true), (str "ls"). reflexivity. Qed.
Print Assumptions C13_unset_path_refuted.

Theorem C13_long_path_refuted : exists access path file,
  is_executable access (Some path) (Some file) = Overrun.
Proof. exists (fun _ => true), (repeat "a"%char 4095), (str "ls"). vm_compute. reflexivity. Qed.
Print Assumptions C13_long_path_refuted.

Example C13_example :
  let access := fun b => beqb b (str "/usr/bin/ls") in
  is_executable access (Some (str "/bin:/usr/bin")) (Some (str "ls")) = Ok true /\
  is_executable access (Some (str "/bin:/usr/bin")) (Some (str "cat")) = Ok false /\
  candidates (Some (str "/bin:/usr/bin")) (str "ls") = [str "/bin/ls"; str "/usr/bin/ls"].
Proof. vm_compute. repeat split. Qed.

(** C14: one real exec with the caller's arguments; exit callbacks and (preload
    build) the library callback before it iff the target tests as executable; the
    result is the real one. *)
Definition callbacks (w : world) (predicted : bool) : list event :=
  if predicted then (if w_dynamic w then [EExit; EFiniLib] else [EExit]) else [].

Theorem C14_execv : forall w path argv ret,
  monitor_execv w path argv ret =
  Ok (callbacks w (match path with Some p => w_access w p | None => false end) ++
      [EReal Execv path argv 0], ret).
Proof.
  intros w path argv ret. unfold monitor_execv, do_exec, access_opt, callbacks.
  destruct path as [p|]; [|reflexivity]. destruct (w_access w p), (w_dynamic w); reflexivity.
Qed.
Print Assumptions C14_execv.

Theorem C14_execve : forall w path argv envp ret,
  monitor_execve w path argv envp ret =
  Ok (callbacks w (match path with Some p => w_access w p | None => false end) ++
      [EReal Execve path argv envp], ret).
Proof.
  intros w path argv envp ret. unfold monitor_execve, do_exec, access_opt, callbacks.
  destruct path as [p|]; [|reflexivity]. destruct (w_access w p), (w_dynamic w); reflexivity.
Qed.
Print Assumptions C14_execve.

Theorem C14_execvp_partial : forall w path file argv ret,
  w_path w = Some path -> file <> [] ->
  (forall d, In d (elements path) -> d <> []) ->
  (forall d, In d (elements path) -> Z.of_nat (length d) + Z.of_nat (length file) + 2 <= 4096) ->
  monitor_execvp w (Some file) argv ret =
  Ok (callbacks w (existsb (w_access w) (candidates (Some path) file)) ++
      [EReal Execvp (Some file) argv 0], ret).
Proof.
  intros w path file argv ret Hp Hne Hel Hfit. unfold monitor_execvp. rewrite Hp.
  rewrite (C13_prediction_partial (w_access w) path file Hne Hel Hfit).
  unfold do_exec, callbacks.
  destruct (existsb (w_access w) (candidates (Some path) file)), (w_dynamic w); reflexivity.
Qed.
Print Assumptions C14_execvp_partial.

(** The exit callbacks can run although the exec then fails and the process goes on
    (the prediction cannot see, say, a bad file format). *)
Theorem C14_callbacks_then_failure : exists w path argv,
  monitor_execv w path argv (Some (-1)) =
  Ok ([EExit; EFiniLib; EReal Execv path argv 0], Some (-1)).
Proof. exists (mkworld (fun _ => true) None true), (Some (str "/tmp/x")), 5. reflexivity. Qed.
Print Assumptions C14_callbacks_then_failure.
