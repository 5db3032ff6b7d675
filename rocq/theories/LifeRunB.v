(** Executable forms of the assumptions on schedules, for the examples. *)
From Verif Require Export LifeReenter LifeThreadProps.

Local Open Scope Z_scope.

Definition orderly_b (s : state) (t : Z) (c : choice) : bool :=
  clean_b s t c &&
  match c with CChild => negb (g_cookie (s_g s)) | _ => true end &&
  match c with
  | CFatal | CCall _ => (t =? MAIN) || match th_tsd (s_th s t) with None => true | _ => false end
                        || existsb owner (th_stack (s_th s t))
  | _ => true
  end.
Lemma orderly_b_ok s t c : orderly_b s t c = true -> orderly s t c.
Proof.
  unfold orderly_b. intros H. apply andb_prop in H. destruct H as [H L]. apply andb_prop in H. destruct H as [C E].
  split; [now apply clean_b_ok|]. split.
  - intros ->. now apply Bool.negb_true_iff in E.
  - intros D. assert (X : ((t =? MAIN) || match th_tsd (s_th s t) with None => true | _ => false end
                        || existsb owner (th_stack (s_th s t)))%bool = true).
    { destruct D as [->|(a & ->)]; exact L. }
    apply Bool.orb_prop in X. destruct X as [X|X]; [|auto]. apply Bool.orb_prop in X. destruct X as [X|X].
    + left. now apply Z.eqb_eq.
    + right. left. now destruct (th_tsd (s_th s t)).
Qed.
Lemma orderly_run dyn l s : run_ok orderly_b dyn init l = Some s -> reach dyn orderly s.
Proof. intros H. eapply run_ok_reach; [exact orderly_b_ok|apply reach_init|exact H]. Qed.

Definition marks_b (s : state) (t : Z) (c : choice) : bool :=
  orderly_b s t c &&
  match th_stack (s_th s t) with
  | FEPWin _ (Some _) :: _ => match c with CStep => true | _ => false end
  | _ => true
  end.
Lemma marks_b_ok s t c : marks_b s t c = true -> orderly_marks s t c.
Proof.
  unfold marks_b. intros H. apply andb_prop in H. destruct H as [A B]. split; [now apply orderly_b_ok|].
  intros how n r E. rewrite E in B. now destruct c.
Qed.
Lemma marks_run dyn l s : run_ok marks_b dyn init l = Some s -> reach dyn orderly_marks s.
Proof. intros H. eapply run_ok_reach; [exact marks_b_ok|apply reach_init|exact H]. Qed.

(** Schedules.  Thread t in application code calls exit() in a process with threads
    and wins; up to the call of begin_process_exit. *)
Definition win (t : Z) : list (Z * choice) := [(t, CCall AExit)] ++ ticks t 4.
(** begin_process_exit returns, no other thread is on the list; up to the call of
    fini_process. *)
Definition quiet_exit (t : Z) : list (Z * choice) := [(t, CRet 0)] ++ ticks t 12.
