(** Property C67: how long sigtimedwait() takes.  [timed_loop] gives the time spent, the
    number of restarts and the answer that ended the call. *)
From Verif Require Import SignalModel SigwaitModel SigwaitSpec SigwaitProofs SigtimeModel.

(** The answer is the one of the untimed model, so C09 applies to it. *)
Theorem C67_same_answer : forall clients set l fs,
  snd (timed_loop clients set l fs) = first_for_app clients set fs (map t_turn l).
Proof.
  intros clients set l fs. rewrite <- wait_loop_result. revert fs.
  induction l as [|x r IH]; intros fs; [reflexivity|]. cbn [timed_loop map wait_loop].
  destruct (helper clients set (t_turn x) fs) as [[evs fs'] [|]]; [|reflexivity].
  specialize (IH fs'). destruct (timed_loop clients set r fs') as [[d n] out].
  destruct (wait_loop clients set (map t_turn r) fs') as [e o]. exact IH.
Qed.
Print Assumptions C67_same_answer.

(** It never reports a timeout early. *)
Theorem C67_not_early : forall clients set l fs timeout d n t,
  Forall (kernel_waits timeout) l -> timed_loop clients set l fs = (d, n, Some t) ->
  w_ret t < 0 -> w_errno t = EAGAIN -> timeout <= d.
Proof.
  intros clients set l fs timeout d n t H. revert fs d n.
  induction H as [|x r [K1 K2] H IH]; intros fs d n E Hr He; [discriminate|].
  cbn [timed_loop] in E. destruct (helper clients set (t_turn x) fs) as [[evs fs'] [|]].
  - destruct (timed_loop clients set r fs') as [[d' n'] out] eqn:E'. injection E as <- <- ->.
    specialize (IH fs' d' n' E' Hr He). lia.
  - injection E as <- <- <-. rewrite (K2 Hr He). lia.
Qed.
Print Assumptions C67_not_early.

(** It takes at most the timeout once more than it was restarted; the full claim (at
    most the timeout) holds when nothing restarts it. *)
Theorem C67_bound_partial : forall clients set l fs timeout d n t,
  Forall (kernel_waits timeout) l -> timed_loop clients set l fs = (d, n, Some t) ->
  d <= (Z.of_nat n + 1) * timeout.
Proof.
  intros clients set l fs timeout d n t H. revert fs d n.
  induction H as [|x r [K1 K2] H IH]; intros fs d n E; [discriminate|].
  cbn [timed_loop] in E. destruct (helper clients set (t_turn x) fs) as [[evs fs'] [|]].
  - destruct (timed_loop clients set r fs') as [[d' n'] out] eqn:E'. injection E as <- <- ->.
    specialize (IH fs' d' n' E'). lia.
  - injection E as <- <- <-. lia.
Qed.
Print Assumptions C67_bound_partial.

(** The time and the restarts counted are exact: if the call ends after [n] restarts,
    the turn that ended it is the one after them, and the time is that of these turns. *)
Theorem C67_exact : forall clients set l fs d n t,
  timed_loop clients set l fs = (d, n, Some t) ->
  exists x, nth_error l n = Some x /\ t_turn x = t /\
    d = fold_right Z.add 0 (map t_took (firstn (S n) l)).
Proof.
  intros clients set l. induction l as [|x r IH]; intros fs d n t E; [discriminate|].
  cbn [timed_loop] in E. destruct (helper clients set (t_turn x) fs) as [[evs fs'] [|]].
  - destruct (timed_loop clients set r fs') as [[d' n'] out] eqn:E'. injection E as <- <- ->.
    destruct (IH _ _ _ _ E') as (y & Hy & Ht & ->). exists y. auto.
  - injection E as <- <- <-. exists x. cbn. repeat split. lia.
Qed.
Print Assumptions C67_exact.

(** Two interruptions, then a timeout. *)
Definition tm (ret err took : Z) : tturn :=
  mktturn (mkturn ret err false false 42 true true false false 0) took.
Definition c09_clients0 (s : Z) : option N := if s =? 14 then Some 5%N else None.
Example C67_example :
  Forall (kernel_waits 100) [tm (-1) EINTR 60; tm 14 0 90; tm (-1) EAGAIN 100] /\
  timed_loop c09_clients0 (sadd 15 0) [tm (-1) EINTR 60; tm 14 0 90; tm (-1) EAGAIN 100] false =
    (250, 2%nat, Some (t_turn (tm (-1) EAGAIN 100))).
Proof.
  split; [repeat constructor; cbn; unfold EAGAIN, EINTR; lia|]. vm_compute. reflexivity.
Qed.

(** A client's sampling signal that comes more often than the timeout: for every time
    there is a run in which the call is still waiting, although every single signal
    interrupted it well before the timeout. *)
Theorem C67_never_ends_refuted : forall timeout bound, 2 <= timeout ->
  exists l, Forall (kernel_waits timeout) l /\
    Forall (fun x => w_ret (t_turn x) = -1 /\ w_errno (t_turn x) = EINTR) l /\
    let '(d, _, out) := timed_loop (fun _ => None) 0 l false in bound <= d /\ out = None.
Proof.
  intros timeout bound HT. exists (repeat (tm (-1) EINTR (timeout - 1)) (Z.to_nat bound)).
  assert (X : forall n, let '(d, _, out) :=
     timed_loop (fun _ => None) 0 (repeat (tm (-1) EINTR (timeout - 1)) n) false in
     d = Z.of_nat n * (timeout - 1) /\ out = None).
  { induction n as [|n IH]; [split; [lia|reflexivity]|].
    cbn [repeat timed_loop]. change (helper (fun _ : Z => None) 0 (t_turn (tm (-1) EINTR (timeout - 1))) false)
      with (@nil wevent, false, true). cbv iota.
    destruct (timed_loop _ _ _ _) as [[d k] out]. destruct IH as [-> ->]. cbn [t_took tm].
    split; [lia|reflexivity]. }
  split; [|split].
  - apply Forall_forall. intros x Hx. apply repeat_spec in Hx. subst x. split; cbn.
    + lia.
    + unfold EINTR, EAGAIN. lia.
  - apply Forall_forall. intros x Hx. apply repeat_spec in Hx. subst x. split; reflexivity.
  - specialize (X (Z.to_nat bound)). destruct (timed_loop _ _ _ _) as [[d k] out].
    destruct X as [-> ->]. split; [nia|reflexivity].
Qed.
Print Assumptions C67_never_ends_refuted.
