(** C52, nested calls; C84, cancellation inside system(). *)
From Verif Require Import SysNestSpec SystemProofs SysNest SystemProps.

(** C52.  Any number of threads make calls of system(), in any order of steps.  If the
    calls are nested (whoever ignored SIGINT last is the first to restore it, and the
    same for SIGQUIT) then, whenever nobody is inside, every disposition and every
    thread's mask is what it was.  Calls one after the other are a special case. *)
Theorem C52_nested_partial : forall o s sch,
  (forall t, sane o (mkkern (y_acts s) (y_mask s t))) -> idle s ->
  nested o int_set [] s sch = true -> nested o quit_set [] s sch = true -> idle (y_run o s sch) ->
  forall t, same_signals (mkkern (y_acts (y_run o s sch)) (y_mask (y_run o s sch) t)) (mkkern (y_acts s) (y_mask s t)).
Proof.
  intros o s sch SA ID N1 N2 ID' t. destruct (all_back o s sch SA ID N1 N2 ID') as [A B]. split; cbn; [exact A|exact (B t)].
Qed.
Print Assumptions C52_nested_partial.

Lemma C15_kern_sane m : N.land m (k_noblock C15_os) = 0%N -> sane C15_os (mkkern (k_act C15_kern) m).
Proof.
  intros H. split; [exact H|]. split; [|split; reflexivity].
  intros sig. unfold C15_kern, upd. cbn [k_act]. destruct (sig =? SIGINT); reflexivity.
Qed.

(** Threads 1 and 2: 2's whole call lies inside 1's; then 3's call; the rest never call. *)
Definition three : sysall := mksysall (k_act C15_kern) (fun t => if (1 <=? t) && (t <=? 3) then L1 else LDone) (fun _ => 0%N).
Definition inside : list Z := [1; 1; 2; 2; 2; 1; 2; 2; 2; 2; 1; 1; 1; 1] ++ [3; 3; 3; 3; 3; 3; 3].
Example C52_nested_case :
  (forall t, sane C15_os (mkkern (y_acts three) (y_mask three t))) /\ idle three /\
  nested C15_os int_set [] three inside = true /\ nested C15_os quit_set [] three inside = true /\
  idle (y_run C15_os three inside) /\ y_loc (y_run C15_os three inside) 2 = LDone /\
  sa_handler (y_acts three SIGINT) = HFun 77.
Proof.
  split; [intros t; apply C15_kern_sane; reflexivity|].
  split; [intros t; cbn; destruct ((1 <=? t) && (t <=? 3)); auto|].
  split; [vm_compute; reflexivity|]. split; [vm_compute; reflexivity|].
  split; [|split; vm_compute; reflexivity].
  intros t. right. destruct (Z.eq_dec t 1) as [->|N1]; [vm_compute; reflexivity|].
  destruct (Z.eq_dec t 2) as [->|N2]; [vm_compute; reflexivity|].
  destruct (Z.eq_dec t 3) as [->|N3]; [vm_compute; reflexivity|].
  assert (X : forall sch s, (forall u, In u sch -> u <> t) -> y_loc (y_run C15_os s sch) t = y_loc s t).
  { induction sch as [|u r IH]; intros s H; [reflexivity|]. change (y_run C15_os s (u :: r)) with (y_run C15_os (y_step C15_os s u) r).
    rewrite IH by (intros z I; apply H; now right). apply loc_other. intros E. now destruct (H u (or_introl eq_refl)). }
  rewrite X.
  - cbn. destruct ((1 <=? t) && (t <=? 3)) eqn:E; [|reflexivity]. apply andb_prop in E. destruct E as [E1 E2].
    apply Z.leb_le in E1, E2. lia.
  - intros u I. cbn in I. intros ->. repeat (destruct I as [I|I]; [congruence|]). exact I.
Qed.

(** *** C84 *)

(** If no cancellation reaches a thread while it waits for its command, cancellation
    changes nothing: nested calls leave dispositions and masks as they were. *)
Theorem C84_unhurt_partial : forall o s l,
  (forall t, sane o (mkkern (y_acts s) (y_mask s t))) -> idle s -> unhurt o s l = true ->
  nested o int_set [] s (steps_of l) = true -> nested o quit_set [] s (steps_of l) = true -> idle (x_run o s l) ->
  forall t, same_signals (mkkern (y_acts (x_run o s l)) (y_mask (x_run o s l) t)) (mkkern (y_acts s) (y_mask s t)).
Proof.
  intros o s l SA ID U N1 N2 ID' t. destruct (unhurt_run o l s s) as (A & L & M); [repeat split; auto|exact U|].
  assert (J : idle (y_run o s (steps_of l))) by (intros u; rewrite <- L; apply ID').
  destruct (C52_nested_partial o s (steps_of l) SA ID N1 N2 J t) as [X Y]. split; cbn in *; [rewrite A; exact X|rewrite M; exact Y].
Qed.

(** A cancellation that comes before the call has started the command, and one after. *)
Example C84_unhurt_case : exists l, In (Cancel 1) l /\ unhurt C15_os three l = true /\
  nested C15_os int_set [] three (steps_of l) = true /\ nested C15_os quit_set [] three (steps_of l) = true /\
  y_loc (x_run C15_os three l) 1 = LDone /\ y_loc (x_run C15_os three l) 2 = LDone.
Proof.
  exists [Go 1; Cancel 1; Go 1; Go 1; Go 1; Cancel 1; Go 1; Go 1; Go 1; Go 2; Go 2; Go 2; Go 2; Go 2; Go 2; Go 2].
  split; [right; now left|]. repeat split; vm_compute; reflexivity.
Qed.

(** In every state: a thread that calls system() while nobody else does and is cancelled
    while it waits leaves SIGINT and SIGQUIT ignored for good, whatever they were and
    whatever calls of system() follow, cancelled or not; its own cleanup code runs with
    SIGCHLD blocked. *)
Theorem C84_cancel_stays : forall o s t l,
  (forall u, sane o (mkkern (y_acts s) (y_mask s u))) -> idle s -> y_loc s t = L1 ->
  mem SIGCHLD (k_noblock o) = false ->
  let s1 := x_run o s [Go t; Go t; Go t; Cancel t] in
  y_loc s1 t = LDone /\ mem SIGCHLD (y_mask s1 t) = true /\
  sa_handler (y_acts (x_run o s1 l) SIGINT) = HIgn /\ sa_handler (y_acts (x_run o s1 l) SIGQUIT) = HIgn.
Proof.
  intros o s t l SA ID L NB. destruct (cancel_stays o s t l SA ID L) as (A & B & (C & D & _)). cbv zeta.
  split; [exact A|]. split; [|rewrite C, D; split; reflexivity].
  rewrite B. unfold mem in *. rewrite N.ldiff_spec, N.lor_spec, NB. unfold sigchld_set, sadd. rewrite N.setbit_eq. now rewrite Bool.orb_true_r.
Qed.

(** So the property is false: the caller had a handler for SIGINT. *)
Theorem C84_cancel_refuted : exists o s t,
  (forall u, sane o (mkkern (y_acts s) (y_mask s u))) /\ idle s /\ y_loc s t = L1 /\ sa_handler (y_acts s SIGINT) = HFun 77 /\
  forall l, sa_handler (y_acts (x_run o (x_run o s [Go t; Go t; Go t; Cancel t]) l) SIGINT) = HIgn.
Proof.
  exists C15_os, three, 1. split; [intros u; apply C15_kern_sane; reflexivity|].
  split; [intros u; cbn; destruct ((1 <=? u) && (u <=? 3)); auto|]. split; [reflexivity|]. split; [reflexivity|].
  intros l. apply C84_cancel_stays; try reflexivity.
  - intros u. apply C15_kern_sane. reflexivity.
  - intros u. cbn. destruct ((1 <=? u) && (u <=? 3)); auto.
Qed.

(** And of the callbacks only pre_fork has been issued when the call is left in
    waitpid: post_fork is missing.  For every command, child and number of EINTRs. *)
Theorem C84_no_post_fork : forall o shell_ok pre command pid n libc k, sane o k -> pid > 0 ->
  exists tr, system_parent o true shell_ok pre (Some command) pid (repeat WIntr n) libc k = Running tr /\
    callbacks_of tr = [SPreFork] /\ forks_of tr = [pid].
Proof.
  intros o shell_ok pre command pid n libc k SN P.
  assert (W : wait_answer (repeat WIntr n) = None) by (unfold wait_answer; induction n as [|n IH]; [reflexivity|exact IH]).
  pose proof (C15_application o shell_ok pre command pid (repeat WIntr n) libc k SN ltac:(lia)) as X.
  destruct (system_parent o true shell_ok pre (Some command) pid (repeat WIntr n) libc k) as [st k' tr|tr].
  - destruct X as (_ & _ & _ & _ & [[A _]|[_ A]]); [lia|congruence].
  - exists tr. split; [reflexivity|]. destruct X as (_ & _ & A & B & _). auto.
Qed.
Print Assumptions C84_unhurt_partial.
Print Assumptions C84_cancel_stays.
Print Assumptions C84_cancel_refuted.
Print Assumptions C84_no_post_fork.
