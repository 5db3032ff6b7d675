(** Property C09 while other threads register client handlers during the wait. *)
From Verif Require Import SignalModel SignalSpec SignalProofs SigwaitModel SigwaitSpec
  SigwaitProofs SigwaitLiveModel SigwaitLiveSpec SigwaitLiveProofs SignalProps SigwaitProps.

(** For every program start, every calls made before the wait and between the kernel's
    answers, by any thread: what is called during the wait, in order, and the answer
    that ends it. *)
Theorem C09_live : forall c k0 h set l begun,
  0 <= c_rtmin c ->
  live_loop c set (fst (run c (start k0) h)) l begun =
  (live_calls c set h begun l, live_answer c set h begun l).
Proof. intros c k0 h set l begun R. apply (live_loop_is c k0); [exact R|now left]. Qed.
Print Assumptions C09_live.

(** In words: a handler called in the wait is the one the client registered last, at
    the time the signal came; and a signal handed to the application was in its set,
    and if a handler was registered then, it did not accept the signal. *)
Theorem C09_live_last : forall c k0 h set l begun evs out,
  0 <= c_rtmin c -> live_loop c set (fst (run c (start k0) h)) l begun = (evs, out) ->
  (forall f s, In (WClient f s) evs -> exists l1 ops t l2, l = l1 ++ (ops, t) :: l2 /\
     w_ret t = s /\ managed c s /\
     last_client (h ++ concat (map fst l1) ++ ops) s None = Some f) /\
  (forall t, out = Some t -> exists l1 ops l2, l = l1 ++ (ops, t) :: l2 /\
     ((w_ret t < 0 /\ w_errno t <> EINTR) \/
      (0 <= w_ret t /\ (1 <= w_ret t < 65 -> mem (w_ret t) set = true) /\
       (managed c (w_ret t) ->
        last_client (h ++ concat (map fst l1) ++ ops) (w_ret t) None <> None ->
        w_client t <> 0)))).
Proof.
  intros c k0 h set l begun evs out R E. rewrite C09_live in E by exact R.
  injection E as <- <-. revert h begun.
  induction l as [|[ops t] r IH]; intros h begun; cbn [live_calls live_answer].
  { split; [intros f s []|intros t H; discriminate H]. }
  destruct (IH (h ++ ops) (begun_after (in_force c (h ++ ops)) set begun t)) as [IH1 IH2].
  split.
  - intros f s Hin. apply in_app_or in Hin. destruct Hin as [Hin|Hin].
    + assert (X : in_force c (h ++ ops) (w_ret t) = Some f /\ w_ret t = s).
      { destruct (classify (in_force c (h ++ ops)) set begun t); try (now destruct Hin);
        try (destruct Hin as [Hin|[]]; discriminate Hin);
        (destruct (in_force c (h ++ ops) (w_ret t)) as [f'|]; [|now destruct Hin];
         destruct Hin as [Hin|[]]; injection Hin as <- <-; auto). }
      destruct X as [F <-]. exists [], ops, t, r. cbn [map concat app].
      unfold in_force in F. destruct (managedb c (w_ret t)) eqn:M; [|discriminate].
      apply managedb_spec in M. auto.
    + destruct (restarts _); [|now destruct Hin].
      destruct (IH1 f s Hin) as (l1 & ops' & t' & l2 & -> & H1 & H2 & H3).
      exists ((ops, t) :: l1), ops', t', l2. cbn [map concat fst]. rewrite !app_assoc in *. auto.
  - intros t0 H. destruct (restarts (classify (in_force c (h ++ ops)) set begun t)) eqn:K.
    + destruct (IH2 t0 H) as (l1 & ops' & l2 & -> & H1).
      exists ((ops, t) :: l1), ops', l2. cbn [map concat fst]. split; [reflexivity|].
      rewrite !app_assoc in *. exact H1.
    + injection H as <-. exists [], ops, r. cbn [map concat app]. split; [reflexivity|].
      assert (F : first_for_app (in_force c (h ++ ops)) set begun [t] = Some t)
        by (cbn; now rewrite K).
      apply first_for_app_is in F. destruct F as [_ [F|(F1 & F2 & F3)]]; [now left|right].
      split; [exact F1|]. split; [exact F2|]. intros M L. apply managedb_spec in M.
      pose proof (managed_range c _ M) as RG. apply F3; [unfold in_range, NSIG in RG; lia|].
      unfold in_force. now rewrite M.
Qed.
Print Assumptions C09_live_last.

(** A wait that begins before the first signal call of the program: signal 14 is handed
    on while nobody wants it (foreign), then the client registers handler 5 and accepts
    it, then replaces it by 6, which declines it; then the application's signal. *)
Definition c09_live_run : list (list op * turn) :=
  [([], c09_turn 14); ([OpClient 14 (Some 5%N) None], c09_turn 14);
   ([OpSigaction 14 (Some act0) true; OpClient 14 (Some 6%N) None],
    mkturn 14 0 false false 42 true true false false 1);
   ([OpClient 14 None None], c09_turn 14); ([], c09_turn 15)].
Example C09_live_example :
  0 <= c_rtmin cfg0 /\ managed cfg0 14 /\
  live_loop cfg0 (sadd 15 0) (fst (run cfg0 (start kern0) [])) c09_live_run false =
  ([WClient 5 14; WClient 6 14], Some (c09_turn 15)).
Proof. split; [cbn; lia|]. split; [apply managedb_spec; reflexivity|]. vm_compute. reflexivity. Qed.
