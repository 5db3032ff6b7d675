(** Property C69: a signal that arrives while threads change its action is handled by
    the action before or after the change.  [dreached c k0 s]: some interleaving of
    calls and deliveries leads to s; [d_tr s] is the history, newest first; [DDone t g r]
    ends the delivery of g on thread t with result r.  See DelivSpec.v. *)
From Verif Require Import SignalModel SignalSpec SignalProofs SignalProofs2 SignalProps.
From Verif Require Import SigRaceModel SigRaceSpec SigRaceProofs SigRaceSeq.
From Verif Require Import DelivModel DelivSpec DelivProofs.

(** A delivery that no call for the same signal overlaps: the client's handler that was
    registered last is called and, unless it takes the signal, the action that the
    application set last is carried out.  Calls for other signals may overlap. *)
Theorem C69_as_sequential_partial : forall c k0 s later t g r older,
  0 <= c_rtmin c -> managed c g -> dreached c k0 s ->
  d_tr s = later ++ DDone t g r :: older ->
  apart (api older) g -> undisturbed older t g ->
  proper (last_client (made older) g None) (last_app (made older) g (k_act k0 g)) t g
         (client_part older t) r.
Proof.
  intros c k0 s later t g r older Hrt Hg R E A U. apply managedb_spec in Hg.
  destruct (deliv_reach c k0 s Hrt R) as [_ H]. rewrite E in H. exact (hist_ok_at _ _ _ _ _ _ _ H Hg A U).
Qed.
Print Assumptions C69_as_sequential_partial.

(** A delivery that calls for the same signal overlap: what is done is what the action
    in force at the arrival says, or an action asked for since, if these agree about
    SA_SIGINFO. *)
Theorem C69_before_or_after_partial : forall c k0 s later t g r older,
  0 <= c_rtmin c -> managed c g -> dreached c k0 s ->
  d_tr s = later ++ DDone t g r :: older ->
  apart (api older) g -> quiet (api (at_arrival older t)) g ->
  (forall a b, candidate k0 older t g a -> candidate k0 older t g b ->
     N.testbit (sa_flags a) 2 = N.testbit (sa_flags b) 2) ->
  match r with
  | Taken => exists f, client_candidate older t g (Some f)
  | Crashed => True
  | r => exists a, candidate k0 older t g a /\ r = app_result a g
  end.
Proof.
  intros c k0 s later t g r older Hrt Hg R E A Q S. apply managedb_spec in Hg.
  destruct (cand_reach c k0 s Hrt R) as [_ H]. rewrite E in H. apply cand_at in H. specialize (H Hg A Q).
  destruct r; auto; try contradiction.
  destruct H as ((a & A1 & A2) & (b & B1 & B2) & N1 & N2). exists a. split; [exact A1|].
  unfold app_result, disposition_of. rewrite A2, (S a b A1 B1), B2.
  destruct h; try reflexivity; contradiction.
Qed.
Print Assumptions C69_before_or_after_partial.

(** The client's handler that is called was registered at the arrival or since. *)
Theorem C69_client_before_or_after_partial : forall c k0 s later t g f older,
  0 <= c_rtmin c -> managed c g -> dreached c k0 s ->
  d_tr s = later ++ DClient t g f :: older ->
  apart (api older) g -> quiet (api (at_arrival older t)) g ->
  client_candidate older t g (Some f).
Proof.
  intros c k0 s later t g f older Hrt Hg R E A Q. apply managedb_spec in Hg.
  destruct (cand_reach c k0 s Hrt R) as [_ H]. rewrite E in H. apply cand_at in H. exact (H Hg A Q).
Qed.
Print Assumptions C69_client_before_or_after_partial.

(** Under every interleaving: nothing is done that nobody asked for.  A handler that runs
    is one the application set, a way of calling it is one it asked for; a signal is
    ignored or has its default effect only if an action says so; it is taken only
    if the client registered a handler; it is never refused. *)
Theorem C69_nothing_invented : forall c k0 s later t g r older,
  0 <= c_rtmin c -> managed c g -> dreached c k0 s ->
  d_tr s = later ++ DDone t g r :: older ->
  match r with
  | Refused => False
  | Taken => exists f a, In (OpClient g (Some f) a) (made older)
  | Ran f b => (exists a, asked k0 (made older) g a /\ sa_handler a = f) /\
               (exists a, asked k0 (made older) g a /\ N.testbit (sa_flags a) 2 = b) /\
               f <> HDfl /\ f <> HIgn
  | Ignored | NoAction | Stopped | Terminated =>
      exists a, asked k0 (made older) g a /\ r = app_result a g
  | Crashed => True
  end.
Proof.
  intros c k0 s later t g r older Hrt Hg R E. apply managedb_spec in Hg.
  destruct (src_reach c k0 s Hrt R) as [_ H]. rewrite E in H. apply all_from_at in H. exact (H Hg).
Qed.
Print Assumptions C69_nothing_invented.

(** Under every interleaving: if no call during the delivery takes a handler of the
    signal away, the delivery does not crash. *)
Theorem C69_no_crash_partial : forall c k0 s later t g r older,
  dreached c k0 s -> d_tr s = later ++ DDone t g r :: older ->
  none_removed older t g -> r <> Crashed.
Proof.
  intros c k0 s later t g r older R E N.
  destruct (safe_reach c k0 s R) as [_ H]. rewrite E in H. exact (no_crash_at _ _ _ _ _ H N).
Qed.
Print Assumptions C69_no_crash_partial.

(** ** Where it fails *)
Definition dcall (t : Z) (o : op) : list (Z * dchoice) := [(t, Api (ChCall o))].
Definition dgo (t : Z) (n : nat) : list (Z * dchoice) := repeat (t, Api ChStep) n.
Definition arrives (t g : Z) : list (Z * dchoice) := [(t, Arrives g)].
Definition goes (t r : Z) (n : nat) : list (Z * dchoice) := repeat (t, Goes r) n.

Definition dseen (l : list (Z * dchoice)) : option (list devent) :=
  option_map d_tr (drun cfg0 (dstart cfg0 kern0) l).
Lemma dseen_run l tr : dseen l = Some tr ->
  exists s, drun cfg0 (dstart cfg0 kern0) l = Some s /\ d_tr s = tr.
Proof. unfold dseen. destruct (drun cfg0 (dstart cfg0 kern0) l) as [s|]; [|discriminate]. injection 1 as <-. eauto. Qed.
Ltac druns l :=
  let v := eval vm_compute in (dseen l) in
  match v with Some ?tr =>
    let Et := fresh "Et" in
    destruct (dseen_run l tr) as (s & E & Et); [vm_compute; reflexivity|];
    exists s; split; [exact E|]; rewrite Et
  end.

Definition hA : act := mkact (HFun 7) SA_SIGINFO 0.
Definition hB : act := mkact (HFun 8) 0 0.
Definition setd (a : act) : op := OpSigaction 15 (Some a) false.

(** Thread 2 sets SIG_DFL after thread 1's delivery has seen that there is a handler: the
    delivery calls address 0. *)
Definition run_dfl : list (Z * dchoice) :=
  dcall 1 (setd hA) ++ dgo 1 77 ++ arrives 1 15 ++ goes 1 0 4 ++
  dcall 2 (OpSignal 15 HDfl) ++ dgo 2 5 ++ goes 1 0 2.
Theorem C69_default_crash_refuted : exists s,
  drun cfg0 (dstart cfg0 kern0) run_dfl = Some s /\ hd_error (d_tr s) = Some (DDone 1 15 Crashed).
Proof. druns run_dfl. reflexivity. Qed.
Print Assumptions C69_default_crash_refuted.

(** The client unregisters its handler between the test and the call. *)
Definition run_client : list (Z * dchoice) :=
  dcall 1 (OpClient 15 (Some 3%N) None) ++ dgo 1 4 ++ arrives 1 15 ++ goes 1 0 2 ++
  dcall 2 (OpClient 15 None None) ++ dgo 2 3 ++ goes 1 0 1.
Theorem C69_client_crash_refuted : exists s,
  drun cfg0 (dstart cfg0 kern0) run_client = Some s /\ hd_error (d_tr s) = Some (DDone 1 15 Crashed).
Proof. druns run_client. reflexivity. Qed.
Print Assumptions C69_client_crash_refuted.

(** Thread 2 replaces a three-argument handler by a one-argument handler: the delivery
    calls the new one with three arguments, which no action ever said. *)
Definition run_mixed : list (Z * dchoice) :=
  dcall 1 (setd hA) ++ dgo 1 77 ++ arrives 1 15 ++ goes 1 0 4 ++
  dcall 2 (setd hB) ++ dgo 2 2 ++ goes 1 0 2.
Theorem C69_mixed_refuted : exists s,
  drun cfg0 (dstart cfg0 kern0) run_mixed = Some s /\
  hd_error (d_tr s) = Some (DDone 1 15 (Ran (HFun 8) true)) /\
  forall a, asked kern0 (made (d_tr s)) 15 a -> app_result a 15 <> Ran (HFun 8) true.
Proof.
  druns run_mixed. split; [reflexivity|]. intros a [->|(o & Ho & Hr)]; [discriminate|].
  cbn in Ho. destruct Ho as [<-|[<-|[]]]; injection Hr as <-; discriminate.
Qed.
Print Assumptions C69_mixed_refuted.

(** ** A case that meets the hypotheses *)

(** A client handler lets the signal pass while thread 2 changes another signal; then
    thread 2 replaces the handler while a second delivery runs. *)
Definition hC : act := mkact (HFun 9) SA_SIGINFO 0.
Definition run_ok : list (Z * dchoice) :=
  dcall 1 (setd hA) ++ dgo 1 77 ++ dcall 1 (OpClient 15 (Some 3%N) None) ++ dgo 1 4 ++
  arrives 1 15 ++ goes 1 0 2 ++ dcall 2 (OpSigaction 10 (Some hB) true) ++ dgo 2 5 ++ goes 1 1 6 ++
  dgo 2 75.
Example C69_example : exists s,
  drun cfg0 (dstart cfg0 kern0) run_ok = Some s /\ exists later older,
  d_tr s = later ++ DDone 1 15 (Ran (HFun 7) true) :: older /\
  managed cfg0 15 /\ apart (api older) 15 /\ undisturbed older 1 15 /\ none_removed older 1 15 /\
  client_part older 1 = [DClientRet 1 1; DClient 1 15 3%N].
Proof.
  druns run_ok. eexists [], _. split; [reflexivity|].
  split; [now apply managedb_spec|].
  split; [|split; [|split; [|reflexivity]]].
  - cbn. repeat split; intros; intros u; cbn;
    repeat match goal with |- context [if ?b then _ else _] => destruct b end; reflexivity.
  - cbn. split; [discriminate|]. intros u. cbn.
    repeat match goal with |- context [if ?b then _ else _] => destruct b end; reflexivity.
  - cbn. split; [reflexivity|]. intros u. cbn.
    repeat match goal with |- context [if ?b then _ else _] => destruct b end; reflexivity.
Qed.

Definition run_ok2 : list (Z * dchoice) :=
  dcall 1 (setd hA) ++ dgo 1 77 ++ arrives 1 15 ++ goes 1 0 4 ++ dcall 2 (setd hC) ++ dgo 2 2 ++ goes 1 0 2.
Example C69_example_overlap : exists s,
  drun cfg0 (dstart cfg0 kern0) run_ok2 = Some s /\ exists older,
  d_tr s = DDone 1 15 (Ran (HFun 9) true) :: older /\
  managed cfg0 15 /\ apart (api older) 15 /\ quiet (api (at_arrival older 1)) 15 /\
  (forall a b, candidate kern0 older 1 15 a -> candidate kern0 older 1 15 b ->
     N.testbit (sa_flags a) 2 = N.testbit (sa_flags b) 2) /\ none_removed older 1 15.
Proof.
  druns run_ok2. eexists. split; [reflexivity|]. split; [now apply managedb_spec|].
  assert (C : forall a, candidate kern0 [DEv (ECall 2 (setd hC)); DArrive 1 15;
                 DEv (ERet 1 (setd hA) (ret_int 0)); DEv (ECall 1 (setd hA))] 1 15 a ->
              N.testbit (sa_flags a) 2 = true).
  { intros a [->|(o & [<-|[]] & Er)]; [reflexivity|]. injection Er as <-. reflexivity. }
  split; [|split; [|split]].
  - cbn. repeat split; intros; intros u; cbn;
    repeat match goal with |- context [if ?b then _ else _] => destruct b end; reflexivity.
  - intros u. cbn. repeat match goal with |- context [if ?b then _ else _] => destruct b end; reflexivity.
  - intros a b Ha Hb. now rewrite (C a Ha), (C b Hb).
  - cbn. split; [reflexivity|]. intros u. cbn.
    repeat match goal with |- context [if ?b then _ else _] => destruct b end; reflexivity.
Qed.
