(** Property C09: the sigwait family. *)
From Verif Require Import SignalModel SigwaitModel SigwaitSpec SigwaitProofs.

(** For every sequence of kernel answers, the call ends at the first answer that
    belongs to the application, with each function's own convention. *)
Theorem C09_sigwait : forall clients set want ts begun,
  snd (sigwait clients set want ts begun) =
  match first_for_app clients set begun ts with
  | None => None                                   (* still waiting *)
  | Some t => Some (if w_ret t <? 0 then mkwret (w_errno t) None None
                    else mkwret 0 (if want then Some (w_ret t) else None) None)
  end.
Proof.
  intros clients set want ts begun. unfold sigwait.
  rewrite <- wait_loop_result. destruct (wait_loop clients set ts begun) as [a [t|]]; reflexivity.
Qed.
Print Assumptions C09_sigwait.

Theorem C09_sigwaitinfo : forall clients set ts begun,
  snd (sigwaitinfo clients set ts begun) =
  match first_for_app clients set begun ts with
  | None => None
  | Some t => Some (mkwret (w_ret t) None (Some (w_errno t)))
  end.
Proof.
  intros clients set ts begun. unfold sigwaitinfo.
  rewrite <- wait_loop_result. destruct (wait_loop clients set ts begun) as [a [t|]]; reflexivity.
Qed.
Print Assumptions C09_sigwaitinfo.

(** The answer handed back is a real error, or a signal of the set that no client
    handler accepted. *)
Theorem C09_only_application_signals : forall clients set ts begun t,
  first_for_app clients set begun ts = Some t ->
  In t ts /\
  ((w_ret t < 0 /\ w_errno t <> EINTR) \/
   (0 <= w_ret t /\ (1 <= w_ret t < 65 -> mem (w_ret t) set = true) /\
    (1 <= w_ret t < 65 -> clients (w_ret t) <> None -> w_client t <> 0))).
Proof. intros clients set ts begun t. exact (first_for_app_is clients set ts begun t). Qed.
Print Assumptions C09_only_application_signals.

(** Client handlers: only registered ones, only for answers the kernel gave, at
    most once per answer. *)
Theorem C09_client_once : forall clients set want ts begun,
  (count is_client (fst (sigwait clients set want ts begun)) <= length ts)%nat /\
  (forall h s, In (WClient h s) (fst (sigwait clients set want ts begun)) ->
     clients s = Some h /\ exists t, In t ts /\ w_ret t = s).
Proof.
  intros clients set want ts begun. unfold sigwait.
  pose proof (wait_loop_client clients set ts begun) as H1.
  pose proof (wait_loop_events clients set ts begun) as H2.
  destruct (wait_loop clients set ts begun) as [a b]. exact (conj H1 H2).
Qed.
Print Assumptions C09_client_once.

(** fini_thread at most once in the whole wait, never if it had begun. *)
Theorem C09_fini_once : forall clients set want ts begun,
  (count is_fini (fst (sigwait clients set want ts begun)) <= 1)%nat /\
  (begun = true -> count is_fini (fst (sigwait clients set want ts begun)) = 0%nat).
Proof.
  intros clients set want ts begun. unfold sigwait. split.
  - pose proof (wait_loop_fini clients set ts begun) as H.
    destruct (wait_loop clients set ts begun) as [a b]. exact H.
  - intros ->. pose proof (wait_loop_fini_zero clients set ts) as H.
    destruct (wait_loop clients set ts true) as [a b]. exact H.
Qed.
Print Assumptions C09_fini_once.

(** A mixed run: EINTR, the shootdown signal during exit, the same signal again,
    a client-accepted signal, a foreign signal, then the application's. *)
Definition c09_clients (s : Z) : option N := if s =? 14 then Some 5%N else None.
Definition c09_turn s := mkturn s 0 true false 42 true true false false 0.
Definition c09_run : list turn :=
  [mkturn (-1) EINTR true false 42 true true false false 0;
   c09_turn 42; c09_turn 42; c09_turn 14; c09_turn 12; c09_turn 15; c09_turn 10].
Example C09_example :
  sigwait c09_clients (sadd 15 (sadd 14 0)) true c09_run false =
  ([WFini; WClient 5 14], Some (mkwret 0 (Some 15) None)) /\
  sigwaitinfo c09_clients (sadd 15 0) [mkturn (-1) 11 false false 0 true true false false 0] false =
  ([], Some (mkwret (-1) None (Some 11))).
Proof. vm_compute. split; reflexivity. Qed.
