(** Theorems on thread_post_create: C44. *)
From Verif Require Import LifePost LifeRunB.

Local Open Scope Z_scope.

(** The vocabulary: pre_create of call q returned d in thread t; the real create of
    call q was made, with success or not; init_thread of a thread made by call q was
    given d and has returned. *)
Definition pre_returned (t : Z) (q : creq) (d : Z) (tr : list event) : Prop :=
  In (ERet t (CbPreCreate (q_id q)) d) tr.
Definition created (t : Z) (q : creq) (tr : list event) : Prop :=
  (exists u, In (ECreate t q u true) tr) \/ In (ECreateFail t q true) tr.
Definition already_inited (t : Z) (q : creq) (d : Z) (tr : list event) : Prop :=
  exists u k v, In (ECreate t q u true) tr /\ In (ERet u (CbInitThread k d) v) tr.
Definition post_of (i : Z) (e : event) : bool :=
  match e with ECall _ (CbPostCreate j _) => j =? i | _ => false end.

(** In every schedule: at most one post_create per call of pthread_create. *)
Theorem C44_once : forall dyn s i, reach dyn any s -> (count (post_of i) (s_tr s) <= 1)%nat.
Proof. intros dyn s i R. exact (stage_once dyn _ _ s i (stage_post dyn) R). Qed.

(** In every schedule: it comes after the real create, in the calling thread. *)
Theorem C44_after : forall dyn s t i x l1 l2,
  reach dyn any s -> s_tr s = l1 ++ ECall t (CbPostCreate i x) :: l2 ->
  exists q, i = q_id q /\ created t q l2.
Proof. exact post_when. Qed.

(** In every schedule: when pthread_create returns from a call for which pre_create
    did not return the ignore value, post_create has been issued. *)
Theorem C44_issued : forall dyn s t q d l1 l2,
  reach dyn any s -> s_tr s = l1 ++ ECreateRet t q :: l2 ->
  pre_returned t q d (s_tr s) -> d <> IGNORE_NEW_THREAD ->
  exists x, In (ECall t (CbPostCreate (q_id q) x)) l2.
Proof. intros dyn s t q d l1 l2 R E P N. exact (ret_post dyn s t q l1 l2 d R E P N). Qed.

(** It is given the value pre_create returned, unless init_thread of the new thread
    has already returned.
    Partial: forks made by main outside pthread_create; the value once init_thread
    has returned. *)
Theorem C44_data_partial : forall dyn s t i x l1 l2,
  reach dyn clean_forks s -> s_tr s = l1 ++ ECall t (CbPostCreate i x) :: l2 ->
  exists q d, i = q_id q /\ pre_returned t q d l2 /\ (x = d \/ already_inited t q d l2).
Proof. exact post_data. Qed.

(** Main creates thread 2; pre_create returned 5. *)
Example C44_case : exists s l1 l2 q,
  reach false clean_forks s /\ s_tr s = l1 ++ ECall 1 (CbPostCreate 0 5) :: l2 /\ 0 = q_id q /\
  created 1 q l2 /\ pre_returned 1 q 5 l2 /\ ~ already_inited 1 q 5 l2 /\
  In (ECreateRet 1 q) l1 /\ count (post_of 0) (s_tr s) = 1%nat.
Proof.
  assert (X : exists s, run_ok orderly_b false init (to_main ++ create1 1 10 11 5) = Some s /\ exists l1 l2 q,
    s_tr s = l1 ++ ECall 1 (CbPostCreate 0 5) :: l2 /\ 0 = q_id q /\
    created 1 q l2 /\ pre_returned 1 q 5 l2 /\ 
    forallb (fun e => match e with ERet _ (CbInitThread _ _) _ => false | _ => true end) l2 = true /\
    In (ECreateRet 1 q) l1 /\ count (post_of 0) (s_tr s) = 1%nat).
  { eexists. split; [vm_compute; reflexivity|].
    exists [ECreateRet 1 (mkcreq 0 10 11 99); ERet 1 (CbPostCreate 0 5) 0]. eexists. exists (mkcreq 0 10 11 99).
    split; [vm_compute; reflexivity|]. split; [reflexivity|]. split; [left; exists 2; vm_compute; auto|].
    split; [unfold pre_returned; cbn; auto 9|]. split; [reflexivity|]. split; [now left|reflexivity]. }
  destruct X as (s & E & l1 & l2 & q & A & B & C & D & F & G). exists s, l1, l2, q.
  split; [eapply orderly_clean, orderly_run; exact E|]. repeat (split; [assumption|]). split; [|exact G].
  intros (u & k & v & _ & I). rewrite forallb_forall in F. specialize (F _ I). discriminate F.
Qed.

(** Refuted: the new thread runs first and init_thread returns 8; post_create gets 8. *)
Definition create_half (d : Z) : list (Z * choice) :=
  [(1, CCall (ACreate 10 11 99))] ++ ticks 1 7 ++ [(1, CRet 0)] ++ ticks 1 1 ++ [(1, CRet d)] ++
  ticks 1 9 ++ [(1, CRet 0); (1, COk)].
Theorem C44_overwritten_refuted : exists dyn l s q,
  run dyn init l = Some s /\ hd_error (s_tr s) = Some (ECall 1 (CbPostCreate (q_id q) 8)) /\ pre_returned 1 q 5 (s_tr s).
Proof.
  exists false, (to_main ++ create_half 5 ++ enter 2 8 ++ ticks 1 1). eexists. exists (mkcreq 0 10 11 99).
  split; [vm_compute; reflexivity|]. split; [reflexivity|]. vm_compute. auto 20.
Qed.

(** Refuted: the new thread runs and ends first; its node is free and post_create gets
    NULL from it. *)
Theorem C44_freed_refuted : exists dyn l s q,
  run dyn init l = Some s /\ hd_error (s_tr s) = Some (ECall 1 (CbPostCreate (q_id q) 0)) /\ pre_returned 1 q 5 (s_tr s) /\
  In (ECall 2 (CbFiniThread 8)) (s_tr s).
Proof.
  exists false, (to_main ++ create_half 5 ++ enter 2 8 ++ leave 2 ++ ticks 1 1). eexists. exists (mkcreq 0 10 11 99).
  split; [vm_compute; reflexivity|]. split; [reflexivity|]. split; vm_compute; auto 20.
Qed.

Print Assumptions C44_once.
Print Assumptions C44_after.
Print Assumptions C44_issued.
Print Assumptions C44_data_partial.
Print Assumptions C44_case.
Print Assumptions C44_overwritten_refuted.
Print Assumptions C44_freed_refuted.
