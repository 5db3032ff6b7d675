(** Property C26: the thread lists' macros implement cons and deletion. *)
From Verif Require Import QueueModel QueueSpec QueueProofs.

(** Memory in which every head holds NULL; elements have arbitrary links. *)
Definition fresh (mem : Z -> bool) (next : Z -> Z) (prev : Z -> option slot) : qheap :=
  mkqheap (fun s => match s with SFirst _ => 0 | SNext e => next e end) prev mem.

(** C26.  For every history of insertions of elements that exist and are on no list and
    removals of elements that are on one, from empty heads and arbitrary garbage in the
    elements: no step uses an invalid pointer, and at the end every head, walked forward,
    yields exactly the list obtained with cons and deletion. *)
Theorem C26_history : forall mem next prev os,
  allowed_run mem (fun _ => []) os ->
  exists q, q_run (fresh mem next prev) (map conc os) = Some q /\
    forall h, denotes q h (after_run (fun _ => []) os h).
Proof.
  intros mem next prev os A.
  destruct (rep_run os (fresh mem next prev) (fun _ => [])) as [q [H1 H2]]; [intros h; reflexivity|exact A|].
  exists q. split; [exact H1|]. intros h.
  exists (length (after_run (fun _ => []) os h)).
  unfold list_elements, get_ptr. cbn [slot_ok]. now apply walk_dll.
Qed.
Print Assumptions C26_history.

(** Two lists used as monitor uses its thread list (1) and free list (2): nodes 10, 20, 30
    join, the middle one is moved over, then reused. *)
Example C26_example :
  let os := [AInsert 1 10; AInsert 1 20; AInsert 1 30; ARemove 1 20; AInsert 2 20; ARemove 1 10;
             AInsert 2 10; ARemove 2 10; AInsert 1 10] in
  allowed_run (fun e => 0 <? e) (fun _ => []) os /\
  after_run (fun _ => []) os 1 = [10; 30] /\ after_run (fun _ => []) os 2 = [20].
Proof.
  cbn. repeat split; auto; try lia; try (intros g; unfold upd; repeat destruct (g =? _); simpl; lia).
Qed.

(** The rule is needed: removing an element whose list head was re-initialised (what a
    forked child does to the lists) puts the head of the new list back on the stale
    element's successor, and that element is on a list nobody put it on. *)
Theorem C26_remove_stale_refuted :
  exists os q, q_run (fresh (fun e => 0 <? e) (fun _ => 0) (fun _ => None)) os = Some q /\
    os = [QInsert 1 10; QInsert 1 20; QInit 1; QInsert 1 30; QRemove 20] /\
    denotes q 1 [10].
Proof.
  eexists _, _. split; [|split; [reflexivity|]]; [vm_compute; reflexivity|].
  exists 3%nat. vm_compute. reflexivity.
Qed.
Print Assumptions C26_remove_stale_refuted.
