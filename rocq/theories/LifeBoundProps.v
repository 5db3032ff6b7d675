(** C85: every call of the library returns. *)
From Verif Require Import LifeBoundSpec LifeBound LifeLockProps LifeBase.

Local Open Scope Z_scope.

(** In every reachable state, for every call: as long as at most M threads are on the
    list and process exit does not begin another round of waiting, the caller makes at
    most 40 + 3 M steps in the call, callbacks and system calls included (a callback that
    makes no calls of its own is one step), whatever the other threads do. *)
Theorem C85_bounded_partial : forall dyn M s t a f r s1 l,
  reach dyn any s -> th_stack (s_th s t) = f :: r -> open f = true ->
  step dyn s t (CCall a) = Some s1 -> stays_in dyn M t (f :: r) s1 l ->
  (steps_by t l <= 40 + 3 * M)%nat.
Proof. intros. eapply call_bound; eassumption. Qed.

(** A thread that need not wait can make its next step. *)
Theorem C85_progress : forall dyn s t,
  g_dead (s_g s) = false -> th_live (s_th s t) = true -> ~ must_wait s t ->
  exists c s', answers c = true /\ step dyn s t c = Some s'.
Proof.
  intros dyn s t D LV W. destruct (can_move dyn s t D LV W) as (c & s' & A & _ & _ & ST). eauto.
Qed.

(** Calls other than exit, pthread_exit and exec: at every moment of the call, whatever
    the other threads did meanwhile, the caller has returned, or can make its next step,
    or waits for the library's lock, which is held; or the process has ended; or the
    process is the child of another thread's fork, in which the caller does not exist.
    And it never begins a round of waiting. *)
Theorem C85_ordinary : forall dyn s t a f r s1 l s',
  reach dyn any s -> th_stack (s_th s t) = f :: r -> open f = true -> ordinary a = true ->
  step dyn s t (CCall a) = Some s1 -> inside dyn t (f :: r) s1 l s' ->
  (forall g q, th_stack (s_th s' t) = g :: q ++ f :: r -> again g = false) /\
  (th_stack (s_th s' t) = f :: r \/
   (exists c s2, answers c = true /\ step dyn s' t c = Some s2) \/
   (exists g q, th_stack (s_th s' t) = g :: q /\ waiting g = true /\ g_lock (s_g s') <> None) \/
   g_dead (s_g s') = true \/ th_live (s_th s' t) = false).
Proof.
  intros dyn s t a f r s1 l s' R SK O OR ST H.
  destruct (call_frames dyn s t a s1 f r R SK O ST) as (L & _ & _ & _ & k & SK1).
  destruct (inside_mild dyn t (f :: r) l s1 s' _ L SK1 (api_mild a k OR)) as [(q & Q & MI)|Q]; [discriminate|exact H| |].
  - split.
    + intros g q' E. rewrite Q in E. destruct q as [|g0 q].
      * exfalso. apply (f_equal (@length frame)) in E. cbn in E. rewrite app_length in E. cbn in E. lia.
      * injection E as -> _. cbn in MI. apply andb_prop in MI. apply mild_again. apply MI.
    + destruct (g_dead (s_g s')) eqn:D; [auto|]. destruct (th_live (s_th s' t)) eqn:LV; [|auto].
      destruct q as [|g q]; [left; exact Q|].
      destruct (must_wait_dec s' t) as [W|W].
      * right; right; left. destruct (mild_waits s' t _ _ Q MI ltac:(discriminate) W) as (g' & q' & X). eauto.
      * right; left. destruct (can_move dyn s' t D LV W) as (c & s2 & A & _ & _ & X). eauto.
  - split; [intros g q E; rewrite Q in E; discriminate E|].
    destruct (g_dead (s_g s')) eqn:D; [auto|]. destruct (th_live (s_th s' t)) eqn:LV; [|auto].
    right; left. destruct (can_move dyn s' t D LV) as (c & s2 & A & _ & _ & X); [|eauto].
    intros (g & q & E & _). rewrite Q in E. discriminate E.
Qed.

(** So such a call, when only the caller runs, returns to its caller, or comes to wait for
    the lock, which is held by somebody. *)
Theorem C85_returns : forall dyn s t a f r s1,
  reach dyn any s -> th_stack (s_th s t) = f :: r -> open f = true -> ordinary a = true ->
  step dyn s t (CCall a) = Some s1 ->
  exists l s', forallb answers l = true /\ run dyn s1 (map (pair t) l) = Some s' /\
  g_dead (s_g s') = false /\
  (th_stack (s_th s' t) = f :: r \/
   exists g q, th_stack (s_th s' t) = g :: q /\ waiting g = true /\ g_lock (s_g s') <> None).
Proof.
  intros dyn s t a f r s1 R SK O OR ST.
  destruct (call_frames dyn s t a s1 f r R SK O ST) as (L & LV & _ & D & k & SK1).
  destruct (gets_out mild mild_step true mild_calm dyn _ t (f :: r) _ s1 _ L D LV SK1 (le_n _) (le_n _) (api_mild a k OR)) as (l & s' & A & RN & E & C & Q).
  exists l, s'. split; [exact A|]. split; [exact RN|].
  specialize (C eq_refl). split; [exact C|].
  destruct E as [E|[E|(g & p & E & W)]]; [auto|congruence|].
  destruct Q as [Q|(q & Q & MI)]; [congruence|]. right.
  assert (X : q = g :: p) by (rewrite E in Q; symmetry; apply (app_inv_tail (f :: r)); exact Q). subst q.
  assert (MG : mild g = true) by (cbn in MI; apply andb_prop in MI; apply MI).
  destruct W as [W|[->|W]]; [rewrite (mild_again g MG) in W; discriminate W|discriminate MG|].
  destruct (mild_waits s' t _ _ Q MI ltac:(discriminate) W) as (g' & q' & X). eauto.
Qed.

(** Every call, exit and pthread_exit too: when only the caller runs it returns, or the
    process ends, or it comes to one of the three waits, to another round of waiting for
    the other threads, or to the end of the thread. *)
Theorem C85_all_partial : forall dyn s t a f r s1,
  reach dyn any s -> th_stack (s_th s t) = f :: r -> open f = true ->
  step dyn s t (CCall a) = Some s1 ->
  exists l s', forallb answers l = true /\ run dyn s1 (map (pair t) l) = Some s' /\
  (th_stack (s_th s' t) = f :: r \/ g_dead (s_g s') = true \/
   exists g p, th_stack (s_th s' t) = g :: p ++ f :: r /\ (again g = true \/ g = FUnwind \/ must_wait s' t)).
Proof.
  intros dyn s t a f r s1 R SK O ST.
  destruct (call_frames dyn s t a s1 f r R SK O ST) as (L & LV & _ & D & k & SK1).
  assert (MI : forallb (fun _ => true) (api_frames a k) = true) by (apply forallb_forall; reflexivity).
  destruct (gets_out (fun _ => true) (fun _ _ _ _ _ _ _ _ _ _ _ _ => proj2 (forallb_forall _ _) (fun _ _ => eq_refl)) false (fun _ _ _ _ _ _ _ _ _ _ _ _ _ X => match Bool.diff_false_true X with end) dyn _ t (f :: r) _ s1 _ L D LV SK1 (le_n _) (le_n _) MI)
    as (l & s' & A & RN & E & _ & _).
  exists l, s'. split; [exact A|]. split; [exact RN|]. exact E.
Qed.

(** The wait for the lock can be for ever: main forks while a thread holds the lock; in
    the child that thread does not exist, pthread_create waits, and no thread at all can
    make a step. *)
Theorem C85_child_refuted : exists l s g r h,
  run false init l = Some s /\ In (EForkRet 1) (image (s_tr s)) /\ g_dead (s_g s) = false /\ th_live (s_th s 1) = true /\
  th_stack (s_th s 1) = g :: FApp AppMain :: r /\ waiting g = true /\
  g_lock (s_g s) = Some h /\ th_live (s_th s h) = false /\
  forall t c, answers c = true -> step false s t c = None.
Proof.
  exists child_creates. eexists. do 3 eexists. split; [vm_compute; reflexivity|]. split; [vm_compute; auto|].
  do 6 (split; [reflexivity|]).
  intros t c A. destruct (Z.eq_dec t 1) as [->|N]; [destruct c; try discriminate A; reflexivity|].
  unfold step.
  match goal with |- context[th_live ?x] => assert (X : th_live x = false) end.
  { cbn. unfold upd. destruct t as [|[p|p|]|p]; try reflexivity. congruence. }
  rewrite X. reflexivity.
Qed.

(** A second pthread_create while the first new thread runs: its state meets the
    hypotheses; with two threads on the list the bound is 46; the run has 16 steps
    of the caller. *)
Example C85_example : exists s s1 r,
  reach false any s /\ th_stack (s_th s MAIN) = FApp AppMain :: r /\ open (FApp AppMain) = true /\ ordinary (ACreate 5 6 99) = true /\
  step false s MAIN (CCall (ACreate 5 6 99)) = Some s1 /\
  stays_in false 2 MAIN (FApp AppMain :: r) s1 (ticks MAIN 3 ++ ticks 2 1 ++ ticks MAIN 3 ++ [(MAIN, CRet 0)] ++ ticks 2 1 ++ ticks MAIN 9) /\
  ~ must_wait s1 MAIN.
Proof.
  eexists _, _, _. split; [apply (reach_run false (to_main ++ create1 MAIN 5 6 0)); vm_compute; reflexivity|].
  split; [reflexivity|]. split; [reflexivity|]. split; [reflexivity|]. split; [vm_compute; reflexivity|]. split.
  - match goal with |- stays_in _ _ _ _ _ ?l => let l' := eval vm_compute in l in change l with l' end.
    repeat (cbn [stays_in]; split;
      [intros E; (discriminate E || (split; [reflexivity|]; split; [cbn; lia|];
         first [eexists _, []; split; reflexivity | eexists _, [_]; split; reflexivity]))|];
      eexists; split; [vm_compute; reflexivity|]). exact I.
  - intros (f & r & E & H). injection E as <- <-. destruct H as [[H _]|[[H _]|[H _]]]; discriminate H.
Qed.

Print Assumptions C85_bounded_partial.
Print Assumptions C85_progress.
Print Assumptions C85_ordinary.
Print Assumptions C85_returns.
Print Assumptions C85_all_partial.
Print Assumptions C85_child_refuted.
