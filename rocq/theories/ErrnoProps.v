(** C75: a failing call tells the application why the system refused it. *)
From Verif Require Import ErrnoModel ErrnoSpec.
From Coq Require Import ZArith List Bool Lia.
Import ListNotations.
Open Scope Z_scope.

Lemma run_real : forall a e w, as_direct a (real a e w).
Proof.
  intros [r x] e w. unfold as_direct, real. cbn. destruct (r <? 0) eqn:E.
  - cbn. auto.
  - apply Z.ltb_ge in E. destruct (outside KLibc e w). cbn. split; [reflexivity | lia].
Qed.

(** The first part of a program does not matter to a claim on every start. *)
Lemma bind_any : forall A B (m : M A) (f : A -> M B) (P : B * world -> Prop) e w,
  (forall a w', P (f a e w')) -> P (bind m f e w).
Proof. intros. unfold bind. destruct (m e w). apply H. Qed.

Lemma outside_keeps : forall e k w, keeps e k ->
  outside k e w = (tt, mkworld (w_errno w) (w_dl w) (S (w_n w))).
Proof. intros e k w H. unfold outside. rewrite H. reflexivity. Qed.

Lemma debug_quiet : forall e w, quiet e ->
  exists n, debug e w = (tt, mkworld (w_errno w) (w_dl w) n).
Proof.
  intros e w H. unfold debug. destruct (e_debug e) eqn:D.
  - destruct H as [H | H]; [congruence |]. rewrite outside_keeps by assumption. eauto.
  - exists (w_n w). destruct w; reflexivity.
Qed.

(** After the real call only code that keeps the error state runs. *)
Definition still {A} (m : M A) (e : env) (a : A) : Prop :=
  forall w, exists n, m e w = (a, mkworld (w_errno w) (w_dl w) n).

Lemma still_ret : forall A (a : A) e, still (ret a) e a.
Proof. intros A a e w. exists (w_n w). destruct w; reflexivity. Qed.
Lemma still_debug : forall e, quiet e -> still debug e tt.
Proof. intros e H w. apply debug_quiet; assumption. Qed.
Lemma still_out : forall e k, keeps e k -> still (outside k) e tt.
Proof. intros e k H w. rewrite outside_keeps by assumption. eauto. Qed.
Lemma still_bind : forall A B (m : M A) (f : A -> M B) e a b,
  still m e a -> still (f a) e b -> still (bind m f) e b.
Proof.
  intros A B m f e a b H1 H2 w. unfold bind. destruct (H1 w) as [n ->].
  destruct (H2 (mkworld (w_errno w) (w_dl w) n)) as [n2 ->]. cbn. eauto.
Qed.

Ltac still_tac :=
  repeat first [ apply still_ret | apply still_debug; assumption | apply still_out; assumption
               | eapply still_bind ].

Lemma real_then : forall a (f : Z -> M Z) e w,
  (fst a < 0 -> still (f (fst a)) e (fst a)) ->
  (0 <= fst a -> forall w', fst (f (fst a) e w') = fst a) ->
  as_direct a (bind (real a) f e w).
Proof.
  intros a f e w H1 H2. unfold bind. pose proof (run_real a e w) as R.
  destruct (real a e w) as [r w'] eqn:E. destruct R as [R1 R2]. cbn in R1, R2. subst r.
  split.
  - destruct (Z_lt_le_dec (fst a) 0) as [L | L].
    + destruct (H1 L w') as [n ->]. reflexivity.
    + apply H2; assumption.
  - intro L. destruct (H1 L w') as [n ->]. cbn. apply R2; assumption.
Qed.

Lemma fst_bind : forall A (m : M unit) (f : unit -> M A) e w b,
  (forall u w', fst (f u e w') = b) -> fst (bind m f e w) = b.
Proof. intros. unfold bind. destruct (m e w). apply H. Qed.

Ltac skip := match goal with |- as_direct ?a (bind ?m ?f ?e ?w) =>
  apply (bind_any _ _ m f (as_direct a) e w); intros ? ? end.

(** fork and vfork. *)
Theorem C75_fork_partial : forall e w a,
  keeps e KCallback -> quiet e ->
  as_direct a (m_fork a e w).
Proof.
  intros e w a K Q. unfold m_fork. do 3 skip. apply real_then; intro L.
  - replace (fst a =? 0) with false by (symmetry; apply Z.eqb_neq; lia).
    replace (fst a <? 0) with true by (symmetry; apply Z.ltb_lt; lia). still_tac.
  - intro w9. destruct (fst a =? 0).
    + repeat (apply fst_bind; intros ? ?). reflexivity.
    + repeat (apply fst_bind; intros ? ?). reflexivity.
Qed.

(** exec: no condition when the file does not look executable. *)
Theorem C75_exec_partial : forall e w is_exec a,
  is_exec = false \/ keeps e KPrint ->
  as_direct a (m_exec is_exec a e w).
Proof.
  intros e w b a H. unfold m_exec. do 4 skip. apply real_then; intro L.
  - destruct b; [destruct H as [H | H]; [discriminate |] |]; unfold warn; still_tac.
  - intro w9. apply fst_bind; intros ? ?. reflexivity.
Qed.

(** The client's own exec: always. *)
Theorem C75_real_execve : forall e w a,
  as_direct a (m_real_execve false a e w)
  /\ as_direct (-1, EACCES) (m_real_execve true a e w).
Proof.
  intros e w a. split; unfold m_real_execve; do 2 skip.
  - skip. apply run_real.
  - skip. unfold set_errno, bind, ret, as_direct. cbn. auto.
Qed.

(** sigaction: the two ways to fail, and success otherwise. *)
Theorem C75_sigaction : forall e w avoid act a,
  as_direct (-1, EINVAL) (m_sigaction false avoid act a e w)
  /\ as_direct a (m_sigaction true true act a e w)
  /\ fst (m_sigaction true false act a e w) = 0.
Proof.
  intros e w avoid act a. repeat split; unfold m_sigaction; cbn [negb].
  - unfold bind at 1. destruct (init e w) as [? w1]. unfold bind at 1. destruct (debug e w1). reflexivity.
  - intros _. unfold bind at 1. destruct (init e w) as [? w1]. unfold bind at 1. destruct (debug e w1). reflexivity.
  - unfold bind at 1. destruct (init e w) as [? w1]. unfold bind at 1. destruct (debug e w1). apply run_real.
  - unfold bind at 1. destruct (init e w) as [? w1]. unfold bind at 1. destruct (debug e w1). apply run_real.
  - repeat (apply fst_bind; intros ? ?). reflexivity.
Qed.

(** signal: SIG_ERR with EINVAL exactly where sigaction fails (the only error
    the system's signal has), the old handler otherwise. *)
Theorem C75_signal : forall e w valid avoid old a,
  fst a = 0 \/ (fst a = -1 /\ snd a = EINVAL) ->
  let fails := negb valid || (avoid && (fst a <? 0)) in
  let got := m_signal valid avoid old a e w in
  if fails then fst got = SIG_ERR /\ w_errno (snd got) = EINVAL else fst got = old.
Proof.
  intros e w v av old a Ha fails got. subst fails got.
  change (m_signal v av old a e w) with (let '(r, w1) := m_sigaction v av true a e w in
    (if r =? 0 then ret old else set_errno EINVAL ;;; ret SIG_ERR) e w1).
  pose proof (C75_sigaction e w av true a) as (S1 & S2 & S3).
  destruct v; cbn [negb orb].
  - destruct av; cbn [andb].
    + destruct (m_sigaction true true true a e w) as [r w1]. destruct S2 as [S2 _]. cbn in S2. subst r.
      destruct Ha as [Ha | [Ha _]]; rewrite Ha; cbn; auto.
    + destruct (m_sigaction true false true a e w) as [r w1]. cbn in S3. subst r. reflexivity.
  - destruct (m_sigaction false av true a e w) as [r w1]. destruct S1 as [S1 _]. cbn in S1. subst r.
    cbn. auto.
Qed.

(** sigprocmask: always. *)
Theorem C75_sigprocmask : forall e w set a, as_direct a (m_sigprocmask set a e w).
Proof. intros e w set a. unfold m_sigprocmask. do 2 skip. apply run_real. Qed.

Lemma wait_turns_spec : forall e ts w r x w',
  wait_turns ts e w = (Some (r, x), w') ->
  exists t, last_turn ts t /\ r = fst (t_ans t) /\ (r < 0 -> x = snd (t_ans t)).
Proof.
  intros e. induction ts as [| t more IH]; intros w r x w' H; cbn in H.
  - discriminate.
  - unfold bind at 1 in H. pose proof (run_real (t_ans t) e w) as R.
    destruct (real (t_ans t) e w) as [r1 w1]. destruct R as [R1 R2]. cbn in R1, R2. subst r1.
    unfold bind at 1, get_errno in H.
    assert (LIFT : waits_again t ->
      (exists u, last_turn more u /\ r = fst (t_ans u) /\ (r < 0 -> x = snd (t_ans u))) ->
      exists u, last_turn (t :: more) u /\ r = fst (t_ans u) /\ (r < 0 -> x = snd (t_ans u))).
    { intros G (u & (b & c & E & F & P) & U1 & U2). exists u. split; [| auto].
      exists (t :: b), c. rewrite E. split; [reflexivity |]. split; [constructor; assumption | assumption]. }
    destruct (fst (t_ans t) <? 0) eqn:L.
    + apply Z.ltb_lt in L. rewrite (R2 L) in H. destruct (snd (t_ans t) =? EINTR) eqn:I.
      * apply Z.eqb_eq in I. apply LIFT; [left; auto |]. eapply IH; eassumption.
      * apply Z.eqb_neq in I. inversion H; subst. exists t.
        split; [exists [], more; split; [reflexivity | split; [constructor | left; auto]] | auto].
    + apply Z.ltb_ge in L. unfold bind at 1 in H.
      match type of H with (let '(_, _) := ?m in _) = _ => destruct m as [? w2] end.
      destruct (t_taken t) eqn:T.
      * apply LIFT; [right; auto |]. eapply IH; eassumption.
      * inversion H; subst. exists t.
        split; [exists [], more; split; [reflexivity | split; [constructor | right; auto]] | auto].
Qed.

(** sigwaitinfo and sigtimedwait: always those of the last real call. *)
Theorem C75_sigwaitinfo : forall e w ts r w',
  m_sigwaitinfo ts e w = (Some r, w') ->
  exists t, last_turn ts t /\ as_direct (t_ans t) (r, w').
Proof.
  intros e w ts r w' H. unfold m_sigwaitinfo, bind at 1 in H.
  destruct (init e w) as [? w1]. unfold bind at 1 in H. destruct (debug e w1) as [? w2].
  unfold bind at 1 in H. destruct (wait_turns ts e w2) as [[[r3 x3] |] w3] eqn:E; [| discriminate].
  unfold bind, set_errno, ret in H. inversion H; subst.
  destruct (wait_turns_spec _ _ _ _ _ _ E) as (t & LT & -> & X). exists t. split; [assumption |].
  split; [reflexivity |]. cbn. auto.
Qed.

(** A client handler that looked at the signal and passed it on leaves no trace
    in errno, whatever it did to it. *)
Theorem C75_sigwaitinfo_keeps : forall e before t after w,
  keeps e KLibc -> quiet e ->
  Forall (fun u => 0 <= fst (t_ans u) /\ t_taken u = true /\ t_client u = false) before ->
  0 <= fst (t_ans t) -> t_taken t = false ->
  w_errno (snd (m_sigwaitinfo (before ++ t :: after) e w)) = w_errno w.
Proof.
  intros e before t after w KL Q F P T.
  assert (OK : forall a v, 0 <= fst a ->
    real a e v = (fst a, mkworld (w_errno v) (w_dl v) (S (w_n v)))).
  { intros [r x] v G. cbn in G. unfold real. replace (r <? 0) with false by (symmetry; apply Z.ltb_ge; assumption).
    rewrite outside_keeps by assumption. reflexivity. }
  assert (LOOP : forall b v,
    Forall (fun u => 0 <= fst (t_ans u) /\ t_taken u = true /\ t_client u = false) b ->
    exists v', wait_turns (b ++ t :: after) e v = (Some (fst (t_ans t), w_errno v), v')).
  { induction b as [| u b IH]; intros v G; cbn [app wait_turns]; unfold bind at 1.
    - rewrite OK by assumption. unfold bind at 1, get_errno. cbn [w_errno].
      replace (fst (t_ans t) <? 0) with false by (symmetry; apply Z.ltb_ge; assumption).
      rewrite T. unfold bind at 1.
      match goal with |- context [let '(_, _) := ?m in _] => destruct m end. eexists; reflexivity.
    - inversion G as [| ? ? (G1 & G2 & G3) G4]; subst. rewrite OK by assumption.
      unfold bind at 1, get_errno. cbn [w_errno].
      replace (fst (t_ans u) <? 0) with false by (symmetry; apply Z.ltb_ge; assumption).
      rewrite G2, G3. unfold bind at 1, ret at 1.
      destruct (IH (mkworld (w_errno v) (w_dl v) (S (w_n v))) G4) as [v' E]. rewrite E. eexists; reflexivity. }
  unfold m_sigwaitinfo, init, bind at 1 2. rewrite outside_keeps by assumption.
  destruct (debug_quiet e (mkworld (w_errno w) (w_dl w) (S (w_n w))) Q) as [n1 ->].
  unfold bind at 1. destruct (debug_quiet e (mkworld (w_errno w) (w_dl w) n1) Q) as [n2 D]. cbn [w_errno w_dl] in *.
  rewrite D. unfold bind at 1.
  destruct (LOOP before (mkworld (w_errno w) (w_dl w) n2) F) as [v' E]. rewrite E. reflexivity.
Qed.

(** sigwait: 0 for a signal, else the error number of the last real call. *)
Theorem C75_sigwait : forall e w ts r w',
  m_sigwait ts e w = (Some r, w') ->
  exists t, last_turn ts t
    /\ r = (if fst (t_ans t) <? 0 then snd (t_ans t) else 0).
Proof.
  intros e w ts r w' H. unfold m_sigwait, bind at 1 in H.
  destruct (init e w) as [? w1]. unfold bind at 1 in H. destruct (debug e w1) as [? w2].
  unfold bind at 1 in H. destruct (wait_turns ts e w2) as [[[r3 x3] |] w3] eqn:E; [| discriminate].
  unfold ret in H. inversion H; subst.
  destruct (wait_turns_spec _ _ _ _ _ _ E) as (t & LT & -> & X). exists t. split; [assumption |].
  destruct (fst (t_ans t) <? 0) eqn:L; [| reflexivity]. apply X. apply Z.ltb_lt; assumption.
Qed.

Lemma wait_child_spec : forall e st answers w s w',
  wait_child answers st e w = (Some s, w') ->
  exists a, last_answer answers a
    /\ ((0 <= fst a /\ s = st) \/ (fst a < 0 /\ s = -1 /\ w_errno w' = snd a)).
Proof.
  intros e st. induction answers as [| a more IH]; intros w s w' H; cbn in H.
  - discriminate.
  - unfold bind at 1 in H. pose proof (run_real a e w) as R.
    destruct (real a e w) as [r1 w1]. destruct R as [R1 R2]. cbn in R1, R2. subst r1.
    destruct (fst a <? 0) eqn:L.
    + apply Z.ltb_lt in L. unfold bind, get_errno in H. rewrite (R2 L) in H.
      destruct (snd a =? EINTR) eqn:I.
      * apply Z.eqb_eq in I. destruct (IH _ _ _ H) as (b & (p & q & E & F & N) & X).
        exists b. split; [| assumption]. exists (a :: p), q. rewrite E.
        split; [reflexivity |]. split; [constructor; auto | assumption].
      * apply Z.eqb_neq in I. unfold ret in H. inversion H; subst. exists a.
        split; [exists [], more; split; [reflexivity | split; [constructor | tauto]] |].
        right. auto.
    + apply Z.ltb_ge in L. unfold ret in H. inversion H; subst. exists a.
      split; [exists [], more; split; [reflexivity | split; [constructor | intros [N _]; lia]] |].
      left; auto.
Qed.

(** system: the errno of the fork or of the wait for the child that failed. *)
Theorem C75_system_partial : forall e w callback pid answers status s w',
  keeps e KLibc -> quiet e -> (callback = true -> keeps e KCallback) ->
  m_system callback pid answers status e w = (Some s, w') ->
  if fst pid <? 0 then s = -1 /\ w_errno w' = snd pid
  else exists a, last_answer answers a
    /\ ((0 <= fst a /\ s = status) \/ (fst a < 0 /\ s = -1 /\ w_errno w' = snd a)).
Proof.
  intros e w cb pid answers status s w' KL Q KC H. unfold m_system in H.
  unfold bind at 1 in H. destruct (init e w) as [? w1].
  unfold bind at 1 in H. match type of H with (let '(_, _) := ?m in _) = _ => destruct m as [? w2] end.
  do 3 (unfold bind at 1 in H;
        match type of H with (let '(_, _) := ?m in _) = _ => destruct m as [? ?] end).
  unfold bind at 1 in H.
  match type of H with (let '(_, _) := real pid e ?v in _) = _ => pose proof (run_real pid e v) as R end.
  match type of H with (let '(_, _) := ?m in _) = _ => destruct m as [r v3] end.
  destruct R as [R1 R2]. cbn in R1, R2. subst r.
  unfold bind at 1 in H.
  assert (TAIL : forall s0 : Z, still (outside KLibc ;;; outside KLibc ;;; outside KLibc ;;;
      (if cb then debug ;;; outside KCallback else ret tt) ;;; debug ;;; ret (Some s0)) e (Some s0)).
  { intro s0. destruct cb; [specialize (KC eq_refl) |]; still_tac. }
  destruct (fst pid <? 0) eqn:L.
  - unfold bind at 1 in H. destruct (debug_quiet e v3 Q) as [n D]. rewrite D in H. unfold ret at 1 in H.
    destruct (TAIL (-1) (mkworld (w_errno v3) (w_dl v3) n)) as [n2 E]. rewrite E in H.
    inversion H; subst. cbn. split; [reflexivity | apply R2; apply Z.ltb_lt; assumption].
  - destruct (wait_child answers status e v3) as [[s4 |] v4] eqn:W; [| discriminate].
    destruct (TAIL s4 v4) as [n2 E]. rewrite E in H. inversion H; subst.
    destruct (wait_child_spec _ _ _ _ _ _ W) as (a & LA & X). exists a. split; [assumption |].
    cbn. assumption.
Qed.

Lemma real_dl_ok : forall f r m e w,
  fst (real_dl f r m e w) = r /\ (f = true -> w_dl (snd (real_dl f r m e w)) = m).
Proof.
  intros. unfold real_dl. destruct (outside KLibc e w). cbn. split; [reflexivity |].
  intros ->. reflexivity.
Qed.

Definition dl_tells (f : bool) (r m : Z) (e : env) (got : Z * world) : Prop :=
  fst got = r /\ (keeps e KCallback -> quiet e -> f = true -> w_dl (snd got) = m).

Lemma dl_core : forall f r m e w,
  dl_tells f r m e ((init ;;; debug ;;; outside KCallback ;;;
    x <- real_dl f r m ;; outside KCallback ;;; debug ;;; ret x) e w).
Proof.
  intros f r m e w.
  do 3 (match goal with |- dl_tells _ _ _ _ (bind ?a ?b e ?v) =>
    apply (bind_any _ _ a b (dl_tells f r m e) e v); intros ? ? end).
  match goal with |- dl_tells _ _ _ _ (bind _ _ e ?v) =>
    pose proof (real_dl_ok f r m e v) as D; unfold bind at 1; destruct (real_dl f r m e v) as [x w9] end.
  destruct D as [D1 D2]. cbn in D1, D2. subst x. split.
  - unfold bind at 1. destruct (outside KCallback e w9) as [? w8]. unfold bind at 1.
    destruct (debug e w8). reflexivity.
  - intros K Q F. assert (S : still (outside KCallback ;;; debug ;;; ret r) e r) by still_tac.
    destruct (S w9) as [n ->]. cbn. auto.
Qed.

(** dlopen and dlclose: dlerror() gives the real call's message. *)
Theorem C75_dl_partial : forall e w h c m,
  let o := m_dlopen h m e w in
  let d := m_dlclose c m e w in
  fst o = h /\ fst d = c
  /\ (keeps e KCallback -> quiet e ->
      (h = 0 -> w_dl (snd o) = m) /\ (c <> 0 -> w_dl (snd d) = m)).
Proof.
  intros e w h c m o d. subst o d.
  destruct (dl_core (h =? 0) h m e w) as [O1 O2].
  destruct (dl_core (negb (c =? 0)) c m e w) as [D1 D2].
  split; [exact O1 |]. split; [exact D1 |]. intros K Q. split.
  - intro H. apply O2; [assumption | assumption | apply Z.eqb_eq; assumption].
  - intro N. apply D2; [assumption | assumption | apply negb_true_iff, Z.eqb_neq; assumption].
Qed.

Theorem C75_real_dl : forall e w h c m,
  fst (m_real_dlopen h m e w) = h /\ fst (m_real_dlclose c m e w) = c
  /\ (h = 0 -> w_dl (snd (m_real_dlopen h m e w)) = m)
  /\ (c <> 0 -> w_dl (snd (m_real_dlclose c m e w)) = m).
Proof.
  intros e w h c m. unfold m_real_dlopen, m_real_dlclose, bind. destruct (init e w) as [? w1].
  destruct (real_dl_ok (h =? 0) h m e w1) as [O1 O2].
  destruct (real_dl_ok (negb (c =? 0)) c m e w1) as [D1 D2].
  repeat split; auto.
  - intros ->. apply O2. reflexivity.
  - intro N. apply D2, negb_true_iff, Z.eqb_neq. assumption.
Qed.

(** A signal the application ignores, or does not handle and whose default is to
    do nothing, changes nothing it can see: always without a client handler. *)
Theorem C75_ignored_signal_partial : forall e w client appl noterm stop noraise,
  appl = AIgnore \/ (appl = ADefault /\ noterm = true) ->
  client = None \/ keeps e KCallback ->
  untouched w (snd (m_handler client appl noterm stop noraise e w)).
Proof.
  intros e w client appl nt st nr A C. unfold m_handler.
  assert (S : still (match client with
        | Some r => outside KCallback ;;; ret (r =? 0)
        | None => ret false end) e (match client with Some r => r =? 0 | None => false end)).
  { destruct client; [destruct C as [C | C]; [discriminate |] |]; still_tac. }
  unfold bind at 1. destruct (S w) as [n ->].
  destruct (match client with Some r => r =? 0 | None => false end); [split; reflexivity |].
  destruct A as [-> | [-> ->]]; split; reflexivity.
Qed.

(** The signal that tells a thread the process is ending. *)
Theorem C75_end_signal_partial : forall e w known skip late,
  keeps e KLibc -> (skip = true \/ keeps e KCallback) -> keeps e KPrint ->
  untouched w (snd (m_shootdown known skip late e w)).
Proof.
  intros e w known skip late KL C KP. unfold m_shootdown, warn.
  assert (Q : quiet e) by (right; assumption).
  unfold bind at 1. rewrite outside_keeps by assumption. destruct known; cbn [negb].
  - destruct skip.
    + split; reflexivity.
    + destruct C as [C | C]; [discriminate |]. destruct late.
      * rewrite outside_keeps by assumption. split; reflexivity.
      * assert (S : still (outside KLibc ;;; debug ;;; outside KCallback ;;; outside KLibc) e tt) by still_tac.
        match goal with |- untouched _ (snd (_ e ?v)) => destruct (S v) as [n ->] end.
        split; reflexivity.
  - rewrite outside_keeps by assumption. split; reflexivity.
Qed.

(** ** Every condition is needed. *)

(** Client callbacks, and nothing else, leave 99 in errno and no message. *)
Definition loud_client : env := mkenv false (fun _ k xd => match k with KCallback => (99, 0) | _ => xd end).
(** Output to stderr, and nothing else, leaves 25 (no terminal) in errno. *)
Definition loud_output (d : bool) : env :=
  mkenv d (fun _ k xd => match k with KPrint => (25, snd xd) | _ => xd end).
(** A successful library call leaves 25, as the C standard allows. *)
Definition loud_libc : env := mkenv false (fun _ k xd => match k with KLibc => (25, snd xd) | _ => xd end).
Definition start : world := mkworld 0 0 0.

Theorem C75_fork_refuted : exists a,
  (keeps (loud_output true) KCallback /\ ~ as_direct a (m_fork a (loud_output true) start))
  /\ (quiet loud_client /\ ~ as_direct a (m_fork a loud_client start)).
Proof.
  exists (-1, 11). split; split; try (intros n xd; reflexivity); try (left; reflexivity);
    intros [_ H]; vm_compute in H; specialize (H eq_refl); discriminate.
Qed.

(** The warning after an exec that was expected to work replaces the reason. *)
Theorem C75_exec_refuted : exists a,
  keeps (loud_output false) KCallback
  /\ ~ as_direct a (m_exec true a (loud_output false) start).
Proof.
  exists (-1, 8). split; [intros n xd; reflexivity |].
  intros [_ H]. vm_compute in H. specialize (H eq_refl). discriminate.
Qed.

Theorem C75_system_refuted : exists pid,
  fst pid < 0
  /\ w_errno (snd (m_system true pid [] 0 loud_client start)) <> snd pid
  /\ w_errno (snd (m_system false pid [] 0 loud_libc start)) <> snd pid
  /\ w_errno (snd (m_system false pid [] 0 (loud_output true) start)) <> snd pid.
Proof. exists (-1, 11). repeat split; try reflexivity; vm_compute; discriminate. Qed.

(** The client's callback, if it uses the dl functions, eats the message. *)
Theorem C75_dlopen_refuted :
  fst (m_dlopen 0 7 loud_client start) = 0 /\ w_dl (snd (m_dlopen 0 7 loud_client start)) <> 7
  /\ fst (m_dlclose 1 7 loud_client start) = 1 /\ w_dl (snd (m_dlclose 1 7 loud_client start)) <> 7.
Proof. repeat split; try reflexivity; vm_compute; discriminate. Qed.

(** Both handlers run client code and do not save errno around it. *)
Theorem C75_signal_errno_refuted :
  ~ untouched start (snd (m_handler (Some 0) AIgnore false false false loud_client start))
  /\ ~ untouched start (snd (m_shootdown true false false loud_client start))
  /\ ~ untouched start (snd (m_shootdown true false true (loud_output false) start)).
Proof. repeat split; intros [H _]; vm_compute in H; discriminate. Qed.

(** ** The conditions can be met, with something to see. *)
Definition all_quiet : env := mkenv true (fun _ _ xd => xd).
Example C75_fork_example :
  keeps all_quiet KCallback /\ quiet all_quiet
  /\ as_direct (-1, 11) (m_fork (-1, 11) all_quiet start)
  /\ w_errno (snd (m_fork (-1, 11) all_quiet start)) = 11.
Proof.
  assert (K : keeps all_quiet KCallback) by (intros n xd; reflexivity).
  assert (Q : quiet all_quiet) by (right; intros n xd; reflexivity).
  split; [exact K |]. split; [exact Q |]. split; [apply C75_fork_partial; assumption | reflexivity].
Qed.

(** Interrupted, then a signal for the client, which spoils errno, then the
    time runs out (EAGAIN): the caller sees EAGAIN. *)
Example C75_wait_example :
  let ts := [mkturn (-1, EINTR) false false; mkturn (10, 0) true true; mkturn (-1, 11) true false] in
  let got := m_sigwaitinfo ts loud_client start in
  fst got = Some (-1) /\ w_errno (snd got) = 11
  /\ w_errno (snd (m_sigwaitinfo [mkturn (12, 0) false true; mkturn (10, 0) true false] loud_client start)) = 0
  /\ fst (m_sigwait ts loud_client start) = Some 11.
Proof. vm_compute. auto. Qed.

Example C75_system_example :
  keeps all_quiet KLibc /\
  let got := m_system true (5, 0) [(-1, EINTR); (-1, 10)] 256 all_quiet start in
  fst got = Some (-1) /\ w_errno (snd got) = 10.
Proof. split; [intros n xd; reflexivity |]. vm_compute. auto. Qed.

Print Assumptions C75_fork_partial.
Print Assumptions C75_exec_partial.
Print Assumptions C75_real_execve.
Print Assumptions C75_sigaction.
Print Assumptions C75_signal.
Print Assumptions C75_sigprocmask.
Print Assumptions C75_sigwaitinfo.
Print Assumptions C75_sigwaitinfo_keeps.
Print Assumptions C75_sigwait.
Print Assumptions C75_system_partial.
Print Assumptions C75_dl_partial.
Print Assumptions C75_real_dl.
Print Assumptions C75_ignored_signal_partial.
Print Assumptions C75_end_signal_partial.
Print Assumptions C75_fork_refuted.
Print Assumptions C75_exec_refuted.
Print Assumptions C75_system_refuted.
Print Assumptions C75_dlopen_refuted.
Print Assumptions C75_signal_errno_refuted.
