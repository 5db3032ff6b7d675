(** Properties C43, C54, C55: thread attributes. *)
From Verif Require Import AttrModel AttrSpec AttrProofs.

(** C43, the application passed an attribute object.  Whatever the client answers and
    whichever calls fail: every object keeps its size (a size the object has can be set
    again: the C library accepted it before); one thread is created, with the client's
    size when it could be applied and the original one otherwise; nothing is
    destroyed. *)
Theorem C43_given : forall l reset w orig def n,
  orig <> 0 -> w orig = Some n -> a_set l n = true ->
  let '(w', t) := create_with_attr l reset w orig def in
  (forall a, w' a = w a) /\
  creations t = [(orig, Some (if applicable l reset orig n then reset n else n))] /\
  (forall a, destroyed a t = 0%nat).
Proof.
  intros l reset w orig def n Ho Hw Hs.
  destruct (create_given l reset w orig def n Ho Hw Hs) as [H1 H2].
  destruct (create_with_attr l reset w orig def) as [w' t]. cbn [fst snd] in *. subst t.
  split; [exact H1|]. split; reflexivity.
Qed.
Print Assumptions C43_given.

(** C43, NULL attributes: the default object monitor initialises is used when the
    client's size could be applied, and destroyed exactly once if it was initialised;
    otherwise the thread is created with NULL as asked. *)
Theorem C43_null : forall l reset w def, def <> 0 -> w def = None ->
  let '(w', t) := create_with_attr l reset w 0 def in
  (forall a, w' a = w a) /\
  creations t = [match a_init l with
                 | Some d => if applicable l reset def d then (def, Some (reset d)) else (0, None)
                 | None => (0, None) end] /\
  destroyed def t = (match a_init l with Some _ => 1 | None => 0 end)%nat /\
  (forall a, a <> def -> destroyed a t = 0%nat).
Proof.
  intros l reset w def Hd Hw. destruct (create_null l reset w def Hd Hw) as [H1 H2].
  destruct (create_with_attr l reset w 0 def) as [w' t]. cbn [fst snd] in *. subst t.
  split; [exact H1|]. unfold destroyed.
  destruct (a_init l) as [d|]; [|repeat split].
  destruct (applicable l reset def d); cbn; rewrite Z.eqb_refl;
    (split; [reflexivity|]; split; [reflexivity|]);
    intros a Ha; destruct (Z.eqb_spec a def); [contradiction|reflexivity|contradiction|reflexivity].
Qed.
Print Assumptions C43_null.

Example C43_example :
  let l := mklib (Some 8000) (fun _ => true) (fun n => 100 <=? n) in
  let w := upd (fun _ => None) 50 (Some 1000) in
  snd (create_with_attr l (fun n => n * 2) w 50 90) = [ACreate 50 (Some 2000)] /\
  fst (create_with_attr l (fun n => n * 2) w 50 90) 50 = Some 1000 /\
  snd (create_with_attr l (fun n => n * 2) w 0 90) = [ACreate 90 (Some 16000); ADestroy 90] /\
  snd (create_with_attr l (fun n => 5) w 50 90) = [ACreate 50 (Some 1000)].
Proof. repeat split. Qed.

(** C54, several threads using one attribute object: one at a time is fine... *)
Theorem C54_alone_partial : forall reset a w ls t n, w a = Some n -> ls t = AGet ->
  let '(w', ls', e) := a_run reset a w ls [t; t; t; t] in
  ls' t = AEnd None /\ w' a = Some n /\ e = [ACreate a (Some (reset n))].
Proof. exact a_alone. Qed.
Print Assumptions C54_alone_partial.

(** ... but two overlapping calls, each finished, can leave the application's object
    with another size for good, and give a thread a size the client did not choose for
    the object's own size. *)
Theorem C54_overlap_refuted : exists reset a w sch,
  w a = Some 1000 /\
  let '(w', ls', e) := a_run reset a w (fun _ => AGet) sch in
  ls' 1 = AEnd None /\ ls' 2 = AEnd None /\ w' a = Some 2000 /\
  In (ACreate a (Some 4000)) e /\ reset 1000 = 2000.
Proof.
  exists (fun n => n * 2), 50, (upd (fun _ => None) 50 (Some 1000)), [1; 1; 2; 2; 1; 1; 2; 2].
  vm_compute. repeat split; auto.
Qed.
Print Assumptions C54_overlap_refuted.

(** C55, the application supplied the stack memory itself (pthread_attr_setstack): the
    thread stays inside it when the client's size is not larger ... *)
Theorem C55_inside_partial : forall l reset w orig def n top,
  orig <> 0 -> w orig = Some n -> a_set l n = true -> reset n <= n ->
  exists m, creations (snd (create_with_attr l reset w orig def)) = [(orig, Some m)] /\
  fst (stack_range top n) <= fst (stack_range top m) /\
  snd (stack_range top m) = snd (stack_range top n).
Proof.
  intros l reset w orig def n top Ho Hw Hs Hr.
  destruct (create_given l reset w orig def n Ho Hw Hs) as [_ H2]. rewrite H2.
  eexists. split; [reflexivity|]. unfold stack_range. cbn [fst snd].
  destruct (applicable l reset orig n); lia.
Qed.
Print Assumptions C55_inside_partial.

(** ... and is given memory below the application's buffer when it is. *)
Theorem C55_below_buffer_refuted : exists l reset w orig def n top m,
  w orig = Some n /\ a_set l n = true /\
  creations (snd (create_with_attr l reset w orig def)) = [(orig, Some m)] /\
  fst (stack_range top m) < fst (stack_range top n).
Proof.
  exists (mklib (Some 8000) (fun _ => true) (fun n => 100 <=? n)), (fun n => n * 2),
    (upd (fun _ => None) 50 (Some 1000)), 50, 90, 1000, 70000, 2000.
  vm_compute. repeat split.
Qed.
Print Assumptions C55_below_buffer_refuted.
