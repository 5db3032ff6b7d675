From Verif Require Import LoaderModel LoaderSpec.

Lemma search_some defs scope sym i a : search defs scope sym = Some (i, a) <->
  first_definer defs sym scope i a.
Proof.
  split.
  - induction scope as [|j r IH]; simpl; [discriminate|].
    destruct (defs j sym) eqn:E.
    + intros H. injection H as <- <-. exists [], r. split; [reflexivity|]. split; [exact E|]. intros k [].
    + intros H. destruct (IH H) as (p & q & -> & H1 & H2).
      exists (j :: p), q. split; [reflexivity|]. split; [exact H1|].
      intros k [<-|Hk]; auto.
  - intros (p & q & -> & H1 & H2). induction p as [|j p IH]; simpl.
    + now rewrite H1.
    + rewrite (H2 j) by now left. apply IH. intros k Hk. apply H2. now right.
Qed.

Lemma search_none defs scope sym : search defs scope sym = None <-> undefined defs sym scope.
Proof.
  unfold undefined. induction scope as [|j r IH]; simpl.
  - split; [intros _ k []|reflexivity].
  - destruct (defs j sym) eqn:E.
    + split; [discriminate|]. intros H. rewrite (H j) in E by now left. discriminate.
    + rewrite IH. split; [intros H k [<-|Hk]; auto|intros H k Hk; apply H; now right].
Qed.

Lemma iterate_skip l sym before self after :
  o_base self = ld_self_base l -> (forall ob, In ob before -> o_base ob <> ld_self_base l) ->
  iterate l sym true (before ++ self :: after) = iterate l sym false after.
Proof.
  intros Hs. induction before as [|b r IH]; intros Hb; simpl.
  - rewrite Hs, Z.eqb_refl. reflexivity.
  - destruct (Z.eqb_spec (ld_self_base l) (o_base b)) as [E|E].
    + exfalso. apply (Hb b); [now left|congruence].
    + simpl. apply IH. intros ob Hob. apply Hb. now right.
Qed.

Lemma iterate_some l sym objs i a :
  iterate l sym false objs = Some (i, a) <-> first_later l objs sym i a.
Proof.
  split.
  - induction objs as [|ob r IH]; simpl; [discriminate|].
    destruct (o_opens ob) eqn:Eo; simpl.
    + destruct (search (ld_defs l) (o_scope ob) sym) as [[i' a']|] eqn:E.
      * intros H. injection H as -> ->. exists [], ob, r. split; [reflexivity|].
        split; [exact Eo|]. split; [now apply search_some|]. intros x [].
      * intros H. destruct (IH H) as (p & ob' & q & -> & H1 & H2 & H3).
        exists (ob :: p), ob', q. split; [reflexivity|]. split; [exact H1|]. split; [exact H2|].
        intros x [<-|Hx]; [right; now apply search_none|auto].
    + intros H. destruct (IH H) as (p & ob' & q & -> & H1 & H2 & H3).
      exists (ob :: p), ob', q. split; [reflexivity|]. split; [exact H1|]. split; [exact H2|].
      intros x [<-|Hx]; [now left|auto].
  - intros (p & ob & q & -> & H1 & H2 & H3). induction p as [|x p IH]; simpl.
    + rewrite H1. simpl. apply search_some in H2. now rewrite H2.
    + assert (IH' : iterate l sym false (p ++ ob :: q) = Some (i, a))
        by (apply IH; intros y Hy; apply H3; now right).
      destruct (H3 x) as [E|E]; [now left| |].
      * rewrite E. simpl. exact IH'.
      * apply search_none in E. destruct (o_opens x); simpl; [rewrite E|]; exact IH'.
Qed.

Lemma iterate_none l sym objs : iterate l sym false objs = None <->
  forall x, In x objs -> o_opens x = false \/ undefined (ld_defs l) sym (o_scope x).
Proof.
  induction objs as [|ob r IH]; simpl.
  - split; [intros _ x []|reflexivity].
  - destruct (o_opens ob) eqn:Eo; simpl.
    + destruct (search (ld_defs l) (o_scope ob) sym) as [x|] eqn:E.
      * split; [discriminate|]. intros H. exfalso.
        destruct (H ob) as [E'|E']; [now left|congruence|]. apply search_none in E'. congruence.
      * rewrite IH. split; intros H x.
        -- intros [<-|Hx]; [right; now apply search_none|auto].
        -- intros Hx. apply H. now right.
    + rewrite IH. split; intros H x.
      * intros [<-|Hx]; auto.
      * intros Hx. apply H. now right.
Qed.

Lemma iterate_ev_snd preload po ho l sym skip objs :
  snd (iterate_ev preload po ho l sym skip objs) = iterate l sym skip objs.
Proof.
  revert skip. induction objs as [|ob r IH]; intros skip; [reflexivity|].
  simpl. unfold phdr_callback. destruct skip; [apply IH|].
  destruct (o_opens ob); simpl.
  - destruct (search (ld_defs l) (o_scope ob) sym); [reflexivity|].
    rewrite <- (IH false). now destruct (iterate_ev preload po ho l sym false r).
  - rewrite <- (IH false). now destruct (iterate_ev preload po ho l sym false r).
Qed.

Lemma iterate_ev_quiet po ho l sym skip objs :
  filter is_dl_callback (fst (iterate_ev false po ho l sym skip objs)) = [].
Proof.
  revert skip. induction objs as [|ob r IH]; intros skip; [reflexivity|].
  simpl. destruct skip; [apply IH|].
  specialize (IH false). destruct (iterate_ev false po ho l sym false r) as [t x]. simpl in IH.
  destruct (o_opens ob); simpl; [|exact IH].
  destruct (search (ld_defs l) (o_scope ob) sym); simpl; auto.
Qed.

Lemma dlopen_init_deep l sym before self ob after :
  placed l before self (ob :: after) -> search (ld_defs l) (ld_next l) sym = None ->
  forall fuel, dlopen_init fuel l sym = None.
Proof.
  intros (Ho & Hs & Hb) Hn. induction fuel as [|f IH]; [reflexivity|].
  simpl. rewrite Hn, Ho. clear Ho Hn. induction before as [|b r IHb]; simpl.
  - rewrite Hs, Z.eqb_refl. simpl. now rewrite IH.
  - destruct (Z.eqb_spec (ld_self_base l) (o_base b)) as [E|E].
    + exfalso. apply (Hb b); [now left|congruence].
    + simpl. apply IHb. intros y Hy. apply Hb. now right.
Qed.

Lemma dl_calls_plain W (r : real_dl W) cs : forall w,
  let '(t, w', xs) := dl_calls r w cs in
  plain_calls r w cs = (w', xs) /\ t = concat (map (fun p => seen (fst p) (snd p)) (combine cs xs)).
Proof.
  induction cs as [|c rest IH]; intros w; simpl; [split; reflexivity|].
  destruct c as [a p f|a h]; destruct a; simpl;
    unfold dlopen, dlclose, monitor_real_dlopen, monitor_real_dlclose.
  - destruct (r_open r w p f) as [w1 x]. specialize (IH w1).
    destruct (dl_calls r w1 rest) as [[t2 w2] xs]. destruct IH as [-> ->]. split; reflexivity.
  - destruct (r_open r w p f) as [w1 x]. specialize (IH w1).
    destruct (dl_calls r w1 rest) as [[t2 w2] xs]. destruct IH as [-> ->]. split; reflexivity.
  - destruct (r_close r w h) as [w1 x]. specialize (IH w1).
    destruct (dl_calls r w1 rest) as [[t2 w2] xs]. destruct IH as [-> ->]. split; reflexivity.
  - destruct (r_close r w h) as [w1 x]. specialize (IH w1).
    destruct (dl_calls r w1 rest) as [[t2 w2] xs]. destruct IH as [-> ->]. split; reflexivity.
Qed.

(** ** Opens and closes *)

Definition bal_step (opens : Z -> Z) (h n : Z) (e : dlev) : Z :=
  match e with
  | DRealOpen p _ => if (opens p =? h) && negb (h =? 0) then n + 1 else n
  | DRealClose x => if x =? h then n - 1 else n
  | _ => n
  end.

Lemma bal_shift opens h : forall tr n, fold_left (bal_step opens h) tr n = n + fold_left (bal_step opens h) tr 0.
Proof.
  induction tr as [|e tr IH]; intros n; cbn [fold_left]; [lia|].
  rewrite IH, (IH (bal_step opens h 0 e)). unfold bal_step.
  destruct e; try lia; [destruct (_ && _)|destruct (_ =? _)]; lia.
Qed.
Lemma balance_app opens h a b : balance opens h (a ++ b) = balance opens h a + balance opens h b.
Proof. unfold balance. rewrite fold_left_app. apply (bal_shift opens h b). Qed.

Lemma iterate_balance_gen preload path_of handle_of l sym h opens : forall objs skip,
  (forall ob, In ob objs -> handle_of (o_id ob) <> 0 /\
     opens (path_of (o_id ob)) = if o_opens ob then handle_of (o_id ob) else 0) ->
  balance opens h (fst (iterate_ev preload path_of handle_of l sym skip objs)) = 0.
Proof.
  induction objs as [|ob r IH]; intros skip H; [reflexivity|].
  assert (Hr : forall ob', In ob' r -> handle_of (o_id ob') <> 0 /\
     opens (path_of (o_id ob')) = if o_opens ob' then handle_of (o_id ob') else 0).
  { intros ob' Hi. apply H. now right. }
  destruct (H ob (or_introl eq_refl)) as [Hn Ho].
  cbn [iterate_ev]. destruct skip; [now apply IH|].
  specialize (IH false Hr).
  destruct (iterate_ev preload path_of handle_of l sym false r) as [t x] eqn:Et. cbn [fst] in IH.
  destruct (o_opens ob) eqn:Eo; cbn [negb].
  - assert (B : balance opens h
      (( if preload then fst (fst (dlopen (mkreal (fun w _ _ => (w, handle_of (o_id ob))) (fun w _ => (w, 0))) tt (path_of (o_id ob)) NOLOAD_FLAGS))
                  else [DRealOpen (path_of (o_id ob)) NOLOAD_FLAGS]) ++
       (if preload then fst (fst (dlclose (mkreal (fun w _ _ => (w, handle_of (o_id ob))) (fun w _ => (w, 0))) tt (handle_of (o_id ob)))) else [DRealClose (handle_of (o_id ob))])) = 0).
    { rewrite balance_app. unfold balance. destruct preload; cbn; rewrite Ho;
        destruct (Z.eqb_spec (handle_of (o_id ob)) h) as [E|N]; cbn; try lia;
        destruct (Z.eqb_spec h 0) as [Z0|_]; cbn; lia. }
    destruct (search (ld_defs l) (o_scope ob) sym) as [y|]; cbn [fst]; [exact B|].
    rewrite app_assoc, balance_app, B, IH. reflexivity.
  - cbn [fst]. rewrite balance_app, IH. rewrite Z.add_0_r.
    unfold balance. destruct preload; cbn; rewrite Ho;
      destruct (Z.eqb_spec 0 h) as [<-|N]; reflexivity.
Qed.

Lemma iterate_balance preload path_of handle_of l sym h :
  (forall ob, In ob (ld_objects l) -> handle_of (o_id ob) <> 0) ->
  (forall ob ob', In ob (ld_objects l) -> In ob' (ld_objects l) ->
     path_of (o_id ob) = path_of (o_id ob') -> o_id ob = o_id ob' /\ o_opens ob = o_opens ob') ->
  balance (fun p => match find (fun ob => path_of (o_id ob) =? p) (ld_objects l) with
                    | Some ob => if o_opens ob then handle_of (o_id ob) else 0
                    | None => 0
                    end) h
    (fst (iterate_ev preload path_of handle_of l sym true (ld_objects l))) = 0.
Proof.
  intros H1 H2. apply iterate_balance_gen. intros ob Hi. split; [now apply H1|].
  destruct (find (fun ob0 => path_of (o_id ob0) =? path_of (o_id ob)) (ld_objects l)) as [ob'|] eqn:E.
  - apply find_some in E. destruct E as [Ei Ee]. apply Z.eqb_eq in Ee.
    destruct (H2 ob' ob Ei Hi Ee) as [-> ->]. reflexivity.
  - exfalso. apply (find_none _ _ E) in Hi. now rewrite Z.eqb_refl in Hi.
Qed.

Lemma iterate_ev_skip preload po ho l sym before : forall rest,
  (forall ob, In ob before -> o_base ob <> ld_self_base l) ->
  forall self, o_base self = ld_self_base l ->
  iterate_ev preload po ho l sym true (before ++ self :: rest) =
  iterate_ev preload po ho l sym false rest.
Proof.
  induction before as [|ob r IH]; intros rest H self Hs; cbn [app iterate_ev].
  - now rewrite Hs, Z.eqb_refl.
  - assert (N : (ld_self_base l =? o_base ob) = false)
      by (apply Z.eqb_neq; intros E; apply (H ob); [now left|auto]).
    rewrite N. apply IH; [|exact Hs]. intros x Hx. apply H. now right.
Qed.

Lemma iterate_looked po ho l sym after :
  exists objs, looked_at l sym after objs /\
    fst (iterate_ev true po ho l sym false after) =
    flat_map (fun ob => open_and_close (po (o_id ob)) (ho (o_id ob)) (o_opens ob)) objs.
Proof.
  induction after as [|ob r (objs & H1 & H2)]; [exists []; split; [constructor|reflexivity]|].
  cbn [iterate_ev dlopen dlclose r_open r_close fst snd].
  destruct (iterate_ev true po ho l sym false r) as [t x]. cbn [fst] in H2. subst t.
  destruct (o_opens ob) eqn:EO; cbn [negb].
  - destruct (search (ld_defs l) (o_scope ob) sym) as [[i a]|] eqn:ES.
    + exists [ob]. split.
      * apply (la_found l sym ob r i a EO). now apply search_some.
      * cbn. now rewrite EO.
    + exists (ob :: objs). split.
      * apply la_next; [right; now apply search_none|exact H1].
      * cbn. rewrite EO. reflexivity.
  - exists (ob :: objs). split; [apply la_next; auto|]. cbn. rewrite EO. reflexivity.
Qed.

Lemma iterate_callbacks po ho l before self after sym :
  placed l before self after ->
  exists objs, looked_at l sym after objs /\
    fst (iterate_ev true po ho l sym true (ld_objects l)) =
    flat_map (fun ob => open_and_close (po (o_id ob)) (ho (o_id ob)) (o_opens ob)) objs.
Proof.
  intros (-> & Hs & Hb). rewrite (iterate_ev_skip true po ho l sym before after Hb self Hs).
  apply iterate_looked.
Qed.
