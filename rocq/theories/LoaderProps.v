(** Properties C22 (finding the real functions), C23 (dlopen and dlclose) and
    C53 (lookups are invisible to the client). *)
From Verif Require Import LoaderModel LoaderSpec LoaderProofs.

(** C22.  The next-object definition if there is one, otherwise the one found through
    the first openable later object; an error exactly when there is neither. *)
Theorem C22_found : forall l before self after sym i a,
  placed l before self after ->
  (monitor_dlsym l sym = Some (i, a) <->
   first_definer (ld_defs l) sym (ld_next l) i a \/
   (undefined (ld_defs l) sym (ld_next l) /\ first_later l after sym i a)).
Proof.
  intros l before self after sym i a (Ho & Hs & Hb). unfold monitor_dlsym.
  rewrite Ho, (iterate_skip l sym before self after Hs Hb).
  rewrite <- search_some, <- search_none, <- iterate_some.
  destruct (search (ld_defs l) (ld_next l) sym) as [x|].
  - split; [now left|]. intros [H|[H _]]; [exact H|discriminate].
  - split; [now right|]. intros [H|[_ H]]; [discriminate|exact H].
Qed.
Print Assumptions C22_found.

Theorem C22_error : forall l before self after sym,
  placed l before self after ->
  (monitor_dlsym l sym = None <->
   undefined (ld_defs l) sym (ld_next l) /\
   forall x, In x after -> o_opens x = false \/ undefined (ld_defs l) sym (o_scope x)).
Proof.
  intros l before self after sym (Ho & Hs & Hb). unfold monitor_dlsym.
  rewrite Ho, (iterate_skip l sym before self after Hs Hb).
  rewrite <- search_none, <- iterate_none.
  destruct (search (ld_defs l) (ld_next l) sym) as [x|]; [|tauto].
  split; [discriminate|intros [H _]; discriminate].
Qed.
Print Assumptions C22_error.

(** C22.  Never libmonitor or an earlier object, provided no later object's
    dependencies lead back to one (and RTLD_NEXT itself looks only further on). *)
Theorem C22_never_self_partial : forall l before self after sym i a,
  placed l before self after -> closed_after l after ->
  (forall j, In j (ld_next l) -> exists ob, In ob after /\ o_id ob = j) ->
  monitor_dlsym l sym = Some (i, a) -> exists ob, In ob after /\ o_id ob = i.
Proof.
  intros l before self after sym i a Hp Hc Hn H.
  apply (C22_found l before self after sym i a Hp) in H.
  destruct H as [(p & q & E & _)|[_ (p & ob & q & E & _ & (p' & q' & E' & _) & _)]].
  - apply Hn. rewrite E. apply in_app_iff. right. now left.
  - apply (Hc ob); [rewrite E; apply in_app_iff; right; now left|].
    rewrite E'. apply in_app_iff. right. now left.
Qed.
Print Assumptions C22_never_self_partial.

(** C22, without that proviso: a library loaded later that was linked against
    libmonitor (as a tool's own library is) makes the lookup find libmonitor's own
    wrapper, although a real definition exists. *)
Theorem C22_own_wrapper_refuted : exists l before self after sym a,
  placed l before self after /\ monitor_dlsym l sym = Some (o_id self, a) /\
  exists ob b, In ob after /\ o_opens ob = true /\ ld_defs l (o_id ob) sym = Some b.
Proof.
  (* objects: 1 program, 2 libmonitor, 3 a tool library needing 2 and 4, 4 libpthread
     (both loaded with RTLD_LOCAL); symbol 7 is pthread_create *)
  pose (defs := fun i s : Z => if s =? 7 then if i =? 2 then Some 200 else if i =? 4 then Some 400 else None else None).
  exists (mkloader [mkobject 1 1000 true [1; 2]; mkobject 2 2000 true [2];
                    mkobject 3 3000 true [3; 2; 4]; mkobject 4 4000 true [4]] defs [] 2000),
    [mkobject 1 1000 true [1; 2]], (mkobject 2 2000 true [2]),
    [mkobject 3 3000 true [3; 2; 4]; mkobject 4 4000 true [4]], 7, 200.
  split; [|split].
  - split; [reflexivity|]. split; [reflexivity|].
    intros ob [<-|[]]. simpl. discriminate.
  - reflexivity.
  - exists (mkobject 4 4000 true [4]), 400. split; [right; now left|]. split; reflexivity.
Qed.
Print Assumptions C22_own_wrapper_refuted.

(** A case meeting the hypotheses: RTLD_NEXT finds nothing, the first later object
    cannot be opened, the second defines the symbol. *)
Example C22_example :
  let l := mkloader [mkobject 1 1000 true [1]; mkobject 2 2000 true [2];
                     mkobject 3 3000 false [3]; mkobject 4 4000 true [4]]
                    (fun i s => if s =? 7 then Some (i * 100) else None) [] 2000 in
  placed l [mkobject 1 1000 true [1]] (mkobject 2 2000 true [2])
           [mkobject 3 3000 false [3]; mkobject 4 4000 true [4]] /\
  closed_after l [mkobject 3 3000 false [3]; mkobject 4 4000 true [4]] /\
  monitor_dlsym l 7 = Some (4, 400) /\ monitor_dlsym l 8 = None.
Proof.
  split; [|split; [|split; reflexivity]].
  - split; [reflexivity|]. split; [reflexivity|]. intros ob [<-|[]]. simpl. discriminate.
  - intros ob i [<-|[<-|[]]] [<-|[]].
    + exists (mkobject 3 3000 false [3]). split; [now left|reflexivity].
    + exists (mkobject 4 4000 true [4]). split; [right; now left|reflexivity].
Qed.

(** C23.  For every real loader (any state, effects and results) and every history of
    calls: the loader ends in the same state and the callers get the same results as
    without libmonitor; each application call is seen as pre callback, real call with
    the caller's arguments, post callback with the real result; the client's own
    monitor_real_ calls are seen as the real call alone. *)
Theorem C23_transparent : forall W (r : real_dl W) w cs t w' xs,
  dl_calls r w cs = (t, w', xs) ->
  plain_calls r w cs = (w', xs) /\
  t = concat (map (fun p => seen (fst p) (snd p)) (combine cs xs)).
Proof.
  intros W r w cs t w' xs H. pose proof (dl_calls_plain W r cs w) as P. now rewrite H in P.
Qed.
Print Assumptions C23_transparent.

(** A loader that counts; the application opens, the client opens, the application
    closes. *)
Example C23_example :
  dl_calls (mkreal (fun w _ _ => (w + 1, w * 10)) (fun w _ => (w - 1, w))) 3
    [COpen true 70 1; COpen false 80 2; CClose true 30] =
  ([DPreOpen 70 1; DRealOpen 70 1; DPostOpen 70 1 30; DRealOpen 80 2;
    DPreClose 30; DRealClose 30; DPostClose 30 5], 4, [30; 40; 5]).
Proof. reflexivity. Qed.

(** C53.  Static build: looking up a real function makes no client callback. *)
Theorem C53_static_partial : forall path_of handle_of l sym,
  filter is_dl_callback (fst (iterate_ev false path_of handle_of l sym true (ld_objects l))) = [].
Proof. intros po ho l sym. apply iterate_ev_quiet. Qed.
Print Assumptions C53_static_partial.

(** Every object the lookup opens it closes again, in both builds: for handles that are
    not 0 and different for different objects, no open is left over. *)
Theorem C53_closes_what_it_opens : forall preload path_of handle_of l sym h,
  (forall ob, In ob (ld_objects l) -> handle_of (o_id ob) <> 0) ->
  (forall ob ob', In ob (ld_objects l) -> In ob' (ld_objects l) ->
     path_of (o_id ob) = path_of (o_id ob') -> o_id ob = o_id ob' /\ o_opens ob = o_opens ob') ->
  balance (fun p => match find (fun ob => path_of (o_id ob) =? p) (ld_objects l) with
                    | Some ob => if o_opens ob then handle_of (o_id ob) else 0
                    | None => 0
                    end) h
    (fst (iterate_ev preload path_of handle_of l sym true (ld_objects l))) = 0.
Proof. exact iterate_balance. Qed.
Print Assumptions C53_closes_what_it_opens.

(** The trace version finds the same definition as monitor_dlsym's fallback. *)
Theorem C53_same_result : forall preload path_of handle_of l sym,
  snd (iterate_ev preload path_of handle_of l sym true (ld_objects l)) =
  iterate l sym true (ld_objects l).
Proof. intros p po ho l sym. apply iterate_ev_snd. Qed.
Print Assumptions C53_same_result.

(** Preload build: exactly which callbacks the fallback makes. *)
Theorem C53_preload_callbacks : forall path_of handle_of l before self after sym,
  placed l before self after ->
  exists objs, looked_at l sym after objs /\
    fst (iterate_ev true path_of handle_of l sym true (ld_objects l)) =
    flat_map (fun ob => open_and_close (path_of (o_id ob)) (handle_of (o_id ob)) (o_opens ob)) objs.
Proof. exact iterate_callbacks. Qed.
Print Assumptions C53_preload_callbacks.

(** Preload build: the fallback runs the client's dlopen and dlclose callbacks for an
    object the application never opened. *)
Theorem C53_callbacks_refuted : exists l sym,
  iterate_ev true (fun i => i * 10) (fun i => i * 20) l sym true (ld_objects l) =
  ([DPreOpen 30 5; DRealOpen 30 5; DPostOpen 30 5 60; DPreClose 60; DRealClose 60; DPostClose 60 0],
   Some (3, 300)).
Proof.
  exists (mkloader [mkobject 2 2000 true [2]; mkobject 3 3000 true [3]]
                   (fun i s => if s =? 7 then Some (i * 100) else None) [] 2000), 7.
  reflexivity.
Qed.
Print Assumptions C53_callbacks_refuted.

(** Preload build: if the real dlopen is not visible to RTLD_NEXT and some object was
    loaded after libmonitor, looking it up never ends. *)
Theorem C53_dlopen_lookup_recurses_refuted : forall l before self ob after sym,
  placed l before self (ob :: after) -> undefined (ld_defs l) sym (ld_next l) ->
  forall fuel, dlopen_init fuel l sym = None.
Proof.
  intros l before self ob after sym Hp Hu. apply search_none in Hu.
  exact (dlopen_init_deep l sym before self ob after Hp Hu).
Qed.
Print Assumptions C53_dlopen_lookup_recurses_refuted.

Example C53_recursion_case : exists l before self ob after,
  placed l before self (ob :: after) /\ undefined (ld_defs l) 7 (ld_next l) /\
  ld_defs l (o_id ob) 7 = Some 300.
Proof.
  exists (mkloader [mkobject 2 2000 true [2]; mkobject 3 3000 true [3]]
                   (fun i s => if s =? 7 then Some (i * 100) else None) [] 2000),
    [], (mkobject 2 2000 true [2]), (mkobject 3 3000 true [3]), [].
  split; [|split; [intros j []|reflexivity]].
  split; [reflexivity|]. split; [reflexivity|]. intros ob [].
Qed.
