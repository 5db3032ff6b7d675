(** Properties C51 (monitor-run) and C56 (monitor-link). *)
From Verif Require Import ScriptModel ScriptSpec ScriptProofs.
From Coq Require Import Ascii String.
Import List ListNotations.

(** C51.  monitor-run executes something if and only if its arguments follow the usage,
    a command is given, and every inserted file and libmonitor exist; it then runs
    exactly the words after the options.  Everything else (unknown option, missing
    option argument, missing file, no command) ends before anything is run. *)
Theorem C51_runs_iff : forall e args c,
  monitor_run e args = Run c <->
  exists d fs cmd ws,
    run_args args d fs (cmd :: ws) /\ cmd <> [] /\
    (forall f, In f fs -> r_is_file e (abs_name (r_pwd e) f) = true) /\
    r_is_file e (r_libmonitor e) = true /\
    rc_words c = cmd :: ws /\ rc_debug c = d /\
    rc_preload c = files_text e fs ++ str ":" ++ r_libmonitor e ++ str ":" ++ r_preload e.
Proof.
  intros e args c. unfold monitor_run. split.
  - intros H. destruct (run_sound e _ [] false args c (Nat.lt_succ_diag_r _) H) as (d & fs & ws & H1 & H2 & H3).
    destruct ws as [|cmd ws]; [discriminate|]. unfold run_finish in H3.
    destruct (beq cmd []) eqn:E; [discriminate|]. apply beq_neq in E.
    destruct (r_is_file e (r_libmonitor e)) eqn:El; [|discriminate].
    injection H3 as <-. exists d, fs, cmd, ws. repeat (split; [assumption||reflexivity|]). reflexivity.
  - intros (d & fs & cmd & ws & H1 & H2 & H3 & H4 & H5 & H6 & H7).
    rewrite (run_complete e args d fs (cmd :: ws) H1 _ [] false (Nat.lt_succ_diag_r _) H3).
    unfold run_finish. destruct (beq cmd []) eqn:E; [apply beq_eq in E; contradiction|].
    rewrite H4. destruct c as [w p b]. cbn [rc_words rc_debug rc_preload] in *. subst. reflexivity.
Qed.
Print Assumptions C51_runs_iff.

(** C51.  The loader reads the value as: the inserted files in order, libmonitor, the
    previous entries; provided no name contains a colon or a space. *)
Theorem C51_preload_partial : forall e args c d fs ws,
  run_args args d fs ws -> monitor_run e args = Run c ->
  (forall f, In f fs -> one_entry (abs_name (r_pwd e) f)) -> one_entry (r_libmonitor e) ->
  preloaded (rc_preload c) =
  map (abs_name (r_pwd e)) fs ++ [r_libmonitor e] ++ preloaded (r_preload e).
Proof.
  intros e args c d fs ws Ha H Hfs Hl.
  assert (Hex : forall f, In f fs -> r_is_file e (abs_name (r_pwd e) f) = true).
  { unfold monitor_run in H. clear Hfs Hl. revert H. generalize (@nil ascii) false (S (List.length args)).
    induction Ha as [x r Hp|r|o r d fs ws Ho Hr IH|o f r d fs ws Ho Hf Hr IH]; intros files dbg fuel H g Hg;
      try contradiction; (destruct fuel as [|fu]; [discriminate|]).
    - destruct Ho as [-> | ->]; exact (IH files true fu H g Hg).
    - assert (Hfe : beq f [] = false) by now apply beq_neq.
      assert (H' : (if beq f [] then Die else if r_is_file e (absolute e f)
                then run_loop fu e (files ++ COLON :: absolute e f) dbg r else Die) = Run c)
        by (destruct Ho as [-> | ->]; exact H).
      rewrite Hfe, (absolute_abs e f Hf) in H'.
      destruct (r_is_file e (abs_name (r_pwd e) f)) eqn:Ex; [|discriminate].
      destruct Hg as [<-|Hg]; [exact Ex|]. exact (IH _ _ _ H' g Hg). }
  unfold monitor_run in H.
  rewrite (run_complete e args d fs ws Ha _ [] false (Nat.lt_succ_diag_r _) Hex) in H.
  unfold run_finish in H. destruct ws as [|cmd ws]; [discriminate|].
  destruct (beq cmd []); [discriminate|]. destruct (r_is_file e (r_libmonitor e)); [|discriminate].
  injection H as <-. cbn [rc_preload]. now apply preload_list.
Qed.
Print Assumptions C51_preload_partial.

(** A file whose path has a space is accepted but the loader sees two other names. *)
Theorem C51_space_refuted : exists e args c,
  monitor_run e args = Run c /\ args = [str "-i"; str "/my dir/a.so"; str "ls"] /\
  preloaded (rc_preload c) = [str "/my"; str "dir/a.so"; str "/usr/lib/libmonitor.so"].
Proof.
  exists (mkrenv (fun _ => true) (str "/home") (str "/usr/lib/libmonitor.so") []),
    [str "-i"; str "/my dir/a.so"; str "ls"],
    (mkrcmd [str "ls"] (str ":/my dir/a.so:/usr/lib/libmonitor.so:") false).
  vm_compute. repeat split.
Qed.
Print Assumptions C51_space_refuted.

(** [preloaded] in C51_preload_partial cuts LD_PRELOAD the way the loader does. *)
Theorem C51_entries : forall v ws, preloaded v = ws <-> split_by colon_or_space v ws.
Proof. exact (fields_iff is_sep colon_or_space is_sep_colon). Qed.
Print Assumptions C51_entries.

Example C51_example :
  let e := mkrenv (fun f => negb (beq f (str "/none"))) (str "/home") (str "/lib/libmonitor.so") (str "/old.so") in
  monitor_run e [str "-i"; str "a.so"; str "--debug"; str "--insert"; str "/b.so"; str "--"; str "-x"; str "-d"] =
  Run (mkrcmd [str "-x"; str "-d"] (str ":/home/a.so:/b.so:/lib/libmonitor.so:/old.so") true) /\
  monitor_run e [str "-i"; str "/none"; str "ls"] = Die /\
  monitor_run e [str "-q"; str "ls"] = Die /\ monitor_run e [str "-i"] = Die /\ monitor_run e [str "-d"] = Usage.
Proof. vm_compute. repeat split. Qed.

(** C56.  monitor-link executes something if and only if its arguments follow the usage
    and name a compiler and a first argument; it then runs the compiler with a wrap
    option for every configured and requested name, an undefined option for every
    requested name, the original arguments unchanged and together, then the inserted
    files, libmonitor and a second copy of each -l library.  Names with white space
    fall apart into words. *)
Theorem C56_link_iff : forall e args c,
  monitor_link e args = Run c <->
  exists is us wr compiler a r,
    link_args args is us wr (compiler :: a :: r) /\ a <> [] /\
    c = words compiler ++
        map (app (str "-Wl,--wrap=")) (words (l_wrap_names e) ++ flat_map words wr) ++
        map (app (str "-Wl,--undefined=__wrap_")) (flat_map words us) ++
        (a :: r) ++
        flat_map words is ++ words (l_libmonitor e) ++ flat_map words (filter is_lib (a :: r)).
Proof.
  intros e args c. unfold monitor_link.
  assert (F : forall is us wr compiler a r, a <> [] ->
    link_finish e (add_vars (mklvars [] [] []) is us wr) (compiler :: a :: r) =
    Run (words compiler ++
        map (app (str "-Wl,--wrap=")) (words (l_wrap_names e) ++ flat_map words wr) ++
        map (app (str "-Wl,--undefined=__wrap_")) (flat_map words us) ++
        (a :: r) ++
        flat_map words is ++ words (l_libmonitor e) ++ flat_map words (filter is_lib (a :: r)))).
  { intros is us wr compiler a r Ha. rewrite link_finish_words by exact Ha.
    unfold add_vars. cbn [lv_insert lv_wrap lv_undef]. rewrite !app_nil_l, !words_listed. reflexivity. }
  split.
  - intros H. destruct (link_sound e _ _ args c (Nat.lt_succ_diag_r _) H) as (is & us & wr & ws & H1 & H2).
    destruct ws as [|compiler [|a r]]; try discriminate.
    assert (Ha : a <> []) by (intros ->; discriminate).
    pose proof (eq_trans (eq_sym (F is us wr compiler a r Ha)) H2) as E. injection E as <-.
    now exists is, us, wr, compiler, a, r.
  - intros (is & us & wr & compiler & a & r & H1 & H2 & ->).
    rewrite (link_complete e args is us wr _ H1 _ _ (Nat.lt_succ_diag_r _)). now apply F.
Qed.
Print Assumptions C56_link_iff.

(** C56 for names without white space: every word arrives as given. *)
Theorem C56_link_plain_names_partial : forall e args is us wr compiler a r,
  link_args args is us wr (compiler :: a :: r) -> a <> [] ->
  (forall w, In w (compiler :: l_libmonitor e :: is ++ us ++ wr ++ filter is_lib (a :: r)) -> one_word w) ->
  monitor_link e args =
  Run (compiler ::
       map (app (str "-Wl,--wrap=")) (words (l_wrap_names e) ++ wr) ++
       map (app (str "-Wl,--undefined=__wrap_")) us ++
       (a :: r) ++ is ++ [l_libmonitor e] ++ filter is_lib (a :: r)).
Proof.
  intros e args is us wr compiler a r H1 H2 Hw.
  assert (G : forall l, (forall w, In w l -> one_word w) -> flat_map words l = l).
  { induction l as [|w l IH]; intros Hl; simpl; [reflexivity|].
    rewrite words_one by (apply Hl; now left). simpl. f_equal. apply IH. intros x Hx. apply Hl. now right. }
  rewrite (proj2 (C56_link_iff e args _)
    (ex_intro _ is (ex_intro _ us (ex_intro _ wr (ex_intro _ compiler (ex_intro _ a (ex_intro _ r
       (conj H1 (conj H2 eq_refl))))))))).
  rewrite (G is), (G us), (G wr), (G (filter is_lib (a :: r)));
    try (intros w Hin; apply Hw; right; right; rewrite !in_app_iff; tauto).
  rewrite (words_one compiler), (words_one (l_libmonitor e));
    [reflexivity|apply Hw; right; now left|apply Hw; now left].
Qed.
Print Assumptions C56_link_plain_names_partial.

(** An object file whose name has a space is not passed on as given. *)
Theorem C56_space_refuted :
  monitor_link (mklenv (str "/l.a") (str "main")) [str "-i"; str "my cb.o"; str "cc"; str "x.c"] =
  Run [str "cc"; str "-Wl,--wrap=main"; str "x.c"; str "my"; str "cb.o"; str "/l.a"].
Proof. vm_compute. reflexivity. Qed.
Print Assumptions C56_space_refuted.

(** The words and the libraries of C56_link_iff: the text cut at white space; the
    arguments that are -l and a name. *)
Theorem C56_words : forall v ws, words v = ws <-> split_by blank v ws.
Proof. exact (fields_iff is_ifs blank is_ifs_blank). Qed.
Print Assumptions C56_words.
Theorem C56_libraries : forall args a,
  In a (filter is_lib args) <-> In a args /\ exists x, x <> [] /\ a = str "-l" ++ x.
Proof. intros args a. rewrite filter_In, is_lib_iff. reflexivity. Qed.
Print Assumptions C56_libraries.

Example C56_example :
  monitor_link (mklenv (str "/l.a") (str "main _exit"))
    [str "-v"; str "-i"; str "cb.o"; str "-w"; str "foo"; str "-u"; str "bar"; str "cc"; str "my x.c"; str "-lm"; str "-l"] =
  Run [str "cc"; str "-Wl,--wrap=main"; str "-Wl,--wrap=_exit"; str "-Wl,--wrap=foo";
       str "-Wl,--undefined=__wrap_bar"; str "my x.c"; str "-lm"; str "-l"; str "cb.o"; str "/l.a"; str "-lm"].
Proof. vm_compute. reflexivity. Qed.
