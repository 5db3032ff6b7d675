(** What C51 and C56 mean, independently of the scripts: the command-line grammar of
    the usage text. *)
From Verif Require Import ScriptModel.
From Coq Require Import Ascii String.
Import List ListNotations.

(** A command name: not empty, does not look like an option. *)
Definition plain (w : bytes) : Prop := w <> [] /\ hd_error w <> Some DASH.

(** monitor-run [options] command arg ...: the options, with the -i files in order and
    whether -d was given, and the words that follow. *)
Inductive run_args : list bytes -> bool -> list bytes -> list bytes -> Prop :=
| ra_command : forall c r, plain c -> run_args (c :: r) false [] (c :: r)
| ra_dashes : forall r, run_args (str "--" :: r) false [] r
| ra_debug : forall o r d fs ws, o = str "-d" \/ o = str "--debug" ->
    run_args r d fs ws -> run_args (o :: r) true fs ws
| ra_insert : forall o f r d fs ws, o = str "-i" \/ o = str "--insert" -> f <> [] ->
    run_args r d fs ws -> run_args (o :: f :: r) d (f :: fs) ws.

(** A path name made absolute. *)
Definition abs_name (pwd f : bytes) : bytes :=
  match f with c :: _ => if Ascii.eqb c SLASH then f else pwd ++ str "/" ++ f | [] => pwd ++ str "/" end.

(** The inserted files, made absolute, each preceded by a colon. *)
Definition files_text (e : renv) (fs : list bytes) : bytes :=
  concat (map (fun f => COLON :: abs_name (r_pwd e) f) fs).

(** A name the loader takes as one entry. *)
Definition one_entry (f : bytes) : Prop := f <> [] /\ forall c, In c f -> is_sep c = false.

(** monitor-link [options] compiler file ... *)
Inductive link_args : list bytes -> list bytes -> list bytes -> list bytes -> list bytes -> Prop :=
| la_command : forall c r, plain c -> link_args (c :: r) [] [] [] (c :: r)
| la_empty : forall r, link_args ([] :: r) [] [] [] ([] :: r)   (* an empty word ends the options *)
| la_dashes : forall r, link_args (str "--" :: r) [] [] [] r
| la_verbose : forall o r is us wr ws, o = str "-v" \/ o = str "--verbose" ->
    link_args r is us wr ws -> link_args (o :: r) is us wr ws
| la_insert : forall o f r is us wr ws, o = str "-i" \/ o = str "--insert" -> f <> [] ->
    link_args r is us wr ws -> link_args (o :: f :: r) (f :: is) us wr ws
| la_undef : forall o f r is us wr ws, o = str "-u" \/ o = str "--undefined" -> f <> [] ->
    link_args r is us wr ws -> link_args (o :: f :: r) is (f :: us) wr ws
| la_wrap : forall o f r is us wr ws, o = str "-w" \/ o = str "--wrap" -> f <> [] ->
    link_args r is us wr ws -> link_args (o :: f :: r) is us (f :: wr) ws.

(** A word without white space. *)
Definition one_word (w : bytes) : Prop := w <> [] /\ forall c, In c w -> is_ifs c = false.

(** White space, as the shell splits on it; what the loader splits LD_PRELOAD on. *)
Definition blank (c : ascii) : Prop := c = " "%char \/ c = "009"%char \/ c = "010"%char.
Definition colon_or_space (c : ascii) : Prop := c = ":"%char \/ c = " "%char.

(** A text cut at the separators: the words are the longest runs without one. *)
Inductive split_by (sep : ascii -> Prop) : bytes -> list bytes -> Prop :=
| sb_nil : split_by sep [] []
| sb_sep : forall c v ws, sep c -> split_by sep v ws -> split_by sep (c :: v) ws
| sb_word : forall w v ws, w <> [] -> (forall c, In c w -> ~ sep c) ->
    (v = [] \/ exists c r, v = c :: r /\ sep c) -> split_by sep v ws ->
    split_by sep (w ++ v) (w :: ws).
