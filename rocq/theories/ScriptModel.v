(** Model of the shell scripts src/monitor-run.in and src/monitor-link.in.

    Arguments are byte strings ([bytes] of ExecModel.v).  The scripts' exec is the
    outcome [Run]; nothing is run before it.  Not modelled: messages, the pathname
    expansion of unquoted words in monitor-link (names with star, question mark or
    bracket), exec itself failing. *)
From Verif Require Export ExecModel.
From Coq Require Import Ascii String.
Import List ListNotations.

Definition DASH : ascii := ascii_of_nat 45.
Definition SPACE : ascii := ascii_of_nat 32.
Definition TAB : ascii := ascii_of_nat 9.
Definition NEWLINE : ascii := ascii_of_nat 10.

Definition beq (a b : bytes) : bool := if list_eq_dec ascii_dec a b then true else false.
(** case patterns a | b *)
Definition is_opt (w : bytes) (short long : string) : bool := beq w (str short) || beq w (str long).

(** Outcome of a script: usage (exit 0), die (exit 1), or exec of a command. *)
Inductive outcome (A : Type) := Usage | Die | Run (a : A).
Arguments Usage {A}. Arguments Die {A}. Arguments Run {A} _.

(** * monitor-run.in *)

(** [is_file] is test -f; [pwd] the output of pwd; [libmonitor] line 27. *)
Record renv := mkrenv {
  r_is_file : bytes -> bool; r_pwd : bytes; r_libmonitor : bytes; r_preload : bytes }.

(** What is executed: the words, the value of LD_PRELOAD, MONITOR_DEBUG set to 1? *)
Record rcmd := mkrcmd { rc_words : list bytes; rc_preload : bytes; rc_debug : bool }.

(** Lines 97-106 *)
Definition run_finish (e : renv) (files : bytes) (debug : bool) (args : list bytes) : outcome rcmd :=
  match args with
  | [] => Usage
  | c :: _ =>
      if beq c [] then Usage
      else if r_is_file e (r_libmonitor e)
      then Run (mkrcmd args (files ++ COLON :: r_libmonitor e ++ COLON :: r_preload e) debug)
      else Die
  end.

(** Lines 73-76 *)
Definition absolute (e : renv) (f : bytes) : bytes :=
  match f with
  | c :: _ => if Ascii.eqb c SLASH then f else r_pwd e ++ SLASH :: f
  | [] => r_pwd e ++ SLASH :: f
  end.

(** The option loop, 57-95.  [fuel]: more than the number of arguments suffices. *)
Fixpoint run_loop (fuel : nat) (e : renv) (files : bytes) (debug : bool) (args : list bytes)
  : outcome rcmd :=
  match fuel with
  | O => Die
  | S fu =>
      match args with
      | [] => run_finish e files debug args
      | a :: r =>
          if beq a [] then run_finish e files debug args                        (* 57 *)
          else if is_opt a "-d" "--debug" then run_loop fu e files true r       (* 60 *)
          else if is_opt a "-h" "--help" then Usage                             (* 66 *)
          else if is_opt a "-i" "--insert" then                                 (* 70 *)
            match r with
            | f :: r' =>
                if beq f [] then Die
                else if r_is_file e (absolute e f)
                then run_loop fu e (files ++ COLON :: absolute e f) debug r'
                else Die
            | [] => Die
            end
          else if beq a (str "--") then run_finish e files debug r              (* 82 *)
          else match a with
               | c :: _ => if Ascii.eqb c DASH then Die                         (* 87 *)
                           else run_finish e files debug args                   (* 91 *)
               | [] => run_finish e files debug args
               end
      end
  end.

Definition monitor_run (e : renv) (args : list bytes) : outcome rcmd :=
  run_loop (S (List.length args)) e [] false args.

(** The dynamic loader's reading of LD_PRELOAD (ld.so(8)): names separated by colons
    or spaces; empty names are ignored. *)
Definition is_sep (c : ascii) : bool := Ascii.eqb c COLON || Ascii.eqb c SPACE.
Fixpoint fields (sep : ascii -> bool) (cur : bytes) (l : bytes) : list bytes :=
  match l with
  | [] => if beq cur [] then [] else [cur]
  | c :: r => if sep c then (if beq cur [] then fields sep [] r else cur :: fields sep [] r)
              else fields sep (cur ++ [c]) r
  end.
Definition preloaded (v : bytes) : list bytes := fields is_sep [] v.

(** * monitor-link.in *)

(** Shell variables gathered by the option loop; the values are words separated by
    spaces, as in the script. *)
Record lvars := mklvars { lv_insert : bytes; lv_wrap : bytes; lv_undef : bytes }.

Record lenv := mklenv { l_libmonitor : bytes; l_wrap_names : bytes }.   (* 29-30 *)

(** Field splitting of an unquoted expansion: space, tab, newline. *)
Definition is_ifs (c : ascii) : bool :=
  Ascii.eqb c SPACE || Ascii.eqb c TAB || Ascii.eqb c NEWLINE.
Definition words (v : bytes) : list bytes := fields is_ifs [] v.

(** case "$lib" in -l?* , 132-134 *)
Definition is_lib (a : bytes) : bool :=
  match a with
  | c :: d :: _ :: _ => Ascii.eqb c DASH && Ascii.eqb d (ascii_of_nat 108)
  | _ => false
  end.

Definition join (pre : bytes) (ws : list bytes) : bytes :=
  fold_left (fun acc w => acc ++ SPACE :: pre ++ w) ws [].

(** Lines 119-154: the words of the new command line. *)
Definition link_finish (e : lenv) (v : lvars) (args : list bytes) : outcome (list bytes) :=
  match args with
  | command :: (a :: r) =>
      if beq a [] then Usage
      else
        let rest := a :: r in
        let appl_libs := join [] (filter is_lib rest) in
        let wrap_args := join (str "-Wl,--wrap=") (words (l_wrap_names e) ++ words (lv_wrap v)) in
        let undef_args := join (str "-Wl,--undefined=__wrap_") (words (lv_undef v)) in
        let mon_args := lv_insert v ++ SPACE :: l_libmonitor e ++ SPACE :: appl_libs ++ [SPACE] in
        Run (words command ++ words wrap_args ++ words undef_args ++ rest ++ words mon_args)
  | _ => Usage
  end.

(** The option loop, 74-117. *)
Fixpoint link_loop (fuel : nat) (e : lenv) (v : lvars) (args : list bytes) : outcome (list bytes) :=
  match fuel with
  | O => Die
  | S fu =>
      match args with
      | [] => link_finish e v args
      | a :: r =>
          let with_arg (k : bytes -> lvars) :=
            match r with
            | f :: r' => if beq f [] then Die else link_loop fu e (k f) r'
            | [] => Die
            end in
          if beq a [] then link_finish e v args
          else if is_opt a "-h" "--help" then Usage
          else if is_opt a "-i" "--insert" then
            with_arg (fun f => mklvars (lv_insert v ++ SPACE :: f) (lv_wrap v) (lv_undef v))
          else if is_opt a "-u" "--undefined" then
            with_arg (fun f => mklvars (lv_insert v) (lv_wrap v) (lv_undef v ++ SPACE :: f))
          else if is_opt a "-v" "--verbose" then link_loop fu e v r
          else if is_opt a "-w" "--wrap" then
            with_arg (fun f => mklvars (lv_insert v) (lv_wrap v ++ SPACE :: f) (lv_undef v))
          else if beq a (str "--") then link_finish e v r
          else match a with
               | c :: _ => if Ascii.eqb c DASH then Die else link_finish e v args
               | [] => link_finish e v args
               end
      end
  end.

Definition monitor_link (e : lenv) (args : list bytes) : outcome (list bytes) :=
  link_loop (S (List.length args)) e (mklvars [] [] []) args.
