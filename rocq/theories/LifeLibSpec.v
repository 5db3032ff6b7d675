(** Vocabulary for the end of the library: C31. *)
From Verif Require Export LifeExitSpec.

(** The thread is in monitor_end_library_fcn (main.c 240-249), past the test of the
    called flag and before setting it. *)
Definition in_end_library (f : frame) : bool :=
  match f with
  | FFiniLib | FEndLibSet => true
  | FCb _ KFiniLibrary => true
  | _ => false
  end.

(** The thread is in monitor_begin_process_fcn (main.c 255-285), on the way to
    clearing that flag. *)
Definition in_begin_process (f : frame) : bool :=
  match f with
  | FBPReset _ | FBPLib _ | FBPCas _ true => true
  | _ => false
  end.

(** Two runs of monitor_end_library_fcn do not overlap. *)
Definition ends_apart (s : state) (t : Z) (c : choice) : Prop :=
  forall r u, th_stack (s_th s t) = FEndLib :: r -> c = CStep ->
  existsb in_end_library (th_stack (s_th s u)) = false.

(** fini_library returns: no pthread_exit in it and no cancellation. *)
Definition ends_finish (s : state) (t : Z) (c : choice) : Prop :=
  existsb in_end_library (th_stack (s_th s t)) = true ->
  c <> CCancel /\ (forall r, th_stack (s_th s t) = FUnwind :: r -> c <> CStep).

(** Exit begins only in an initialised process: monitor_begin_process_fcn has been
    called and nobody is in it. *)
Definition init_before_exit (s : state) (t : Z) (c : choice) : Prop :=
  forall how tn r u, th_stack (s_th s t) = FEPCas how tn :: r -> c = CStep -> g_cookie (s_g s) = false ->
  g_initp (s_g s) = true /\ existsb in_begin_process (th_stack (s_th s u)) = false.

Definition library_ends (s : state) (t : Z) (c : choice) : Prop :=
  orderly s t c /\ ends_apart s t c /\ ends_finish s t c /\ init_before_exit s t c.
