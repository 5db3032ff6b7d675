(** Ends of the process that the library does not override.

    The library replaces exit, _exit and _Exit by name (main.c 590-637).  The C library's
    err, errx and error end the process by a call of exit inside the C library, which does
    not pass through the replacement, and so does the library's own MONITOR_ERROR
    (common.h 108-113: errx).  quick_exit ends it by _exit inside the C library.  The C
    library's side is taken from its manual: exit runs the atexit handlers and the
    destructors, among them main.c 651-656; quick_exit runs neither.  Simplification:
    the messages, and the handlers of at_quick_exit. *)
From Verif Require Export LifeModel.

Local Open Scope Z_scope.

(** How it is ended. *)
Inductive way := ByExit | ByQuick.

(** Application and client code may call err or quick_exit.  The places of MONITOR_ERROR in
    the functions of LifeModel.v: pthread_create's first call (pthread.c 298-313: no key,
    or the value cannot be set), malloc of new records (pthread.c 384-389), the new
    thread's key (pthread.c 972-974), the shootdown handler (pthread.c 544-546). *)
Definition may_end (g : glob) (f : frame) (w : way) : bool :=
  match f, w with
  | FApp _, _ | FCb _ _, _ => true
  | FPCInit _, ByExit => negb (g_used g)
  | FPCArray _ _ _, ByExit => TN_ARRAY_SIZE <=? g_pos g
  | FBT BTTsd _, ByExit => true
  | FSInstall _, ByExit => true
  | _, _ => false
  end.

(** The thread goes into the C library and does not come back. *)
Definition end_inside (s : state) (t : Z) (w : way) : option state :=
  let x := s_th s t in
  if g_dead (s_g s) || negb (th_live x) then None else
  match th_stack x with
  | f :: _ =>
      if may_end (s_g s) f w
      then Some (set_th s t (with_stack x (match w with ByExit => FRealExit | ByQuick => FUExit end :: th_stack x)))
      else None
  | [] => None
  end.

(** A schedule: steps as before, or an end inside the C library. *)
Inductive xitem := XStep (t : Z) (c : choice) | XEnd (t : Z) (w : way).
Fixpoint xrun (dyn : bool) (s : state) (l : list xitem) : option state :=
  match l with
  | [] => Some s
  | i :: r =>
      match (match i with XStep t c => step dyn s t c | XEnd t w => end_inside s t w end) with
      | Some s' => xrun dyn s' r
      | None => None
      end
  end.
Definition xs (l : list (Z * choice)) : list xitem := map (fun p => XStep (fst p) (snd p)) l.
