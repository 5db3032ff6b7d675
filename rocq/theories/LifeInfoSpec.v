(** Vocabulary for monitor_get_new_thread_info. *)
From Verif Require Export LifeExitSpec.

Local Open Scope Z_scope.

(** The frames of a call of pthread_create. *)
Definition in_create (f : frame) : bool := match f with FPCInit _ => true | _ => creating f end.

(** No thread calls pthread_create inside pthread_create (from a callback). *)
Definition flat (s : state) (t : Z) (c : choice) : Prop :=
  (exists st ar ra, c = CCall (ACreate st ar ra)) -> existsb in_create (th_stack (s_th s t)) = false.

(** No thread leaves pthread_create by cancellation or pthread_exit. *)
Definition returns (s : state) (t : Z) (c : choice) : Prop :=
  (c = CCancel \/ exists r, th_stack (s_th s t) = FUnwind :: r) -> existsb in_create (th_stack (s_th s t)) = false.

(** No call is for a thread to be ignored: pre_create does not return the ignore value,
    and a registered thread makes no call while new threads are disabled. *)
Definition heeded (s : state) (t : Z) (c : choice) : Prop :=
  match th_stack (s_th s t) with
  | FPCGot _ _ d :: _ => d <> IGNORE_NEW_THREAD
  | FPCIgn _ (Some n) :: _ => n_ignore (nd (s_g s) n) = false
  | _ => True
  end.

Definition tidy (s : state) (t : Z) (c : choice) : Prop :=
  orderly s t c /\ flat s t c /\ returns s t c /\ heeded s t c.

(** Thread t has called pthread_create for q and the call has not returned. *)
Definition in_call (t : Z) (q : creq) (tr : list event) : Prop :=
  In (ECreateCall t q) tr /\ ~ In (ECreateRet t q) tr.

(** Thread t is between the start of the thread_pre_create callback of call q and the
    end of its thread_post_create callback. *)
Definition in_hooks (t : Z) (q : creq) (tr : list event) : Prop :=
  In (ECreateCall t q) tr /\ In (ECall t (CbPreCreate (q_id q))) tr /\
  ~ exists x v, In (ERet t (CbPostCreate (q_id q) x) v) tr.
