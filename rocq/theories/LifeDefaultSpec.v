(** Vocabulary for "a callback that the client does not define does nothing".
    callback.c gives a weak default for every callback; the linker takes it when the
    client has no definition of its own. *)
From Verif Require Export LifeSpec.

Local Open Scope Z_scope.

(** What the default definition returns, callback.c 18-123: init_process (43-60) and
    init_thread (105-110) return their data argument, pre_fork (30-35) and
    thread_pre_create (86-91) return NULL, and the others return nothing, which the
    machine records as 0 (reset_stacksize, 118-123, returns its argument: the machine
    has no stack sizes, the attribute model has).  The debug messages are not
    modelled. *)
Definition default_ret (c : cb) : Z :=
  match c with
  | CbInitProcess d => d
  | CbInitThread _ d => d
  | _ => 0
  end.

(** The client leaves the callbacks in [f] undefined: their returns are the defaults.
    (Signal handlers of the application may still interrupt them.) *)
Definition undefined (f : cb -> bool) (s : state) (t : Z) (c : choice) : Prop :=
  forall x k r v, th_stack (s_th s t) = FCb x k :: r -> c = CRet v ->
    f x = true -> v = default_ret x.

Definition every (c : cb) : bool := true.
Definition only_init_thread (c : cb) : bool := match c with CbInitThread _ _ => true | _ => false end.
Definition only_init_process (c : cb) : bool := match c with CbInitProcess _ => true | _ => false end.
Definition only_pre_create (c : cb) : bool := match c with CbPreCreate _ => true | _ => false end.

(** The client data that an event shows. *)
Definition cb_data (c : cb) : option Z :=
  match c with
  | CbInitProcess d | CbFiniProcess _ d | CbPostCreate _ d
  | CbInitThread _ d | CbFiniThread d | CbPostFork d => Some d
  | _ => None
  end.
Definition data_of (e : event) : option Z :=
  match e with
  | ECall _ c => cb_data c
  | EQuery _ QData r => Some r
  | _ => None
  end.
