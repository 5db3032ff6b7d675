(** The records that libmonitor keeps of threads: which are in use, and the schedules
    on which none is lost. *)
From Verif Require Export LifeRunB.

Local Open Scope Z_scope.

(** A record is in use while a pthread_create that took it has not yet given it to a
    thread, and while a thread that was given it runs: pthread.c 365-439, 942-998,
    1139-1160.  ([holds] is in LifeSpec.) *)
Definition in_use (s : state) (n : Z) : Prop :=
  exists t f, In f (th_stack (s_th s t)) /\ holds n f = true.

(** The records that exist: those of the arrays allocated, pthread.c 377-391.  Only
    the last array may have records that were never handed out. *)
Definition handed_out (g : glob) (n : Z) : Prop :=
  1 <= n <= g_chunk g * TN_ARRAY_SIZE + g_pos g.

(** A record that was handed out, is not in use, and is not on the list from which
    pthread_create takes records: it cannot be used again. *)
Definition lost (s : state) (n : Z) : Prop :=
  handed_out (s_g s) n /\ ~ In n (g_free (s_g s)) /\ ~ in_use s n.

(** Thread t ends by pthread_exit or by cancellation, here. *)
Definition leaves (s : state) (t : Z) (c : choice) : Prop :=
  c = CCancel \/ (c = CStep /\ exists r, th_stack (s_th s t) = FUnwind :: r).

(** The ways to lose a record, excluded one by one: a fork, in the child; the exit of
    the process has begun; the real pthread_create fails; a thread ends by
    pthread_exit or cancellation other than from its start routine (inside a callback
    of its own start or end, or inside pthread_create); a thread ends while it blocks
    the shootdown signal. *)
Definition thrifty (s : state) (t : Z) (c : choice) : Prop :=
  clean_forks s t c /\ c <> CChild /\ g_cookie (s_g s) = false /\
  (forall q my n r, th_stack (s_th s t) = FPCReal q my n :: r -> c <> CFail) /\
  (leaves s t c -> forall f n, In f (th_stack (s_th s t)) -> holds n f = true -> f = FBT BTPop n) /\
  (forall n r, th_stack (s_th s t) = FClean CLChk n :: r -> n_block (nd (s_g s) n) = false).

(** The same, executable, for the examples. *)
Definition parked (f : frame) : bool :=
  match f with
  | FBT BTPop _ => true
  | FPCZero _ _ _ _ | FPCUnlock _ _ _ _ | FPCFill _ _ _ _ | FPCReal _ _ _ | FBT _ _ | FClean _ _ => false
  | FCb _ (KInitThread _) | FCb _ (KFiniCleanup _) => false
  | _ => true
  end.
Definition thrifty_b (s : state) (t : Z) (c : choice) : bool :=
  clean_b s t c && negb (g_cookie (s_g s)) &&
  match c with CChild => false | CCancel => forallb parked (th_stack (s_th s t)) | _ => true end &&
  match th_stack (s_th s t), c with
  | FPCReal _ _ _ :: _, CFail => false
  | FUnwind :: r, CStep => forallb parked r
  | FClean CLChk n :: _, _ => negb (n_block (nd (s_g s) n))
  | _, _ => true
  end.

(** The process does not become a forked child. *)
Definition no_child (s : state) (t : Z) (c : choice) : Prop := c <> CChild.

(** For the examples: pthread_create in thread t up to its return, with the real
    pthread_create failing; the same, for a later call. *)
Definition create1_fail (t st ar d : Z) : list (Z * choice) :=
  [(t, CCall (ACreate st ar 99))] ++ ticks t 7 ++ [(t, CRet 0)] ++ ticks t 1 ++ [(t, CRet d)] ++
  ticks t 9 ++ [(t, CRet 0); (t, CFail)] ++ ticks t 1 ++ [(t, CRet 0)] ++ ticks t 2.
Fixpoint creates (k : nat) : list (Z * choice) :=
  match k with O => [] | S k => creates k ++ create2 MAIN 10 11 5 end.
(** A later pthread_create up to the step that may allocate an array. *)
Definition create_start (t st ar d : Z) : list (Z * choice) :=
  [(t, CCall (ACreate st ar 99))] ++ ticks t 6 ++ [(t, CRet d)] ++ ticks t 3.
