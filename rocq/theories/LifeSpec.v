(** Vocabulary for the life-cycle properties: histories of observable events
    (newest first) and which schedules are considered. *)
From Verif Require Export LifeModel.

(** ** Executions *)

(** States reached by schedules every step of which satisfies [ok]. *)
Inductive reach (dyn : bool) (ok : state -> Z -> choice -> Prop) : state -> Prop :=
| reach_init : reach dyn ok init
| reach_step : forall s t c s',
    reach dyn ok s -> ok s t c -> step dyn s t c = Some s' -> reach dyn ok s'.

(** Every schedule. *)
Definition any (_ : state) (_ : Z) (_ : choice) : Prop := True.

(** ** Histories *)

(** The history of the current process image: what happened since it was forked,
    or since the start. *)
Fixpoint image (tr : list event) : list event :=
  match tr with
  | [] => []
  | EFork _ :: _ => []
  | e :: r => e :: image r
  end.

(** How many events satisfy [p]. *)
Fixpoint count (p : event -> bool) (tr : list event) : nat :=
  match tr with
  | [] => 0
  | e :: r => if p e then S (count p r) else count p r
  end.

Definition is_init_library (e : event) : bool :=
  match e with ECall _ CbInitLibrary => true | _ => false end.
Definition is_init_process (e : event) : bool :=
  match e with ECall _ (CbInitProcess _) => true | _ => false end.
Definition is_begin_exit (e : event) : bool :=
  match e with ECall _ (CbBeginExit _) => true | _ => false end.
Definition is_fini_process (e : event) : bool :=
  match e with ECall _ (CbFiniProcess _ _) => true | _ => false end.
Definition is_fini_library (e : event) : bool :=
  match e with ECall _ CbFiniLibrary => true | _ => false end.

(** A fork() whose child starts from a process that has entered init_process and
    that is not made from inside it: init_process has begun, and the forking thread
    is not itself between entering the library for the first time and issuing it. *)
Definition starting (f : frame) : bool :=
  match f with
  | FBPReset _ | FBPLib _ | FBPDone _ | FBPInit _ | FBPCas _ true => true
  | _ => false
  end.
Definition settled_forks (s : state) (t : Z) (c : choice) : Prop :=
  c = CChild ->
  g_initp (s_g s) = true /\ existsb starting (th_stack (s_th s t)) = false.

(** Every child followed is one of fork() or vfork(), not of monitor_real_fork(),
    which makes no callbacks. *)
Definition app_forks (s : state) (t : Z) (c : choice) : Prop :=
  c = CChild -> exists d r, th_stack (s_th s t) = FForkGo d :: r.

(** ** Schedules for the examples *)

Definition ticks (t : Z) (k : nat) : list (Z * choice) := repeat (t, CStep) k.

(** The main thread up to the first line of main(); init_process returned 7. *)
Definition to_main : list (Z * choice) :=
  [(MAIN, CRet 0); (MAIN, CStep); (MAIN, CRet 0); (MAIN, CRet 0)] ++ ticks MAIN 5 ++
  [(MAIN, CRet 0); (MAIN, CStep); (MAIN, CRet 7)] ++ ticks MAIN 2 ++ [(MAIN, CRet 0)].

(** Thread t calls exit() and wins; the callbacks return; it is in the real exit.
    Single-threaded process. *)
Definition exit1 (t : Z) : list (Z * choice) :=
  [(t, CCall AExit)] ++ ticks t 4 ++ [(t, CRet 0)] ++ ticks t 2 ++ [(t, CRet 0)] ++ ticks t 2.

(** Observations on the result of a schedule. *)
Definition result {A} (dyn : bool) (l : list (Z * choice)) (f : state -> A) : option A :=
  option_map f (run dyn init l).

(** ** Vocabulary on numbers *)

Definition is_reg (e : event) : bool := match e with EReg _ _ => true | _ => false end.

(** The thread numbers handed out, oldest first. *)
Fixpoint numbers (tr : list event) : list Z :=
  match tr with
  | [] => []
  | EReg _ k :: r => numbers r ++ [k]
  | _ :: r => numbers r
  end.

(** ** Clean forks *)

(** The forking thread is inside pthread_create, past its first step. *)
Definition creating (f : frame) : bool :=
  match f with
  | FPCInfo _ | FPCIgn _ _ | FPCSup _ _ | FPCSupSet _ _ | FPCPre _ _ | FPCGot _ _ _
  | FPCReal0 _ | FPCLock _ _ _ | FPCPick _ _ _ | FPCTake _ _ _ _ | FPCArray _ _ _
  | FPCInc _ _ _ _ | FPCZero _ _ _ _ | FPCUnlock _ _ _ _ | FPCFill _ _ _ _ | FPCReal _ _ _
  | FPCPost _ _ _ | FPCEnd _ _ | FPCRet _ => true
  | FCb _ (KPreCreate _ _) => true
  | _ => false
  end.

(** The child has not yet reset the thread list. *)
Definition resetting (f : frame) : bool :=
  match f with FBPCas _ true | FBPReset _ | FRFReset => true | _ => false end.

(** Children are followed only of forks that the main thread makes outside
    pthread_create, and they run undisturbed to the reset of the thread list. *)
Definition clean_forks (s : state) (t : Z) (c : choice) : Prop :=
  (c = CChild -> t = MAIN /\ existsb creating (th_stack (s_th s t)) = false) /\
  (existsb resetting (th_stack (s_th s t)) = true -> c = CStep).

(** ** Vocabulary on threads *)

(** Thread t is given a number; init_thread, fini_thread and the start routine in
    thread t; the creation of thread u. *)
Definition reg_of (t : Z) (e : event) : bool :=
  match e with EReg t' _ => t' =? t | _ => false end.
Definition init_thread_of (t : Z) (e : event) : bool :=
  match e with ECall t' (CbInitThread _ _) => t' =? t | _ => false end.
Definition fini_thread_of (t : Z) (e : event) : bool :=
  match e with ECall t' (CbFiniThread _) => t' =? t | _ => false end.
Definition start_of (t : Z) (e : event) : bool :=
  match e with EStart t' _ _ => t' =? t | _ => false end.
Definition create_of (u : Z) (e : event) : bool :=
  match e with ECreate _ _ u' _ => u' =? u | _ => false end.

(** ** Vocabulary on nodes *)

(** Frames that hold thread node n: from make_thread_node to the end of
    monitor_unlink_thread_node. *)
Definition holds (n : Z) (f : frame) : bool :=
  match f with
  | FPCZero _ _ _ m | FPCUnlock _ _ _ m | FPCFill _ _ _ m | FPCReal _ _ m => Z.eqb n m
  | FBT _ m => Z.eqb n m
  | FClean p m => match p with CLUnlock => false | _ => Z.eqb n m end
  | FCb _ (KInitThread m) | FCb _ (KFiniCleanup m) => Z.eqb n m
  | _ => false
  end.

(** ** More schedules for the examples *)

(** The first pthread_create of the process, monitored; pre_create returns d. *)
Definition create1 (t st ar d : Z) : list (Z * choice) :=
  [(t, CCall (ACreate st ar 99))] ++ ticks t 7 ++ [(t, CRet 0)] ++ ticks t 1 ++ [(t, CRet d)] ++
  ticks t 9 ++ [(t, CRet 0); (t, COk)] ++ ticks t 1 ++ [(t, CRet 0)] ++ ticks t 2.

(** A later one, with a node taken from the array; then one taken from the free list. *)
Definition create2 (t st ar d : Z) : list (Z * choice) :=
  [(t, CCall (ACreate st ar 99))] ++ ticks t 6 ++ [(t, CRet d)] ++
  ticks t 9 ++ [(t, CRet 0); (t, COk)] ++ ticks t 1 ++ [(t, CRet 0)] ++ ticks t 2.
Definition create3 (t st ar d : Z) : list (Z * choice) :=
  [(t, CCall (ACreate st ar 99))] ++ ticks t 6 ++ [(t, CRet d)] ++
  ticks t 8 ++ [(t, CRet 0); (t, COk)] ++ ticks t 1 ++ [(t, CRet 0)] ++ ticks t 2.

(** One for which pre_create returns -1. *)
Definition create_ign (t st ar : Z) : list (Z * choice) :=
  [(t, CCall (ACreate st ar 99))] ++ ticks t 6 ++ [(t, CRet (-1))] ++ ticks t 1 ++ [(t, COk)] ++ ticks t 1.

(** The new thread registers, and init_thread returns v; it enters its start routine. *)
Definition register (u : Z) : list (Z * choice) := ticks u 9.
Definition enter (u v : Z) : list (Z * choice) := register u ++ [(u, CRet v)] ++ ticks u 4.

(** The start routine returns, fini_thread runs, the node is freed. *)
Definition leave (u : Z) : list (Z * choice) :=
  [(u, CRet 0)] ++ ticks u 5 ++ [(u, CRet 0)] ++ ticks u 7.

(** fork() in thread t, pre_fork returning d; the child up to init_process, which
    returns v, and back in the application. *)
Definition fork_child (t d v : Z) : list (Z * choice) :=
  [(t, CCall AFork); (t, CStep); (t, CRet d); (t, CChild)] ++ ticks t 6 ++ [(t, CRet v)] ++ ticks t 2.

Definition ask (t : Z) (q : query) : list (Z * choice) := [(t, CCall (AQuery q)); (t, CStep)].
