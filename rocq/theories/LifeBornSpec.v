(** Vocabulary for "a created thread runs". *)
From Verif Require Export LifeSpec.

Local Open Scope Z_scope.

(** Thread u, created by pthread_create, is in the library's code in front of its start
    routine: in monitor_begin_thread before line 990, in its init_thread, or, if it is an
    ignored thread, about to enter the routine. *)
Definition in_start (s : state) (u : Z) : Prop :=
  g_dead (s_g s) = false /\ th_live (s_th s u) = true /\
  ((exists p n, th_stack (s_th s u) = [FBT p n; FApp AppTsd] /\ p <> BTPop /\ p <> BTRefuse) \/
   (exists c n, th_stack (s_th s u) = [FCb c (KInitThread n); FApp AppTsd]) \/
   (exists x y r, th_stack (s_th s u) = FRun x y :: r)).

(** It still has to be entered in the thread list. *)
Definition unlisted (s : state) (u : Z) : Prop :=
  exists p n r, th_stack (s_th s u) = FBT p n :: r /\ (p = BTSelf \/ p = BTTsd \/ p = BTLock \/ p = BTChk).

(** Nothing forbids it: process exit has not frozen the list, and the lock is free or the
    thread has it. *)
Definition may_start (s : state) (u : Z) : Prop :=
  g_inexit (s_g s) = false /\ (g_lock (s_g s) = None \/ exists n r, th_stack (s_th s u) = FBT BTChk n :: r).

(** Moves of u on its own; init_thread returns v. *)
Definition by_itself (v : Z) (c : choice) : Prop := c = CStep \/ c = CRet v.

(** The start routine of u has returned, or the library's cleanup code after it runs. *)
Definition ending (s : state) (u : Z) : Prop :=
  g_dead (s_g s) = false /\ th_live (s_th s u) = true /\
  ((exists n, th_stack (s_th s u) = [FBT BTPop n; FApp AppTsd]) \/
   (exists p n, th_stack (s_th s u) = [FClean p n; FApp AppTsd]) \/
   (exists c n, th_stack (s_th s u) = [FCb c (KFiniCleanup n); FApp AppTsd]) \/
   th_stack (s_th s u) = [FApp AppTsd] \/ th_stack (s_th s u) = []).

(** The lock is free, or u is in the region that holds it. *)
Definition lock_ok (s : state) (u : Z) : Prop :=
  g_lock (s_g s) = None \/ exists f r, th_stack (s_th s u) = f :: r /\ locked f = true.
