(** What a caller of an override expects of errno and dlerror(). *)
From Verif Require Import ErrnoModel.
From Coq Require Import ZArith List Bool.
Open Scope Z_scope.

(** The caller sees what the real call [(r, x)] gave: its result and, if it
    failed, its errno. *)
Definition as_direct (a : Z * Z) (got : Z * world) : Prop :=
  fst got = fst a /\ (fst a < 0 -> w_errno (snd got) = snd a).

(** Outside code of kind [k] leaves errno and the dlerror() message alone. *)
Definition keeps (e : env) (k : kind) : Prop := forall n xd, out e n k xd = xd.

(** No debug output, or output that leaves errno alone. *)
Definition quiet (e : env) : Prop := e_debug e = false \/ keeps e KPrint.

(** The two places are as they were. *)
Definition untouched (w w' : world) : Prop := w_errno w' = w_errno w /\ w_dl w' = w_dl w.

(** A turn of a wait after which the thread waits again: interrupted, or a
    signal that is not for the application. *)
Definition waits_again (t : turn) : Prop :=
  (fst (t_ans t) < 0 /\ snd (t_ans t) = EINTR) \/ (0 <= fst (t_ans t) /\ t_taken t = true).
Definition gives_up (t : turn) : Prop :=
  (fst (t_ans t) < 0 /\ snd (t_ans t) <> EINTR) \/ (0 <= fst (t_ans t) /\ t_taken t = false).

(** [t] is the last turn of the wait. *)
Definition last_turn (ts : list turn) (t : turn) : Prop :=
  exists before after, ts = before ++ t :: after /\ Forall waits_again before /\ gives_up t.

(** The same for the interruptible wait for a child. *)
Definition last_answer (answers : list (Z * Z)) (a : Z * Z) : Prop :=
  exists before after, answers = before ++ a :: after
    /\ Forall (fun b => fst b < 0 /\ snd b = EINTR) before
    /\ ~ (fst a < 0 /\ snd a = EINTR).
