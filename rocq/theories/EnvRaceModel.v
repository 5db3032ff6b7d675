(** Model of monitor_real_execve (src/fork.c 633-646) called by several threads, with
    monitor_copy_environ (153-199) writing the array that all calls share (110).

    One step per store to the array and one per word the kernel reads from it.  A
    successful exec ends the machine; a failed one returns.  Simplified: the caller's
    environment does not change during the call; mmap does not fail and gives memory of
    its own, filled with zeros; counting the caller's entries is one step with the
    call. *)
From Coq Require Import Ascii String.
From Verif Require Export Base ExecModel.
Import List ListNotations.
Open Scope Z_scope.

(** Where a thread is: [area] 0 is newenv_array, others come from mmap. *)
Inductive pc :=
| Idle
| Copy (area i : Z) (rest : list bytes)       (* 187-194: newenv[n] *)
| Load (area i : Z) (got : list bytes)        (* the kernel reads envp[i] *)
| Ready (got : list bytes).                   (* the kernel has read all of it *)

Inductive event :=
| Call (t : Z) (env : list bytes)       (* monitor_real_execve(path, argv, env) *)
| Exec (t : Z) (got : list bytes)       (* the new program starts with this environment *)
| Fail (t : Z)                          (* the call returns -1 *)
| Bad (t : Z).                          (* access outside the array *)

Record state := mkstate {
  s_mem : Z -> Z -> option bytes;       (* area, index; None is NULL *)
  s_len : Z -> Z;                       (* elements of an area *)
  s_next : Z;                           (* the next mapping *)
  s_pc : Z -> pc;
  s_over : bool;                        (* a new program has replaced this one *)
  s_hist : list event }.                (* newest first *)

(** 110: static, so filled with NULL. *)
Definition start : state :=
  mkstate (fun _ _ => None) (upd (fun _ => 0) 0 INIT_ENVIRON_SIZE) 1 (fun _ => Idle) false [].

(** What an idle thread does, and whether the exec succeeds. *)
Inductive choice := ChCall (env : list bytes) (pagesize : Z) | ChOk | ChFail.

Definition go (s : state) (t : Z) (p : pc) (e : list event) : state :=
  mkstate (s_mem s) (s_len s) (s_next s) (upd (s_pc s) t p) (s_over s) (e ++ s_hist s).

Definition put (s : state) (area i : Z) (v : option bytes) (t : Z) (p : pc) : state :=
  if (0 <=? i) && (i <? s_len s area) then
    mkstate (upd (s_mem s) area (upd (s_mem s area) i v)) (s_len s) (s_next s)
            (upd (s_pc s) t p) (s_over s) (s_hist s)
  else go s t Idle [Bad t].

Definition step (s : state) (t : Z) (c : choice) : state :=
  if s_over s then s
  else match s_pc s t with
  | Idle =>
      match c with
      | ChCall env pagesize =>
          let n := Z.of_nat (length env) + 2 in                          (* 161-163 *)
          if n >? INIT_ENVIRON_SIZE then                                 (* 166-184 *)
            let ps := if 0 <? pagesize then pagesize else 4096 in        (* 157, 169-171 *)
            let size := ((n * 8 + ps - 1) / ps) * ps in
            mkstate (upd (s_mem s) (s_next s) (fun _ => None))
                    (upd (s_len s) (s_next s) (size / 8))
                    (s_next s + 1) (upd (s_pc s) t (Copy (s_next s) 0 env)) (s_over s)
                    (Call t env :: s_hist s)
          else go s t (Copy 0 0 env) [Call t env]                        (* 156 *)
      | _ => s
      end
  | Copy a i [] => put s a i None t (Load a 0 [])                        (* 194 *)
  | Copy a i (e :: r) =>
      if contains LD_PRELOAD e then go s t (Copy a i r) []               (* 189 *)
      else put s a i (Some e) t (Copy a (i + 1) r)                       (* 190-191 *)
  | Load a i got =>
      if (0 <=? i) && (i <? s_len s a) then
        match s_mem s a i with
        | None => go s t (Ready got) []
        | Some e => go s t (Load a (i + 1) (got ++ [e])) []
        end
      else go s t Idle [Bad t]
  | Ready got =>
      match c with
      | ChFail => go s t Idle [Fail t]
      | _ => mkstate (s_mem s) (s_len s) (s_next s) (s_pc s) true (Exec t got :: s_hist s)
      end
  end.

Fixpoint run (s : state) (l : list (Z * choice)) : state :=
  match l with [] => s | (t, c) :: r => run (step s t c) r end.
