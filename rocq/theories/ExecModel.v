(** Model of the exec side of src/fork.c: environment copy, argument lists, the
    executable test, and the exec overrides.

    Strings are lists of bytes without the terminating NUL.  Arrays are filled from
    index 0 upwards in all these functions, so an array is its capacity and the
    entries stored so far; a store at an index >= capacity is [Overrun]. *)
From Coq Require Import Ascii String.
From Coq Require Export List ZArith Bool Lia.
Export ListNotations.
Open Scope Z_scope.

Definition bytes := list ascii.
Definition str (s : string) : bytes := list_ascii_of_string s.

(** Outcome of code that can go wrong in C. *)
Inductive res (A : Type) :=
| Ok (a : A)
| Overrun        (* store outside an array *)
| BadRead        (* dereference of NULL, or va_arg past the caller's arguments *)
| Fatal.         (* MONITOR_ERROR: message and exit(1) *)
Arguments Ok {A} _. Arguments Overrun {A}. Arguments BadRead {A}. Arguments Fatal {A}.

Definition array (A : Type) := (Z * list A)%type.
Definition store {A} (a : array A) (x : A) : res (array A) :=
  if Z.of_nat (length (snd a)) <? fst a then Ok (fst a, snd a ++ [x]) else Overrun.

(** C string functions. *)
Fixpoint prefix (p l : bytes) : bool :=
  match p, l with
  | [], _ => true
  | a :: p', b :: l' => Ascii.eqb a b && prefix p' l'
  | _, [] => false
  end.
(** strstr(l, p) != NULL *)
Fixpoint contains (p l : bytes) : bool :=
  prefix p l || match l with [] => false | _ :: r => contains p r end.
(** strchr(l, c) != NULL, for c <> 0 *)
Definition has_char (c : ascii) (l : bytes) : bool := existsb (Ascii.eqb c) l.
(** l advanced by strspn(l, c) *)
Fixpoint skip_char (c : ascii) (l : bytes) : bytes :=
  match l with x :: r => if Ascii.eqb x c then skip_char c r else l | [] => [] end.
(** the first strcspn(l, c) bytes, and what follows *)
Fixpoint take_until (c : ascii) (l : bytes) : bytes * bytes :=
  match l with
  | [] => ([], [])
  | x :: r => if Ascii.eqb x c then ([], l)
              else let '(a, b) := take_until c r in (x :: a, b)
  end.

(** * monitor_copy_environ, fork.c 153-199 *)

Definition INIT_ENVIRON_SIZE : Z := 250.   (* fork.c 79 *)
Definition LD_PRELOAD : bytes := str "LD_PRELOAD".

(** An environment entry; pointers and strings are identified (entries are copied as
    pointers, the strings are never modified).  [None] is the NULL entry. *)
Fixpoint copy_env_loop (old : list bytes) (new : array (option bytes)) : res (array (option bytes)) :=
  match old with
  | [] => store new None
  | e :: r =>
      if negb (contains LD_PRELOAD e) then
        match store new (Some e) with
        | Ok new' => copy_env_loop r new'
        | x => x
        end
      else copy_env_loop r new
  end.

(** [pagesize]: sysconf(_SC_PAGESIZE) or 4096; [mmap_ok]: whether mmap succeeds.
    int overflow of the entry count (2^31 variables) is not modelled. *)
Definition copy_environ (pagesize : Z) (mmap_ok : bool) (old : list bytes)
  : res (array (option bytes)) :=
  let n := Z.of_nat (length old) + 2 in
  if n >? INIT_ENVIRON_SIZE then
    let size := ((n * 8 + pagesize - 1) / pagesize) * pagesize in
    if mmap_ok then copy_env_loop old (size / 8, []) else Fatal
  else copy_env_loop old (INIT_ENVIRON_SIZE, []).

(** * monitor_copy_va_args, fork.c 211-241 *)

Definition INIT_ARGV_SIZE : Z := 64.       (* fork.c 78 *)

(** The variable arguments are a list of pointer values, 0 being NULL; reading one
    more than the caller passed is [BadRead].  malloc always succeeds (a failure ends
    in MONITOR_ERROR). *)
Fixpoint copy_va_loop (va : list Z) (size : Z) (argv : array Z) : res (array Z * list Z) :=
  match va with
  | [] => BadRead
  | arg :: r =>
      let '(size', argv') :=
        if Z.of_nat (length (snd argv)) >=? size then (size * 2, (size * 2, snd argv))
        else (size, argv) in
      match store argv' arg with
      | Ok argv2 => if arg =? 0 then Ok (argv2, r) else copy_va_loop r size' argv2
      | Overrun => Overrun | BadRead => BadRead | Fatal => Fatal
      end
  end.

Definition copy_va_args (want_env : bool) (first : Z) (va : list Z) : res (list Z * option Z) :=
  match store (INIT_ARGV_SIZE, []) first with
  | Ok argv =>
      match copy_va_loop va INIT_ARGV_SIZE argv with
      | Ok (argv2, r) =>
          if want_env then
            match r with [] => BadRead | e :: _ => Ok (snd argv2, Some e) end
          else Ok (snd argv2, None)
      | Overrun => Overrun | BadRead => BadRead | Fatal => Fatal
      end
  | Overrun => Overrun | BadRead => BadRead | Fatal => Fatal
  end.

(** * monitor_is_executable, fork.c 254-291 *)

Definition PATH_MAX : Z := 4096.
Definition COLON : ascii := ascii_of_nat 58.
Definition SLASH : ascii := ascii_of_nat 47.

(** The while loop, 273-287.  [access] is access(path, X_OK) == 0.  [fuel] bounds the
    turns; the length of the string is enough (see is_exec_loop_fuel). *)
Fixpoint is_exec_loop (fuel : nat) (access : bytes -> bool) (file path : bytes) : res bool :=
  match fuel with
  | O => Ok false
  | S f =>
      match path with
      | [] => Ok false
      | _ =>
          let '(dir, rest) := take_until COLON path in
          let buf := dir ++ SLASH :: file in
          (* the bytes of buf and the NUL are stored in char buf[PATH_MAX]; the length
             test at 276 only prints *)
          if Z.of_nat (length buf) + 1 >? PATH_MAX then Overrun
          else if access buf then Ok true
          else is_exec_loop f access file (skip_char COLON rest)
      end
  end.

(** [path_env] is getenv("PATH"); [file] = None is NULL. *)
Definition is_executable (access : bytes -> bool) (path_env : option bytes) (file : option bytes)
  : res bool :=
  match file with
  | None => Ok false
  | Some f =>
      if has_char SLASH f then Ok (access f)
      else match path_env with
           | None => BadRead      (* path += strspn(path, ...) with path NULL *)
           | Some p => let p' := skip_char COLON p in
                       is_exec_loop (S (length p')) access f p'
           end
  end.

(** * The exec overrides, fork.c 355-491 *)

Inductive which := Execv | Execvp | Execve.

Inductive event :=
| EExit                                   (* monitor_end_process_fcn(MONITOR_EXIT_EXEC) *)
| EFiniLib                                (* monitor_end_library_fcn() *)
| EReal (w : which) (path : option bytes) (argv envp : Z).
    (* the real exec, with the caller's pointers *)

Record world := mkworld {
  w_access : bytes -> bool;       (* access(path, X_OK) == 0 *)
  w_path : option bytes;          (* getenv("PATH") *)
  w_dynamic : bool }.             (* MONITOR_DYNAMIC: preload build *)

Definition access_opt (w : world) (p : option bytes) : bool :=
  match p with Some b => w_access w b | None => false end.   (* access(NULL): EFAULT *)

(** The common body after is_exec has been computed; [real_ret] is what the real exec
    returns if it fails, None if it succeeds and does not return. *)
Definition do_exec (w : world) (is_exec : bool) (k : which) (path : option bytes)
  (argv envp : Z) (real_ret : option Z) : list event * option Z :=
  ((if is_exec then EExit :: (if w_dynamic w then [EFiniLib] else []) else []) ++
   [EReal k path argv envp], real_ret).

(** monitor_execv, 355-379 *)
Definition monitor_execv (w : world) (path : option bytes) (argv : Z) (real_ret : option Z)
  : res (list event * option Z) :=
  Ok (do_exec w (access_opt w path) Execv path argv 0 real_ret).

(** monitor_execvp, 384-408 *)
Definition monitor_execvp (w : world) (file : option bytes) (argv : Z) (real_ret : option Z)
  : res (list event * option Z) :=
  match is_executable (w_access w) (w_path w) file with
  | Ok b => Ok (do_exec w b Execvp file argv 0 real_ret)
  | Overrun => Overrun | BadRead => BadRead | Fatal => Fatal
  end.

(** monitor_execve, 413-437 *)
Definition monitor_execve (w : world) (path : option bytes) (argv envp : Z) (real_ret : option Z)
  : res (list event * option Z) :=
  Ok (do_exec w (access_opt w path) Execve path argv envp real_ret).

(** monitor_real_execve, 633-647: no callbacks; NULL arguments are refused.  The
    result is the environment handed to the real execve. *)
Definition monitor_real_execve (pagesize : Z) (mmap_ok : bool)
  (path : option bytes) (argv : Z) (envp : option (list bytes))
  : option (res (array (option bytes))) :=
  match path, envp with
  | Some _, Some env => if argv =? 0 then None else Some (copy_environ pagesize mmap_ok env)
  | _, _ => None
  end.
