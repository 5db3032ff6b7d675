(** Model of src/common.c (monitor_dlsym) and src/dlopen.c.

    The dynamic loader is described by the list of loaded objects in
    dl_iterate_phdr order, what each object defines, which objects a lookup through
    an object's handle searches (the object and its dependencies, breadth first), and
    the objects after libmonitor in the global search order (RTLD_NEXT).  Symbols and
    addresses are numbers; no definition is at address 0.  dladdr on libmonitor's own
    function succeeds.  Not modelled: MONITOR_DEBUG output, reference counts. *)
From Coq Require Export List ZArith Bool Lia.
Export ListNotations.
Open Scope Z_scope.

Record object := mkobject {
  o_id : Z;
  o_base : Z;             (* info->dlpi_addr *)
  o_opens : bool;         (* dlopen(name, RTLD_LAZY|RTLD_NOLOAD|RTLD_LOCAL) != NULL *)
  o_scope : list Z }.     (* objects searched by dlsym(handle, .), in order *)

Record loader := mkloader {
  ld_objects : list object;          (* dl_iterate_phdr order *)
  ld_defs : Z -> Z -> option Z;      (* object, symbol: address *)
  ld_next : list Z;                  (* objects searched by dlsym(RTLD_NEXT, .) *)
  ld_self_base : Z }.                (* dli_fbase of libmonitor *)

(** dlsym over a search list: (defining object, address). *)
Fixpoint search (defs : Z -> Z -> option Z) (scope : list Z) (sym : Z) : option (Z * Z) :=
  match scope with
  | [] => None
  | i :: r => match defs i sym with Some a => Some (i, a) | None => search defs r sym end
  end.

(** phdr_callback, common.c 52-76: None is the return value 0 (go on), with the new
    value of data->skip; Some is 1 (stop). *)
Definition phdr_callback (l : loader) (sym : Z) (skip : bool) (ob : object)
  : bool * option (Z * Z) :=
  if skip then (negb (ld_self_base l =? o_base ob), None)
  else if negb (o_opens ob) then (false, None)
  else (false, search (ld_defs l) (o_scope ob) sym).

(** dl_iterate_phdr: call for each object until one call returns non-zero. *)
Fixpoint iterate (l : loader) (sym : Z) (skip : bool) (objs : list object) : option (Z * Z) :=
  match objs with
  | [] => None
  | ob :: r => match phdr_callback l sym skip ob with
               | (_, Some x) => Some x
               | (skip', None) => iterate l sym skip' r
               end
  end.

(** monitor_dlsym, common.c 78-113.  The result also names the defining object;
    [None] is MONITOR_ERROR (the process ends). *)
Definition monitor_dlsym (l : loader) (sym : Z) : option (Z * Z) :=
  match search (ld_defs l) (ld_next l) sym with
  | Some x => Some x                                        (* dlerror() == NULL *)
  | None => iterate l sym true (ld_objects l)
  end.

(** * dlopen.c *)

Inductive dlev :=
| DPreOpen (path flags : Z)             (* monitor_pre_dlopen *)
| DRealOpen (path flags : Z)
| DPostOpen (path flags handle : Z)     (* monitor_dlopen *)
| DPreClose (handle : Z)                (* monitor_dlclose *)
| DRealClose (handle : Z)
| DPostClose (handle ret : Z).          (* monitor_post_dlclose *)

(** The real loader: any state, any effect, any result. *)
Record real_dl (W : Type) := mkreal {
  r_open : W -> Z -> Z -> W * Z;
  r_close : W -> Z -> W * Z }.
Arguments r_open {W} _ _ _ _. Arguments r_close {W} _ _ _. Arguments mkreal {W} _ _.

(** dlopen(), 117-130 *)
Definition dlopen {W} (r : real_dl W) (w : W) (path flags : Z) : list dlev * W * Z :=
  let '(w', handle) := r_open r w path flags in
  ([DPreOpen path flags; DRealOpen path flags; DPostOpen path flags handle], w', handle).

(** dlclose(), 132-146 *)
Definition dlclose {W} (r : real_dl W) (w : W) (handle : Z) : list dlev * W * Z :=
  let '(w', ret) := r_close r w handle in
  ([DPreClose handle; DRealClose handle; DPostClose handle ret], w', ret).

(** monitor_real_dlopen, monitor_real_dlclose, 101-113 *)
Definition monitor_real_dlopen {W} (r : real_dl W) (w : W) (path flags : Z) : list dlev * W * Z :=
  let '(w', handle) := r_open r w path flags in ([DRealOpen path flags], w', handle).
Definition monitor_real_dlclose {W} (r : real_dl W) (w : W) (handle : Z) : list dlev * W * Z :=
  let '(w', ret) := r_close r w handle in ([DRealClose handle], w', ret).

(** A history of calls by the application ([true]) and the client ([false]). *)
Inductive dlcall := COpen (appl : bool) (path flags : Z) | CClose (appl : bool) (handle : Z).

Definition dl_call {W} (r : real_dl W) (w : W) (c : dlcall) : list dlev * W * Z :=
  match c with
  | COpen true p f => dlopen r w p f
  | COpen false p f => monitor_real_dlopen r w p f
  | CClose true h => dlclose r w h
  | CClose false h => monitor_real_dlclose r w h
  end.
Fixpoint dl_calls {W} (r : real_dl W) (w : W) (cs : list dlcall) : list dlev * W * list Z :=
  match cs with
  | [] => ([], w, [])
  | c :: rest => let '(t, w1, x) := dl_call r w c in
                 let '(t2, w2, xs) := dl_calls r w1 rest in (t ++ t2, w2, x :: xs)
  end.

(** * The lookup with its own dlopen and dlclose calls made visible

    In the preload build the names dlopen and dlclose used by phdr_callback
    (common.c 64, 74) are libmonitor's own overrides.  [path_of]: the pointer to the
    object's name; [flags]: RTLD_LAZY|RTLD_NOLOAD|RTLD_LOCAL; the handle of object i
    is [handle_of i].  The override's one-time setup (real dlopen and dlclose found by
    RTLD_NEXT) is taken to have been done. *)
Definition NOLOAD_FLAGS : Z := 5.   (* RTLD_LAZY 1, RTLD_NOLOAD 4, RTLD_LOCAL 0 *)
Fixpoint iterate_ev (preload : bool) (path_of handle_of : Z -> Z)
  (l : loader) (sym : Z) (skip : bool) (objs : list object) : list dlev * option (Z * Z) :=
  match objs with
  | [] => ([], None)
  | ob :: r =>
      if skip then iterate_ev preload path_of handle_of l sym (negb (ld_self_base l =? o_base ob)) r
      else
        let h := if o_opens ob then handle_of (o_id ob) else 0 in
        let eo := if preload then fst (fst (dlopen (mkreal (fun w _ _ => (w, h)) (fun w _ => (w, 0))) tt (path_of (o_id ob)) NOLOAD_FLAGS))
                  else [DRealOpen (path_of (o_id ob)) NOLOAD_FLAGS] in
        if negb (o_opens ob) then
          let '(t, x) := iterate_ev preload path_of handle_of l sym false r in (eo ++ t, x)
        else
          let ec := if preload then fst (fst (dlclose (mkreal (fun w _ _ => (w, h)) (fun w _ => (w, 0))) tt h)) else [DRealClose h] in
          match search (ld_defs l) (o_scope ob) sym with
          | Some x => (eo ++ ec, Some x)
          | None => let '(t, x) := iterate_ev preload path_of handle_of l sym false r in
                    (eo ++ ec ++ t, x)
          end
  end.

(** * Looking up the real dlopen itself

    monitor_dlopen_init (dlopen.c 82-92) calls monitor_dlsym("dlopen"); if that takes
    the fallback, phdr_callback calls the override dlopen, whose init_done is still 0,
    and so calls monitor_dlsym("dlopen") again.  [None]: the recursion is deeper than
    [fuel].  The answer is the real dlopen. *)
Fixpoint dlopen_init (fuel : nat) (l : loader) (sym_dlopen : Z) : option (option (Z * Z)) :=
  match fuel with
  | O => None
  | S f =>
      match search (ld_defs l) (ld_next l) sym_dlopen with
      | Some x => Some (Some x)
      | None =>
          (* the first object scanned after libmonitor makes the override run *)
          let fix scan (skip : bool) (objs : list object) : option (option (Z * Z)) :=
            match objs with
            | [] => Some None
            | ob :: r => if skip then scan (negb (ld_self_base l =? o_base ob)) r
                         else match dlopen_init f l sym_dlopen with
                              | None => None
                              | Some _ => Some (iterate l sym_dlopen false (ob :: r))
                              end
            end in
          scan true (ld_objects l)
      end
  end.
