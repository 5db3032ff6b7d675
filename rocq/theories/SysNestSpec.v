(** What "nested" means for calls of system() by several threads. *)
From Verif Require Export SysNestModel SystemSpec.

(** Between its sigaction calls a call of system() has SIGINT, or SIGQUIT, set to be
    ignored and has not put it back yet. *)
Definition int_set (l : sysloc) : bool :=
  match l with L2 _ | L3 _ _ | LRun _ _ _ | L4 _ _ _ => true | _ => false end.
Definition quit_set (l : sysloc) : bool :=
  match l with L3 _ _ | LRun _ _ _ | L4 _ _ _ | L5 _ _ => true | _ => false end.

(** The calls are nested: whoever set the signal to be ignored last is the first to put
    it back.  [st]: the threads that have it set, the last one first. *)
Fixpoint nested (o : os) (is_set : sysloc -> bool) (st : list Z) (s : sysall) (sch : list Z) : bool :=
  match sch with
  | [] => true
  | t :: r =>
      let s' := y_step o s t in
      if is_set (y_loc s' t) then
        if is_set (y_loc s t) then nested o is_set st s' r else nested o is_set (t :: st) s' r
      else if is_set (y_loc s t) then
        match st with
        | u :: st' => (u =? t) && nested o is_set st' s' r
        | [] => false
        end
      else nested o is_set st s' r
  end.

(** A state in which no thread is inside system(). *)
Definition idle (s : sysall) : Prop := forall t, y_loc s t = L1 \/ y_loc s t = LDone.

(** No cancellation reaches a thread while it waits for its command. *)
Fixpoint unhurt (o : os) (s : sysall) (l : list sitem) : bool :=
  match l with
  | [] => true
  | i :: r =>
      match i with
      | Cancel t => match y_loc s t with LRun _ _ _ => false | _ => true end
      | Go _ => true
      end && unhurt o (x_step o s i) r
  end.
Definition steps_of (l : list sitem) : list Z :=
  flat_map (fun i => match i with Go t => [t] | Cancel _ => [] end) l.
