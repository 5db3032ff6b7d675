(** Vocabulary for the program-start properties, over histories (oldest first) of
    calls only: nothing here depends on how the library works. *)
From Verif Require Export StartModel.

(** The function the system was told to start is the program's main. *)
Definition started (p : program) : Prop :=
  p_build p = DynamicPPC -> nth_error (p_stinfo p) 1 = Some (p_main p).

Definition is_main (c : call) : bool := match c with Main _ _ _ _ => true | _ => false end.
Definition is_exit (c : call) : bool :=
  match c with RealExit _ | RealUExit _ => true | _ => false end.
Definition is_init_process (c : call) : bool :=
  match c with InitProcess _ _ _ => true | _ => false end.
Definition is_init_library (c : call) : bool := match c with InitLibrary => true | _ => false end.
(** The landmarks of program start. *)
Definition is_landmark (c : call) : bool :=
  match c with StartMainInit | AtMain | Main _ _ _ _ => true | _ => false end.
(** The callbacks of process exit. *)
Definition is_exit_callback (c : call) : bool :=
  match c with BeginExit _ | FiniProcess _ _ | FiniLibrary => true | _ => false end.

Definition calls (h : list event) : list call := map e_call h.
(** How often init_process was called. *)
Definition inits (h : list event) : nat := length (filter is_init_process (calls h)).

(** The client leaves *argc alone. *)
Definition keeps_argc (p : program) : Prop := forall a v, c_argc (p_client p) a v = a.
(** Nothing before main enters the library except its own constructor. *)
Definition no_early_entry (pre mid : list act) : Prop :=
  forall a, In a (pre ++ mid) -> a = DoConstructor.

(** How the process ends, as the system sees it. *)
Definition final_call (fin : ending) : call :=
  match fin with
  | Returns v | CallsExit v => RealExit v
  | CallsUExit v | CallsMonitorExit v => RealUExit v
  end.

(** What the latest init_process returned (NULL if there was none); [h] oldest first. *)
Fixpoint result_of_last_init (p : program) (acc : Z) (h : list call) : Z :=
  match h with
  | [] => acc
  | InitProcess _ _ d :: r => result_of_last_init p (c_data (p_client p) d) r
  | _ :: r => result_of_last_init p acc r
  end.
