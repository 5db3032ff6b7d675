(** C58-C60: program start and end, for every program, every order of library
    entries before and after main, every client init_process and every build. *)
From Verif Require Import StartSpec StartProofs StartLemmas.

(** ** Concrete programs *)
(** A client that drops the first argument: *argc is decremented and slot 1 rewritten. *)
Definition eater : client := mkclient (fun a _ => a - 1) (fun m i => if i =? 1 then 77 else m i) (fun d => d + 500).
Definition quiet_client : client := mkclient (fun a _ => a) (fun m => m) (fun d => d + 500).
Definition prog (b : build) (c : client) : program :=
  mkprogram b c 4096 3 8000 9000 (fun i => 100 + i) [1; 4096; 2; 3].

Lemma prog_started b c : started (prog b c).
Proof. intros _. reflexivity. Qed.

(** ** C58 *)

(** main is called once, at its address, with the count, vector and environment the
    system started the program with, and what the vector points to is changed only by
    the client's own stores, once per init_process. *)
Theorem C58_main :
  forall (p : program) (pre mid body : list act) (fin : ending)
    (H_started : started p),
    exists h1 ev h2, history p pre mid body fin = h1 ++ ev :: h2 /\
      e_call ev = Main (p_main p) (p_argc p) (p_argv p) (p_envp p) /\
      (forall x, In x (h1 ++ h2) -> is_main (e_call x) = false) /\
      (forall i, e_mem ev i = Nat.iter (inits h1) (c_mem (p_client p)) (p_mem p) i).
Proof. exact main_lemma. Qed.

(** The process ends once, in the way and with the status the application chose. *)
Theorem C58_status :
  forall (p : program) (pre mid body : list act) (fin : ending)
    (H_started : started p),
    filter is_exit (calls (history p pre mid body fin)) = [final_call fin].
Proof. exact status_lemma. Qed.

(** The exit callbacks run once, and fini_process gets what the latest init_process
    returned; monitor_real_exit runs none. *)
Theorem C58_exit_callbacks :
  forall (p : program) (pre mid body : list act) (fin : ending)
    (H_started : started p),
    filter is_exit_callback (calls (history p pre mid body fin)) =
      match fin with
      | CallsMonitorExit _ => []
      | _ => [BeginExit EXIT_NORMAL;
              FiniProcess EXIT_NORMAL (result_of_last_init p 0 (calls (history p pre mid body fin)))] ++
             (if is_static (p_build p) then [] else [FiniLibrary])
      end.
Proof. exact exit_callbacks_lemma. Qed.

(** The system's start function gets the caller's count and vector, and on Powerpc the
    same start information except for the slot of main. *)
Theorem C58_start_info :
  forall (p : program) (pre mid body : list act) (fin : ending)
    (H_started : started p)
    fn a v st (H_called : In (RealStartMain fn a v st) (calls (history p pre mid body fin))),
      a = p_argc p /\ v = p_argv p /\
      (p_build p = DynamicPPC -> length st = length (p_stinfo p) /\
         forall i, i <> 1%nat -> nth_error st i = nth_error (p_stinfo p) i).
Proof. intros p pre mid body fin. exact (start_info_lemma p pre mid body fin). Qed.

(** A static program that wraps main itself gets the same vector and environment, and
    the same count if the client leaves *argc alone. *)
Theorem C58_wrap_partial :
  forall (p : program) (pre mid body : list act) (fin : ending)
    (H_started : started p) (H_static : p_build p = Static),
    exists a, filter (fun c => match c with WrapMain _ _ _ => true | _ => false end)
                (calls (history p pre mid body fin)) = [WrapMain a (p_argv p) (p_envp p)] /\
      (keeps_argc p -> a = p_argc p).
Proof. exact wrap_lemma. Qed.

(** Otherwise the two differ: main gets 3 arguments, the wrapper 2. *)
Theorem C58_wrap_refuted :
  exists p, started p /\ p_build p = Static /\
    In (WrapMain 2 8000 9000) (calls (history p [] [] [] (Returns 0))) /\
    In (Main 4096 3 8000 9000) (calls (history p [] [] [] (Returns 0))).
Proof.
  exists (prog Static eater). split; [apply prog_started|split; [reflexivity|]]. vm_compute. auto 20.
Qed.

(** A fork child of a program whose early constructor made a thread. *)
Example C58_case :
  calls (history (prog Dynamic eater) [DoBegin; DoConstructor] [] [DoForkChild 7] (CallsUExit 3)) =
    [InitLibrary; InitProcess 0 0 0; StartMainInit; RealStartMain MONITOR_MAIN 3 8000 []; AtMain;
     Main 4096 3 8000 9000; InitProcess 3 8000 7; BeginExit 1; FiniProcess 1 507; FiniLibrary;
     RealUExit 3].
Proof. reflexivity. Qed.
Example C58_case_ppc :
  calls (history (prog DynamicPPC quiet_client) [DoConstructor] [] [] (Returns 9)) =
    [InitLibrary; StartMainInit; RealStartMain MONITOR_MAIN 3 8000 [1; MONITOR_MAIN; 2; 3];
     InitProcess 3 8000 0; AtMain; Main 4096 3 8000 9000; BeginExit 1; FiniProcess 1 500; RealExit 9;
     FiniLibrary].
Proof. reflexivity. Qed.
Example C58_case_monitor_exit :
  calls (history (prog Static eater) [] [] [] (CallsMonitorExit 4)) =
    [StartMainInit; InitLibrary; InitProcess 3 8000 0; AtMain; WrapMain 2 8000 9000;
     Main 4096 3 8000 9000; RealUExit 4].
Proof. reflexivity. Qed.

(** ** C59 *)

(** If nothing but monitor's own constructor entered the library before main, the first
    init_process gets the program's argument count and vector. *)
Theorem C59_command_line_partial :
  forall (p : program) (pre mid body : list act) (fin : ending)
    (H_started : started p) (H_no_early : no_early_entry pre mid),
    exists h1 ev h2, history p pre mid body fin = h1 ++ ev :: h2 /\
      e_call ev = InitProcess (p_argc p) (p_argv p) 0 /\
      (forall x, In x h1 -> is_init_process (e_call x) = false).
Proof. exact first_init_lemma. Qed.

(** Otherwise not, and the callback is not repeated when main starts. *)
Theorem C59_early_refuted :
  exists p pre, started p /\
    filter is_init_process (calls (history p pre [] [] (Returns 0))) = [InitProcess 0 0 0] /\
    In (Main (p_main p) 3 8000 9000) (calls (history p pre [] [] (Returns 0))).
Proof.
  exists (prog Dynamic quiet_client), [DoConstructor; DoBegin]. split; [apply prog_started|split; [reflexivity|]]. vm_compute. auto 20.
Qed.

(** From at_main on, in this process and in its forked children, every init_process gets
    the program's vector, and the query of main's arguments answers the program's vector
    and environment; the count is the program's if the client leaves *argc alone, and
    init_process gets the count the query answers. *)
Theorem C59_main_args :
  forall (p : program) (pre mid body : list act) (fin : ending)
    (H_started : started p)
    h1 ev h2 (H_in : history p pre mid body fin = h1 ++ ev :: h2)
    (H_after : In AtMain (calls (h1 ++ [ev]))),
      exists a, e_args ev = (a, p_argv p, p_envp p) /\ (keeps_argc p -> a = p_argc p) /\
        (forall a' v d, e_call ev = InitProcess a' v d -> a' = a /\ v = p_argv p).
Proof. intros p pre mid body fin. exact (args_lemma p pre mid body fin). Qed.

Example C59_case :
  no_early_entry [DoConstructor] [] /\
  filter is_init_process (calls (history (prog Dynamic eater) [DoConstructor] [] [DoForkChild 7; DoForkChild 8] (Returns 0)))
    = [InitProcess 3 8000 0; InitProcess 2 8000 7; InitProcess 1 8000 8] /\
  map (fun e => e_args e) (history (prog Static eater) [] [] [] (Returns 0)) =
    [(0, 0, 0); (3, 8000, 9000); (3, 8000, 9000); (2, 8000, 9000); (2, 8000, 9000); (2, 8000, 9000); (2, 8000, 9000);
     (2, 8000, 9000); (2, 8000, 9000)].
Proof.
  split; [|split; reflexivity]. intros a I. cbn in I. destruct I as [<-|[]]. reflexivity.
Qed.

(** ** C60 *)

(** start_main_init, at_main and main each happen once, in this order. *)
Theorem C60_landmarks :
  forall (p : program) (pre mid body : list act) (fin : ending)
    (H_started : started p),
    filter is_landmark (calls (history p pre mid body fin)) =
      [StartMainInit; AtMain; Main (p_main p) (p_argc p) (p_argv p) (p_envp p)].
Proof. exact landmarks_lemma. Qed.

(** init_library runs once, before every init_process. *)
Theorem C60_library_once :
  forall (p : program) (pre mid body : list act) (fin : ending)
    (H_started : started p),
    exists h1 ev h2, history p pre mid body fin = h1 ++ ev :: h2 /\ e_call ev = InitLibrary /\
      (forall x, In x (h1 ++ h2) -> e_call x <> InitLibrary) /\
      (forall x, In x h1 -> is_init_process (e_call x) = false).
Proof. exact library_once_lemma. Qed.

(** init_process has run before at_main. *)
Theorem C60_process_before_main :
  forall (p : program) (pre mid body : list act) (fin : ending)
    (H_started : started p)
    h1 ev h2 (H_in : history p pre mid body fin = h1 ++ ev :: h2) (H_at_main : e_call ev = AtMain),
    exists x, In x h1 /\ is_init_process (e_call x) = true.
Proof. intros p pre mid body fin. exact (process_before_main_lemma p pre mid body fin). Qed.

(** From start_main_init on (in the static build: always) the query of main's address
    answers main's address, and before that NULL. *)
Theorem C60_addr_main :
  forall (p : program) (pre mid body : list act) (fin : ending)
    (H_started : started p)
    h1 ev h2 (H_in : history p pre mid body fin = h1 ++ ev :: h2),
      (p_build p = Static \/ In StartMainInit (calls (h1 ++ [ev])) -> e_main ev = p_main p) /\
      (p_build p <> Static -> ~ In StartMainInit (calls (h1 ++ [ev])) -> e_main ev = 0).
Proof. intros p pre mid body fin. exact (addr_lemma p pre mid body fin). Qed.

(** start_main_init may come before init_library: in the static build without early
    entries it always does. *)
Theorem C60_library_first_refuted :
  exists p h, started p /\ calls (history p [] [] [] (Returns 0)) = StartMainInit :: InitLibrary :: h.
Proof.
  exists (prog Static eater), (skipn 2 (calls (history (prog Static eater) [] [] [] (Returns 0)))).
  split; [apply prog_started|]. vm_compute. reflexivity.
Qed.

Example C60_case :
  map (fun e => (e_call e, e_main e)) (firstn 4 (history (prog Dynamic eater) [DoConstructor] [DoBegin] [] (Returns 0))) =
    [(InitLibrary, 0); (StartMainInit, 4096); (RealStartMain MONITOR_MAIN 3 8000 [], 4096);
     (InitProcess 0 0 0, 4096)] /\
  map (fun e => (e_call e, e_main e)) (firstn 2 (history (prog Static eater) [DoBegin] [] [] (Returns 0))) =
    [(InitLibrary, 4096); (InitProcess 0 0 0, 4096)].
Proof. split; reflexivity. Qed.

Print Assumptions C58_main.
Print Assumptions C58_status.
Print Assumptions C58_exit_callbacks.
Print Assumptions C58_start_info.
Print Assumptions C58_wrap_partial.
Print Assumptions C58_wrap_refuted.
Print Assumptions C59_command_line_partial.
Print Assumptions C59_early_refuted.
Print Assumptions C59_main_args.
Print Assumptions C60_landmarks.
Print Assumptions C60_library_once.
Print Assumptions C60_process_before_main.
Print Assumptions C60_addr_main.
Print Assumptions C60_library_first_refuted.
