(** What C09 says of a program whose client goes on registering handlers during the
    wait: every answer is judged by the registrations made before it. *)
From Verif Require Import SignalModel SignalSpec SigwaitModel SigwaitSpec.

(** The client's handler for [s] after the calls [h]. *)
Definition in_force (c : config) (h : list op) (s : Z) : option N :=
  if managedb c s then last_client h s None else None.

(** The answer that ends the wait; [h]: the calls made before the wait. *)
Fixpoint live_answer (c : config) (set : sigset) (h : list op) (begun : bool)
  (l : list (list op * turn)) : option turn :=
  match l with
  | [] => None
  | (ops, t) :: r =>
      if restarts (classify (in_force c (h ++ ops)) set begun t)
      then live_answer c set (h ++ ops) (begun_after (in_force c (h ++ ops)) set begun t) r
      else Some t
  end.

(** Everything that is called during the wait: fini_thread at a shootdown
    notification; the handler in force at any other signal that comes. *)
Fixpoint live_calls (c : config) (set : sigset) (h : list op) (begun : bool)
  (l : list (list op * turn)) : list wevent :=
  match l with
  | [] => []
  | (ops, t) :: r =>
      let k := classify (in_force c (h ++ ops)) set begun t in
      match k with
      | KError | KIntr => []
      | KShoot => [WFini]
      | KClient | KForeign | KApp =>
          match in_force c (h ++ ops) (w_ret t) with
          | Some f => [WClient f (w_ret t)]
          | None => []
          end
      end ++
      (if restarts k
       then live_calls c set (h ++ ops) (begun_after (in_force c (h ++ ops)) set begun t) r
       else [])
  end.
