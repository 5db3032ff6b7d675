(** What C09 says, turn by turn. *)
From Verif Require Import SignalModel SigwaitModel.

(** Has this thread's fini_thread already begun before turn [t], given the turns
    before it?  It has if it had at the start, if someone else did it, or if an
    earlier turn of this wait was the shootdown notification. *)
Inductive kind :=
| KError        (* error to hand back *)
| KIntr         (* EINTR: wait again *)
| KShoot        (* shootdown notification: fini_thread here *)
| KClient       (* accepted by the client *)
| KForeign      (* not in the set *)
| KApp.         (* the application's signal *)

Definition classify (clients : Z -> option N) (set : sigset) (begun : bool) (t : turn)
  : kind :=
  if w_ret t <? 0 then (if w_errno t =? EINTR then KIntr else KError)
  else if (w_ret t =? w_sd t) && w_exiting t && negb (w_done t) && w_node t &&
          w_started t && negb (begun || w_fini t) && negb (w_block t) then KShoot
  else match clients (w_ret t) with
       | Some _ => if (1 <=? w_ret t) && (w_ret t <? 65) && (w_client t =? 0) then KClient
                   else if (1 <=? w_ret t) && (w_ret t <? 65) && negb (mem (w_ret t) set)
                   then KForeign else KApp
       | None => if (1 <=? w_ret t) && (w_ret t <? 65) && negb (mem (w_ret t) set)
                 then KForeign else KApp
       end.

Definition begun_after (clients : Z -> option N) (set : sigset) (begun : bool) (t : turn)
  : bool :=
  begun || w_fini t || match classify clients set begun t with KShoot => true | _ => false end.

Definition restarts (k : kind) : bool :=
  match k with KError | KApp => false | _ => true end.

(** The first turn that belongs to the application, scanning in order. *)
Fixpoint first_for_app (clients : Z -> option N) (set : sigset) (begun : bool)
  (ts : list turn) : option turn :=
  match ts with
  | [] => None
  | t :: r => if restarts (classify clients set begun t)
              then first_for_app clients set (begun_after clients set begun t) r
              else Some t
  end.

Definition count (p : wevent -> bool) (l : list wevent) : nat := length (filter p l).
Definition is_fini (e : wevent) : bool := match e with WFini => true | _ => false end.
Definition is_client (e : wevent) : bool := match e with WClient _ _ => true | _ => false end.
