(** What C22 and C23 mean, independently of the code. *)
From Verif Require Import LoaderModel.

(** libmonitor sits at one place in the object list: [before], then libmonitor, then
    [after]. *)
Definition placed (l : loader) (before : list object) (self : object) (after : list object) : Prop :=
  ld_objects l = before ++ self :: after /\
  o_base self = ld_self_base l /\
  (forall ob, In ob before -> o_base ob <> ld_self_base l).

(** The first object of the list, in order, that defines the symbol. *)
Definition first_definer (defs : Z -> Z -> option Z) (sym : Z) (ids : list Z) (i a : Z) : Prop :=
  exists p q, ids = p ++ i :: q /\ defs i sym = Some a /\
  forall j, In j p -> defs j sym = None.

(** No object of the list defines the symbol. *)
Definition undefined (defs : Z -> Z -> option Z) (sym : Z) (ids : list Z) : Prop :=
  forall j, In j ids -> defs j sym = None.

(** The definition the English statement asks for among the objects after
    libmonitor: the first one that opens and through which the symbol is found. *)
Definition first_later (l : loader) (after : list object) (sym i a : Z) : Prop :=
  exists p ob q, after = p ++ ob :: q /\ o_opens ob = true /\
  first_definer (ld_defs l) sym (o_scope ob) i a /\
  forall x, In x p -> o_opens x = false \/ undefined (ld_defs l) sym (o_scope x).

(** Lookups through the handle of an object after libmonitor stay among the objects
    after libmonitor. *)
Definition closed_after (l : loader) (after : list object) : Prop :=
  forall ob i, In ob after -> In i (o_scope ob) -> exists ob', In ob' after /\ o_id ob' = i.

(** Callbacks among dlopen.c events. *)
Definition is_dl_callback (e : dlev) : bool :=
  match e with DRealOpen _ _ | DRealClose _ => false | _ => true end.

(** The same calls made on the real loader with no libmonitor present. *)
Fixpoint plain_calls {W} (r : real_dl W) (w : W) (cs : list dlcall) : W * list Z :=
  match cs with
  | [] => (w, [])
  | c :: rest =>
      let '(w1, x) := match c with COpen _ p f => r_open r w p f | CClose _ h => r_close r w h end in
      let '(w2, xs) := plain_calls r w1 rest in (w2, x :: xs)
  end.

(** What the client sees of one application call with result [x]; nothing of its own
    calls.  The real call is in between. *)
Definition seen (c : dlcall) (x : Z) : list dlev :=
  match c with
  | COpen true p f => [DPreOpen p f; DRealOpen p f; DPostOpen p f x]
  | CClose true h => [DPreClose h; DRealClose h; DPostClose h x]
  | COpen false p f => [DRealOpen p f]
  | CClose false h => [DRealClose h]
  end.

(** Handles still open after a trace of real calls that all concern [opens p] = what
    opening path p returns (0: failure): one more per successful open, one less per
    close. *)
Definition balance (opens : Z -> Z) (h : Z) (tr : list dlev) : Z :=
  fold_left (fun n e => match e with
                        | DRealOpen p _ => if (opens p =? h) && negb (h =? 0) then n + 1 else n
                        | DRealClose x => if x =? h then n - 1 else n
                        | _ => n
                        end) tr 0.

(** The objects the fallback looks at: in order, up to the first one through which the
    symbol is found. *)
Inductive looked_at (l : loader) (sym : Z) : list object -> list object -> Prop :=
| la_none : looked_at l sym [] []
| la_found : forall ob r i a, o_opens ob = true ->
    first_definer (ld_defs l) sym (o_scope ob) i a -> looked_at l sym (ob :: r) [ob]
| la_next : forall ob r seen, o_opens ob = false \/ undefined (ld_defs l) sym (o_scope ob) ->
    looked_at l sym r seen -> looked_at l sym (ob :: r) (ob :: seen).

(** What the client sees when one object is opened without loading it (flags 5) and
    closed again: a failed open returns 0, and nothing is closed then. *)
Definition open_and_close (path handle : Z) (opens : bool) : list dlev :=
  if opens then [DPreOpen path 5; DRealOpen path 5; DPostOpen path 5 handle;
                 DPreClose handle; DRealClose handle; DPostClose handle 0]
  else [DPreOpen path 5; DRealOpen path 5; DPostOpen path 5 0].
