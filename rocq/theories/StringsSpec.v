(** How to read the text back, and what "fits" means. *)
From Coq Require Import Ascii.
From Verif Require Import Base StringsModel.

(** The C string in a buffer: the bytes before the first NUL. *)
Fixpoint cstr (b : bytes) : option bytes :=
  match b with
  | [] => None
  | c :: r => if Ascii.eqb c nul then Some []
              else match cstr r with None => None | Some t => Some (c :: t) end
  end.

Fixpoint split (c : ascii) (l : bytes) : list bytes :=
  match l with
  | [] => [[]]
  | x :: r => if Ascii.eqb x c then [] :: split c r
              else match split c r with [] => [[x]] | p :: q => (x :: p) :: q end
  end.

Definition digit_val (c : ascii) : option Z :=
  let z := Z.of_N (N_of_ascii c) - 48 in
  if (0 <=? z) && (z <? 10) then Some z else None.
Fixpoint number (acc : Z) (l : bytes) : option Z :=
  match l with
  | [] => Some acc
  | c :: r => match digit_val c with Some d => number (10 * acc + d) r | None => None end
  end.

(** a, a+1, ..., b *)
Definition upto (a b : Z) : list Z := map (fun k => a + Z.of_nat k) (seq 0 (Z.to_nat (b - a + 1))).

(** " n" or " a-b" *)
Definition read_item (l : bytes) : option (list Z) :=
  match l with
  | c :: r =>
      if Ascii.eqb c (ascii_of_nat 32) then
        match split (ascii_of_nat 45) r with
        | [a] => match number 0 a with Some n => Some [n] | None => None end
        | [a; b] => match number 0 a, number 0 b with
                    | Some m, Some n => Some (upto m n) | _, _ => None end
        | _ => None
        end
      else None
  | [] => None
  end.

Fixpoint read_items (l : list bytes) : option (list Z) :=
  match l with
  | [] => Some []
  | i :: r => match read_item i, read_items r with
              | Some a, Some b => Some (a ++ b) | _, _ => None end
  end.

(** The numbers a comma-separated text denotes; the empty text denotes none. *)
Definition read (text : bytes) : option (list Z) :=
  match text with [] => Some [] | _ => read_items (split (ascii_of_nat 44) text) end.

(** The members of a set in ascending order. *)
Definition members (set : sigset) : list Z :=
  filter (fun s => mem s set) (upto 1 64).

(** The signals of an array: those before the first entry <= 0. *)
Fixpoint signals (l : list Z) : list Z :=
  match l with [] => [] | x :: r => if 0 <? x then x :: signals r else [] end.

(** Maximal runs of consecutive numbers. *)
Fixpoint runs (l : list Z) : list (Z * Z) :=
  match l with
  | [] => []
  | x :: r => match runs r with
              | (a, b) :: t => if a =? x + 1 then (x, b) :: t else (x, x) :: (a, b) :: t
              | [] => [(x, x)]
              end
  end.

(** Width of the printed run, comma included. *)
Definition width (ab : Z * Z) : Z :=
  let '(a, b) := ab in
  if a <? b then 3 + Z.of_nat (length (dec a)) + Z.of_nat (length (dec b))
  else 2 + Z.of_nat (length (dec b)).

(** Every run starts with at least 15 bytes left. *)
Fixpoint fits (size pos : Z) (rs : list (Z * Z)) : bool :=
  match rs with
  | [] => true
  | r :: t => (pos + 15 <=? size) && fits size (pos + width r) t
  end.
