(** Model of the signal-set printing functions, src/utils.c 43-148.

    A buffer is the list of its bytes; its length is the memory the caller owns.
    Every store is checked against it: an out-of-bounds store is [None]. *)
From Coq Require Import Ascii.
From Verif Require Import Base.
Export List.

Definition bytes := list ascii.
Definition nul : ascii := Ascii.zero.
Definition chr (z : Z) : ascii := ascii_of_N (Z.to_N z).
Definition SPACE := chr 32.
Definition COMMA := chr 44.
Definition DASH := chr 45.

(** printf("%d") for a positive number: decimal digits, most significant first.
    (Negative numbers never reach the calls below.) *)
Definition digit (n : Z) : ascii := chr (48 + n).
Fixpoint dec_fuel (fuel : nat) (n : Z) : bytes :=
  match fuel with
  | O => []
  | S f => if n <? 10 then [digit n] else dec_fuel f (n / 10) ++ [digit (n mod 10)]
  end.
Definition dec (n : Z) : bytes := dec_fuel (S (Z.to_nat (Z.log2 n))) n.

(** sprintf(&buf[pos], ...) of the bytes [s]: stores [s] and a terminating NUL. *)
Definition puts (buf : bytes) (pos : Z) (s : bytes) : option bytes :=
  if (0 <=? pos) && (pos + Z.of_nat (length s) + 1 <=? Z.of_nat (length buf)) then
    let p := Z.to_nat pos in
    Some (firstn p buf ++ s ++ nul :: skipn (p + length s + 1) buf)
  else None.

(** buf[pos] = 0 *)
Definition put0 (buf : bytes) (pos : Z) : option bytes := puts buf pos [].

(** utils.c 50 *)
Definition SIG_ITEM_SIZE : Z := 15.

(** " %d-%d," and " %d,", utils.c 83-89 and 136-142 *)
Definition item (first sig : Z) : bytes :=
  if sig >? first then SPACE :: dec first ++ DASH :: dec sig ++ [COMMA]
  else SPACE :: dec sig ++ [COMMA].

Definition null_text : bytes := map chr [32; 40; 110; 117; 108; 108; 41]. (* " (null)" *)
Definition and_more : bytes := map chr [32; 97; 110; 100; 32; 109; 111; 114; 101]. (* " and more" *)

(** Result of a call: the buffer afterwards and the return value; None is an
    out-of-bounds store. *)
Definition outcome := option (bytes * Z).

(** The final store and return, utils.c 92-94 and 145-147. *)
Definition finish (buf : bytes) (pos num : Z) : outcome :=
  match put0 buf (if pos >? 0 then pos - 1 else 0) with
  | None => None
  | Some b => Some (b, num)
  end.

(** One printed item, utils.c 75-90 and 125-143: budget check, then sprintf.
    [inl]: give up with this outcome; [inr]: the new buffer, pos, prev. *)
Definition emit (buf : bytes) (size pos prev first sig : Z) : outcome + (bytes * Z * Z) :=
  if pos + SIG_ITEM_SIZE >? size then
    inl (match puts buf prev and_more with None => None | Some b => Some (b, -1) end)
  else match puts buf pos (item first sig) with
       | None => inl None
       | Some b => inr (b, pos + Z.of_nat (length (item first sig)), pos)
       end.

(** The inner while loop, utils.c 80-82; [fuel] bounds the turns (65 are enough). *)
Fixpoint run_end (fuel : nat) (set : sigset) (sig : Z) : Z :=
  match fuel with
  | O => sig
  | S f => if (sig + 1 <? NSIG) && mem (sig + 1) set then run_end f set (sig + 1) else sig
  end.

(** The for loop, utils.c 73-91. *)
Fixpoint set_loop (fuel : nat) (set : sigset) (size : Z) (buf : bytes)
  (sig pos prev num : Z) : outcome :=
  match fuel with
  | O => None
  | S f =>
      if sig <? NSIG then
        if mem sig set then
          let last := run_end 65 set sig in
          match emit buf size pos prev sig last with
          | inl out => out
          | inr (b, pos', prev') =>
              set_loop f set size b (last + 1) pos' prev'
                (if last >? sig then num + (last - sig + 1) else num + 1)
          end
        else set_loop f set size buf (sig + 1) pos prev num
      else finish buf pos num
  end.

(** monitor_sigset_string, utils.c 52-95; [buf = None] and [set = None] are NULL.
    For buf = NULL the result carries no buffer. *)
Definition sigset_string (buf : option bytes) (size : Z) (set : option sigset) : outcome :=
  match buf with
  | None => Some ([], -1)
  | Some b =>
      match put0 b 0 with
      | None => None
      | Some b0 =>
          if size <? SIG_ITEM_SIZE then Some (b0, -1)
          else match set with
               | None => match puts b0 0 null_text with
                         | None => None | Some b1 => Some (b1, 0) end
               | Some s => set_loop 66 s size b0 1 0 0 0
               end
      end
  end.

(** The inner while of the list version, utils.c 132-135: the last signal of the run
    starting at [sig] and the rest of the list after it. *)
Fixpoint list_run (sig : Z) (l : list Z) : Z * list Z :=
  match l with
  | x :: r => if x =? sig + 1 then list_run x r else (sig, l)
  | [] => (sig, [])
  end.

(** The for loop, utils.c 124-144, on the part of the array from index k on.  The
    array ends at the first entry <= 0; [] stands for that terminator. *)
Fixpoint list_loop (fuel : nat) (l : list Z) (size : Z) (buf : bytes)
  (pos prev num : Z) : outcome :=
  match fuel with
  | O => None
  | S f =>
      match l with
      | [] => finish buf pos num
      | x :: r =>
          if x >? 0 then
            let '(last, r') := list_run x r in
            match emit buf size pos prev x last with
            | inl out => out
            | inr (b, pos', prev') =>
                list_loop f r' size b pos' prev'
                  (if last >? x then num + (last - x + 1) else num + 1)
            end
          else finish buf pos num
      end
  end.

(** monitor_signal_list_string, utils.c 104-148 *)
Definition list_string (buf : option bytes) (size : Z) (l : option (list Z)) : outcome :=
  match buf with
  | None => Some ([], -1)
  | Some b =>
      match put0 b 0 with
      | None => None
      | Some b0 =>
          if size <? SIG_ITEM_SIZE then Some (b0, -1)
          else match l with
               | None => match puts b0 0 null_text with
                         | None => None | Some b1 => Some (b1, 0) end
               | Some l => list_loop (S (length l)) l size b0 0 0 0
               end
      end
  end.
