(** What the exec properties mean. *)
From Coq Require Import Ascii String.
From Verif Require Import ExecModel.

(** The variable an environment string sets: the bytes before '='. *)
Fixpoint var_name (e : bytes) : bytes :=
  match e with
  | [] => []
  | c :: r => if Ascii.eqb c "="%char then [] else c :: var_name r
  end.
Definition beqb (a b : bytes) : bool := if list_eq_dec ascii_dec a b then true else false.
Definition sets_preload (e : bytes) : bool := beqb (var_name e) (str "LD_PRELOAD").

(** The elements of a PATH-like string. *)
Fixpoint elements (l : bytes) : list bytes :=
  match l with
  | [] => [[]]
  | c :: r => if Ascii.eqb c ":"%char then [] :: elements r
              else match elements r with [] => [[c]] | p :: q => (c :: p) :: q end
  end.

(** execvp's own search: the name itself if it has a slash; nothing for the empty
    name; otherwise one candidate per PATH element, the empty element meaning the
    current directory, and the system default PATH if it is unset. *)
Definition default_path : bytes := str "/bin:/usr/bin".
Definition candidate (file dir : bytes) : bytes :=
  match dir with [] => file | _ => dir ++ ["/"%char] ++ file end.
Definition candidates (path : option bytes) (file : bytes) : list bytes :=
  if existsb (Ascii.eqb "/"%char) file then [file]
  else match file with
       | [] => []
       | _ => map (candidate file) (elements (match path with Some p => p | None => default_path end))
       end.
