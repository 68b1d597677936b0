(** Python strings as lists of ASCII characters, and the methods of [str] that
    the netlist parser relies on, restricted to ASCII. *)
From Coq Require Import Ascii String List Bool Arith.
From Verif Require Import Base.
Import ListNotations.

Definition str := list ascii.
Definition lit (s : string) : str := list_ascii_of_string s.

Definition streqb (a b : str) : bool := if list_eq_dec ascii_dec a b then true else false.

(** [str.isspace] on one ASCII character: 9-13, 28-31, 32. *)
Definition is_ws (c : ascii) : bool :=
  let n := nat_of_ascii c in
  ((9 <=? n) && (n <=? 13)) || ((28 <=? n) && (n <=? 32)).

(** [str.isdigit] on one ASCII character. *)
Definition is_digit (c : ascii) : bool :=
  let n := nat_of_ascii c in (48 <=? n) && (n <=? 57).

Definition slower (s : str) : str := map lower_ascii s.
Definition supper (s : str) : str := map upper_ascii s.

(** [s.lstrip()], [s.strip()]. *)
Fixpoint lstrip (s : str) : str :=
  match s with
  | c :: s' => if is_ws c then lstrip s' else s
  | [] => []
  end.
Definition strip (s : str) : str := rev (lstrip (rev (lstrip s))).

(** [s.split()]: the maximal runs of other characters; [w] is the current run. *)
Fixpoint split_aux (w : str) (s : str) : list str :=
  match s with
  | [] => match w with [] => [] | _ => [w] end
  | c :: s' =>
      if is_ws c then match w with [] => split_aux [] s' | _ => w :: split_aux [] s' end
      else split_aux (w ++ [c]) s'
  end.
Definition split (s : str) : list str := split_aux [] s.

(** The longest prefix of characters that satisfy [p], and what follows. *)
Fixpoint span (p : ascii -> bool) (s : str) : str * str :=
  match s with
  | c :: s' => if p c then let '(a, b) := span p s' in (c :: a, b) else ([], s)
  | [] => ([], [])
  end.
