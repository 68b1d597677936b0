(** Model of [join_lines], ahkab/netlist_parser.py 1815-1831.  The file is the
    list of the lines still to be read (tell/seek put a line back); an empty
    line and the end of the file look the same. *)
From Coq Require Import Ascii String List Bool.
From Verif Require Import Base Str.
Import ListNotations.

Definition c_cont : ascii := "+"%char.
Definition c_space : ascii := " "%char.

Fixpoint join_lines (fp : list str) (line : str) : str * list str :=
  match fp with
  | [] => (line, [])
  | l :: fp' =>
      match slower (strip l) with
      | [] => (line, fp')
      | c :: next => if ascii_dec c c_cont then join_lines fp' (line ++ c_space :: next) else (line, fp)
      end
  end.
