(** Model of [convert_units], ahkab/netlist_parser.py 1241-1308.  A float is an
    exact decimal [m * 10^e]; the string is ASCII. *)
From Coq Require Import Ascii String List Bool Arith ZArith.
From Verif Require Import Base Str.
Import ListNotations.
Open Scope Z_scope.

(** [(m, e)] stands for m * 10^e. *)
Definition dec := (Z * Z)%type.

Definition digit_val (c : ascii) : Z := Z.of_nat (nat_of_ascii c - 48).
Definition digits_val (s : str) : Z := fold_left (fun a c => 10 * a + digit_val c) s 0.

Definition c_plus : ascii := "+"%char.
Definition c_minus : ascii := "-"%char.
Definition c_dot : ascii := "."%char.
Definition c_E : ascii := "E"%char.

Definition sign (s : str) : Z * str :=
  match s with
  | c :: s' => if ascii_dec c c_plus then (1, s') else if ascii_dec c c_minus then (-1, s') else (1, s)
  | [] => (1, [])
  end.

Definition fraction (s : str) : str * str :=
  match s with
  | c :: s' => if ascii_dec c c_dot then span is_digit s' else ([], s)
  | [] => ([], [])
  end.

(** Python's [float(s)] for strings over digits, '.', '+', '-' and 'E' (other
    forms that it accepts contain other characters). *)
Definition float_of (s : str) : res dec :=
  let '(sg, s1) := sign s in
  let '(ip, s2) := span is_digit s1 in
  let '(fp, s3) := fraction s2 in
  match (ip ++ fp)%list with
  | [] => Err ValueError
  | _ =>
      let m := sg * digits_val (ip ++ fp) in
      let e := - Z.of_nat (List.length fp) in
      match s3 with
      | [] => Ok (m, e)
      | c :: s4 =>
          if ascii_dec c c_E then
            let '(es, s5) := sign s4 in
            let '(ed, s6) := span is_digit s5 in
            match ed, s6 with
            | _ :: _, [] => Ok (m, e + es * digits_val ed)
            | _, _ => Err ValueError
            end
          else Err ValueError
      end
  end.

(** ahkab/netlist_parser.py 1273-1275. *)
Definition num_char (c : ascii) : bool :=
  is_digit c || (if ascii_dec c c_dot then true else false) || (if ascii_dec c c_plus then true else false)
  || (if ascii_dec c c_minus then true else false) || (if ascii_dec c c_E then true else false).

(** ahkab/netlist_parser.py 1284-1307, as a table; 25.4e-6 = 254e-7. *)
Definition multipliers : list (str * dec) :=
  [ ([], (1, 0)); (lit "T", (1, 12)); (lit "G", (1, 9)); (lit "K", (1, 3)); (lit "M", (1, -3));
    (lit "U", (1, -6)); (lit "N", (1, -9)); (lit "P", (1, -12)); (lit "F", (1, -15));
    (lit "MEG", (1, 6)); (lit "MIL", (254, -7)) ].

Definition dmul (a b : dec) : dec := (fst a * fst b, snd a + snd b).

(** ahkab/netlist_parser.py 1265-1308. *)
Definition convert_units (s : str) : res dec :=
  match s with
  | [] => Err NetlistParseError
  | _ =>
      let s := supper (strip s) in
      let '(num, mult) := span num_char s in
      match num with
      | [] => Err ValueError
      | _ =>
          match float_of num with
          | Err e => Err e
          | Ok v =>
              match dget streqb multipliers mult with
              | Some k => Ok (dmul v k)
              | None => Err ValueError
              end
          end
      end
  end.
