(** Model of the parameter assignment of analysis directives, time functions and
    .FFT: ahkab/netlist_parser.py 1177-1238 ([parse_time_function]), 1369-1404
    (.fft), 1470-1541 ([parse_single_analysis]), 1544-1600 and 1652-1668; and of the
    tables in dc_analysis.py 64-124, ac.py 110-143, transient.py 68-117, pss.py
    36-77, pz.py 75-99, symbolic.py 57-81, time_functions.py 156-396 and fourier.py
    43-138.  Numbers are exact decimals. *)
From Coq Require Import Ascii String List Bool Arith ZArith.
From Verif Require Import Base Str Units.
Import ListNotations.
Open Scope nat_scope.

(** ** Values *)

Inductive val : Type :=
| VNone | VInf | VNum (d : dec) | VStr (s : str) | VBool (b : bool).

Inductive ptype : Type := TFloat | TStr | TBool.

(** ahkab/netlist_parser.py 1652-1668; the value is a string here. *)
Definition convert_boolean (s : str) : res bool :=
  if streqb s (lit "no") || streqb s (lit "false") || streqb s (lit "0") then Ok false
  else if streqb s (lit "yes") || streqb s (lit "true") || streqb s (lit "1") then Ok true
  else Err NetlistParseError.

(** ahkab/netlist_parser.py 1564-1600 with [raise_exception=False]: a string that
    is no number is returned as it is. *)
Definition convert (s : str) (ty : ptype) : res val :=
  match ty with
  | TFloat => match convert_units s with Ok d => Ok (VNum d) | Err ValueError => Ok (VStr s) | Err e => Err e end
  | TStr => Ok (VStr s)
  | TBool => bindr (convert_boolean s) (fun b => Ok (VBool b))
  end.

(** ** Tokens *)
Definition c_eq : ascii := "="%char.
Definition c_star : ascii := "*"%char.
Definition is_eq (c : ascii) : bool := if ascii_dec c c_eq then true else false.

(** ahkab/netlist_parser.py 1544-1561 (tokens contain no blanks). *)
Definition is_valid_value_param_string (tok : str) : bool := (List.length (filter is_eq tok) =? 1)%nat.

(** ahkab/netlist_parser.py 1497-1500. *)
Definition label_value (tok : str) : option str * str :=
  if is_valid_value_param_string tok then
    let '(l, v) := span (fun c => negb (is_eq c)) tok in (Some l, tl v)
  else (None, tok).

Definition starred (tok : str) : bool := match tok with c :: _ => if ascii_dec c c_star then true else false | [] => false end.

(** ** Tables *)
Record spec := mkSpec { s_label : option str; s_pos : option nat; s_type : ptype; s_needed : bool; s_dest : str; s_default : val }.

Definition optnat_eqb (a : option nat) (i : nat) : bool := match a with Some k => (k =? i)%nat | None => false end.
Definition optstr_eqb (a b : option str) : bool :=
  match a, b with Some x, Some y => streqb x y | None, None => true | _, _ => false end.

(** ahkab/netlist_parser.py 1503. *)
Definition matches (i : nat) (lab : option str) (t : spec) : bool :=
  (match lab with None => optnat_eqb (s_pos t) i | Some _ => false end) || optstr_eqb lab (s_label t).

(** ahkab/netlist_parser.py 1502-1508: the first parameter left that matches, and the
    others.  (An equal entry before it would have matched, so [params.index(t)] is
    the place of the match.) *)
Fixpoint take_first (p : spec -> bool) (l : list spec) : option (spec * list spec) :=
  match l with
  | [] => None
  | t :: l' => if p t then Some (t, l') else match take_first p l' with Some (u, r) => Some (u, t :: r) | None => None end
  end.

(** ahkab/netlist_parser.py 1493-1512. *)
Fixpoint ploop (i : nat) (toks : list str) (params : list spec) (an : list (str * val)) : res (list spec * list (str * val)) :=
  match toks with
  | [] => Ok (params, an)
  | tok :: toks' =>
      if starred tok then Ok (params, an)
      else
        let '(lab, v) := label_value tok in
        match take_first (matches i lab) params with
        | None => Err NetlistParseError
        | Some (t, rest) => bindr (convert v (s_type t)) (fun x => ploop (S i) toks' rest (dset streqb an (s_dest t) x))
        end
  end.

(** ahkab/netlist_parser.py 1493-1524; the same code at 1203-1233 and 1372-1401. *)
Definition parse_params (tbl : list spec) (an0 : list (str * val)) (toks : list str) : res (list (str * val)) :=
  bindr (ploop 0 toks tbl an0) (fun '(params, an) =>
    if existsb s_needed params then Err NetlistParseError
    else Ok (fold_left (fun a t => dset streqb a (s_dest t) (s_default t)) params an)).

(** ** The tables *)
Definition sp (l : string) (p : option nat) (ty : ptype) (n : bool) (d : string) (df : val) : spec := mkSpec (Some (lit l)) p ty n (lit d) df.
Definition zero : val := VNum (0, 0)%Z.

Definition op_table : list spec :=
  [ sp "guess" None TBool false "guess" (VBool true); sp "ic_label" None TStr false "x0" VNone ].
Definition dc_table : list spec :=
  [ sp "source" (Some 0) TStr true "source" VNone; sp "start" (Some 1) TFloat true "start" VNone;
    sp "stop" (Some 2) TFloat true "stop" VNone; sp "step" (Some 3) TFloat true "step" VNone;
    sp "type" None TStr false "sweep_type" (VStr (lit "LIN")) ].
Definition ac_table : list spec :=
  [ sp "type" (Some 0) TStr false "sweep_type" (VStr (lit "LOG")); sp "nsteps" (Some 1) TFloat true "points" VNone;
    sp "start" (Some 2) TFloat true "start" VNone; sp "stop" (Some 3) TFloat true "stop" VNone ].
Definition tran_table : list spec :=
  [ sp "tstep" (Some 0) TFloat true "tstep" VNone; sp "tstop" (Some 1) TFloat true "tstop" VNone;
    sp "tstart" None TFloat false "tstart" zero; sp "uic" (Some 2) TFloat false "uic" zero;
    sp "ic_label" None TStr false "x0" zero; sp "method" None TStr false "method" VNone ].
Definition pss_table : list spec :=
  [ sp "period" (Some 0) TFloat true "period" VNone; sp "points" None TFloat true "points" VNone;
    sp "step" None TFloat false "step" VNone; sp "autonomous" None TBool false "autonomous" (VStr (lit "0"));
    sp "method" None TStr false "method" (VStr (lit "shooting")) ].
Definition pz_table : list spec :=
  [ sp "output" (Some 0) TStr false "output_port" VNone; sp "input" (Some 1) TStr false "input_source" VNone;
    sp "shift" (Some 2) TFloat false "shift" zero ].
Definition symbolic_table : list spec :=
  [ sp "tf" None TStr false "source" VNone; sp "ac" None TBool false "ac_enable" (VBool true); sp "r0s" None TBool false "r0s" (VBool false) ].
Definition specs : list (str * list spec) :=
  [ (lit "op", op_table); (lit "dc", dc_table); (lit "ac", ac_table); (lit "tran", tran_table); (lit "pss", pss_table);
    (lit "symbolic", symbolic_table); (lit "pz", pz_table) ].

Definition fft_table : list spec :=
  [ mkSpec None (Some 0) TStr true (lit "label") VNone;
    sp "start" None TFloat false "stop" VNone; sp "stop" None TFloat false "start" VNone;
    sp "from" None TFloat false "from" VNone; sp "to" None TFloat false "to" VNone;
    sp "np" None TFloat false "np" zero; sp "format" None TStr false "uformat" (VStr (lit "NORM"));
    sp "window" None TStr false "window" (VStr (lit "RECT")); sp "alpha" None TFloat false "alpha" (VNum (3, 0)%Z);
    sp "freq" None TFloat false "freq" VNone; sp "fmin" None TFloat false "fmin" VNone; sp "fmax" None TFloat false "fmax" VNone ].

Definition fl (l : string) (p : nat) (n : bool) (df : val) : spec := sp l (Some p) TFloat n l df.
Definition sin_table : list spec :=
  [ fl "vo" 0 true VNone; fl "va" 1 true VNone; fl "freq" 2 true VNone; fl "td" 3 false zero; fl "theta" 4 false zero ].
Definition exp_table : list spec :=
  [ fl "v1" 0 true VNone; fl "v2" 1 true VNone; fl "td1" 2 false zero; fl "tau1" 3 true VNone; fl "td2" 4 false VInf; fl "tau2" 5 false VInf ].
Definition pulse_table : list spec :=
  [ fl "v1" 0 true VNone; fl "v2" 1 true VNone; fl "td" 2 false zero; fl "tr" 3 true VNone; fl "tf" 4 true VNone;
    fl "pw" 5 true VNone; fl "per" 6 true VNone ].
Definition sffm_table : list spec :=
  [ fl "vo" 0 true VNone; fl "va" 1 true VNone; fl "fc" 2 false VNone; fl "mdi" 3 true VNone; fl "fs" 4 true VNone; fl "td" 5 false zero ].
Definition am_table : list spec :=
  [ fl "sa" 0 true VNone; fl "oc" 1 true VNone; fl "fm" 2 true VNone; fl "fc" 3 true VNone; fl "td" 4 false VNone ].
Definition time_fun_specs : list (str * list spec) :=
  [ (lit "sin", sin_table); (lit "exp", exp_table); (lit "pulse", pulse_table); (lit "sffm", sffm_table); (lit "am", am_table) ].

(** ** [parse_single_analysis], ahkab/netlist_parser.py 1470-1541 *)

(** [int(x)] of a number: truncation. *)
Definition dtrunc (d : dec) : Z := let '(m, e) := d in if (0 <=? e)%Z then (m * 10 ^ e)%Z else Z.quot m (10 ^ (- e)).

(** ahkab/netlist_parser.py 1527-1540.  The string left by a number that cannot be
    parsed makes [int] raise ValueError. *)
Definition tran_uic (an : list (str * val)) : res (list (str * val)) :=
  match dget streqb an (lit "uic") with
  | None => Err KeyError
  | Some v =>
      let an' := ddel streqb an (lit "uic") in
      match v with
      | VNum d =>
          let u := dtrunc d in
          if (u =? 0)%Z then Ok (dset streqb an' (lit "x0") VNone)
          else if (u =? 1)%Z then Ok (dset streqb an' (lit "x0") (VStr (lit "op")))
          else if (u =? 2)%Z then Ok (dset streqb an' (lit "x0") (VStr (lit "op+ic")))
          else if (u =? 3)%Z then Ok an'
          else Err NetlistParseError
      | _ => Err ValueError
      end
  end.

(** ahkab/netlist_parser.py 1485-1486: [replace(".", "")] and [lower()]. *)
Definition is_dot (c : ascii) : bool := if ascii_dec c c_dot then true else false.
Definition directive_type (tok : str) : str := slower (filter (fun c => negb (is_dot c)) tok).

Definition parse_single_analysis (line : str) : res (list (str * val)) :=
  match split line with
  | [] => Err IndexError
  | d :: toks =>
      let ty := directive_type d in
      match dget streqb specs ty with
      | None => Err NetlistParseError
      | Some tbl =>
          bindr (parse_params tbl [(lit "type", VStr ty)] toks) (fun an =>
            if streqb ty (lit "tran") then tran_uic an
            else if streqb ty (lit "pz") then Ok (dset streqb an (lit "x0") (VStr (lit "op")))
            else Ok an)
      end
  end.

(** ahkab/netlist_parser.py 1671-1696 [parse_ic_directive] of the tokens after
    ".ic": the name and the list of conditions.  The name is converted like a value,
    so it may be a number. *)
Definition parse_param_value (tok : str) : res (str * val) :=
  if is_valid_value_param_string tok then
    let '(l, v) := span (fun c => negb (is_eq c)) tok in bindr (convert (tl v) TFloat) (fun x => Ok (l, x))
  else Ok (tok, VStr []).
Definition val_units (v : val) : res val :=
  match v with
  | VNum d => Ok (VNum d)
  | VStr s => bindr (convert_units s) (fun d => Ok (VNum d))
  | _ => Err TypeError
  end.
Fixpoint ic_loop (toks : list str) (name : option val) (d : list (str * val)) : res (option val * list (str * val)) :=
  match toks with
  | [] => Ok (name, d)
  | tok :: toks' =>
      if starred tok then Ok (name, d)
      else
        bindr (parse_param_value tok) (fun '(l, v) =>
          match streqb l (lit "name"), name with
          | true, None => ic_loop toks' (Some v) d
          | _, _ => bindr (val_units v) (fun x => ic_loop toks' name (dset streqb d l x))
          end)
  end.
Definition parse_ic_directive (toks : list str) : res (val * list (str * val)) :=
  bindr (ic_loop toks None []) (fun '(name, d) => match name with Some n => Ok (n, d) | None => Err NetlistParseError end).
