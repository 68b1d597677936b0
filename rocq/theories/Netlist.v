(** Model of the element lines of a netlist: ahkab/netlist_parser.py 278-316
    ([main_netlist_parser]), 369-1072 ([parse_elem_*]) and of the lines printed by
    [get_netlist_elem_line] (Component.py 166-183, Inductor.py 135-150, EVSource.py
    69-87, FISource.py 72-91, GISource.py 77-95, HVSource.py 71-90, VSource.py 99-126,
    ISource.py 100-127, diode.py 230-243, mosq.py 421-428, ekv.py 354-360, switch.py
    264-269).

    An element is given by what the constructor receives; nodes by their external
    names (Nodes.v has the table); numbers are exact decimals, models are names with a
    type.  Subcircuit instances and user-defined elements (letters x, y) are not
    modelled here: an oracle.  The warnings are left out. *)
From Coq Require Import Ascii String List Bool Arith ZArith.
From Verif Require Import Base Str Units Directive.
Import ListNotations.
Open Scope nat_scope.

Inductive mtype := MEkv | MMosq | MDiode | MSwitch.

(** A time function: its type and its parameters. *)
Definition tfun : Type := (str * list (str * val))%type.

Inductive pelem : Type :=
| PR (id n1 n2 : str) (v : dec)
| PC (id n1 n2 : str) (v : dec) (ic : option dec)
| PL (id n1 n2 : str) (v : dec) (ic : option dec)
| PK (id l1 l2 : str) (k : dec) (v1 v2 : dec)       (* M = sqrt(v1 v2) k *)
| PV (id n1 n2 : str) (dc ac : option dec) (f : option tfun)
| PI (id n1 n2 : str) (dc ac : option dec) (f : option tfun)
| PD (id n1 n2 model : str) (area ic : option dec)
| PM (id nd ng ns nb model : str) (w l m n : dec)
| PE (id n1 n2 s1 s2 : str) (v : dec)
| PG (id n1 n2 s1 s2 : str) (v : dec)
| PH (id n1 n2 src : str) (v : dec)
| PF (id n1 n2 src : str) (v : dec)
| PS (id n1 n2 s1 s2 model : str).

(** [len(l) > k and not l[k][0] == "*"], where [rest] is [l[k:]]. *)
Definition extra (rest : list str) : bool := match rest with [] => false | t :: _ => negb (starred t) end.

(** [value == 0]. *)
Definition dzero (d : dec) : bool := (fst d =? 0)%Z.

(** ahkab/netlist_parser.py 369-402. *)
Definition parse_elem_resistor (toks : list str) : res pelem :=
  match toks with
  | id :: n1 :: n2 :: v :: rest =>
      if extra rest then Err NetlistParseError
      else bindr (convert_units v) (fun d => if dzero d then Err NetlistParseError else Ok (PR id n1 n2 d))
  | _ => Err NetlistParseError
  end.

(** ahkab/netlist_parser.py 426-432 and 466-472: the optional [ic=...]; [rest] is what follows the value. *)
Definition parse_ic (rest : list str) : res (option dec) :=
  match rest with
  | [t] =>
      if starred t then Ok None
      else bindr (parse_param_value t) (fun '(label, value) =>
           if streqb label (lit "ic") then bindr (val_units value) (fun x => match x with VNum d => Ok (Some d) | _ => Err TypeError end)
           else Err NetlistParseError)
  | _ => Ok None
  end.

(** ahkab/netlist_parser.py 405-443. *)
Definition parse_elem_capacitor (toks : list str) : res pelem :=
  match toks with
  | id :: n1 :: n2 :: v :: rest =>
      if match rest with t4 :: t5 :: _ => negb (starred t5) && negb (starred t4) | _ => false end then Err NetlistParseError
      else bindr (parse_ic rest) (fun ic => bindr (convert_units v) (fun d => Ok (PC id n1 n2 d ic)))
  | _ => Err NetlistParseError
  end.

(** ahkab/netlist_parser.py 446-482; the comment is looked for at [line_elements[6]]. *)
Definition parse_elem_inductor (toks : list str) : res pelem :=
  match toks with
  | id :: n1 :: n2 :: v :: rest =>
      bindr (match rest with
             | _ :: _ :: [] => Err IndexError
             | _ :: _ :: t6 :: _ => if starred t6 then Ok tt else Err NetlistParseError
             | _ => Ok tt
             end) (fun _ =>
      bindr (parse_ic rest) (fun ic => bindr (convert_units v) (fun d => Ok (PL id n1 n2 d ic))))
  | _ => Err NetlistParseError
  end.

(** ahkab/netlist_parser.py 518-524: the loop over the elements read so far; the last that matches stays. *)
Definition find_inductors (l1 l2 : str) (elements : list pelem) : option dec * option dec :=
  fold_left (fun acc e =>
    match e with
    | PL id _ _ v _ => if streqb l1 id then (Some v, snd acc) else if streqb l2 id then (fst acc, Some v) else acc
    | _ => acc
    end) elements (None, None).

(** ahkab/netlist_parser.py 485-538; the comment is looked for at [line_elements[5]]. *)
Definition parse_elem_inductor_coupling (toks : list str) (elements : list pelem) : res pelem :=
  match toks with
  | id :: l1 :: l2 :: v :: rest =>
      bindr (match rest with
             | [] => Ok tt
             | _ :: [] => Err IndexError
             | _ :: t5 :: _ => if starred t5 then Ok tt else Err NetlistParseError
             end) (fun _ =>
      bindr (match convert_units v with
             | Err ValueError =>
                 bindr (parse_param_value v) (fun '(label, value) =>
                 if streqb label (lit "k") then bindr (val_units value) (fun x => match x with VNum d => Ok d | _ => Err TypeError end)
                 else Err NetlistParseError)
             | r => r
             end) (fun k =>
      match find_inductors l1 l2 elements with
      | (Some v1, Some v2) => Ok (PK id l1 l2 k v1 v2)
      | _ => Err NetlistParseError
      end))
  | _ => Err NetlistParseError
  end.

(** ahkab/netlist_parser.py 1177-1238: see [parse_params].  The constructor of the
    function (which only stores the parameters) is not run. *)
Definition parse_time_function (ty : str) (toks : list str) : res tfun :=
  match dget streqb time_fun_specs ty with
  | None => Err NetlistParseError
  | Some tbl => bindr (parse_params tbl [] toks) (fun ps => Ok (ty, ps))
  end.

(** ahkab/netlist_parser.py 573-591 and 662-679: [param_number]; [c] is "v" or "i". *)
Definition param_number (c : string) (value : val) : option nat :=
  match value with
  | VStr s =>
      if streqb s (lit (c ++ "dc")) || streqb s (lit (c ++ "ac")) then Some 0
      else if streqb s (lit "pulse") then Some 7
      else if streqb s (lit "exp") then Some 6
      else if streqb s (lit "sin") then Some 5
      else if streqb s (lit "sffm") then Some 5
      else if streqb s (lit "am") then Some 5
      else None
  | _ => None
  end.

Definition num_value (v : val) : res dec := bindr (val_units v) (fun x => match x with VNum d => Ok d | _ => Err TypeError end).

(** ahkab/netlist_parser.py 564-608 and 653-696: the loop.  [strict]: the end of the line is recognised by
    [index == len], so that going past it is an IndexError (current sources). *)
Fixpoint source_loop (fuel : nat) (c : string) (strict : bool) (toks : list str) (dc ac : option dec) (f : option tfun)
  : res (option dec * option dec * option tfun) :=
  match fuel, toks with
  | _, [] => Ok (dc, ac, f)
  | O, _ => Err OutOfFuel
  | S fuel, tok :: rest =>
      if starred tok then Ok (dc, ac, f)
      else bindr (parse_param_value tok) (fun '(label, value) =>
        if streqb label (lit "type") then
          match param_number c value, value with
          | Some p, VStr ty =>
              match f with
              | Some _ => Err NetlistParseError
              | None =>
                  if (p =? 0) then source_loop fuel c strict rest dc ac f
                  else bindr (parse_time_function ty (firstn p rest)) (fun g =>
                       if strict && (length rest <? p) then Err IndexError
                       else source_loop fuel c strict (skipn p rest) dc ac (Some g))
              end
          | _, _ => Err NetlistParseError
          end
        else if streqb label (lit (c ++ "dc")) then bindr (num_value value) (fun d => source_loop fuel c strict rest (Some d) ac f)
        else if streqb label (lit (c ++ "ac")) then bindr (num_value value) (fun d => source_loop fuel c strict rest dc (Some d) f)
        else Err NetlistParseError)
  end.
(** components/sources/VSource.py 47-59 and ISource.py 47-59. *)
Definition ac_of (ac : option dec) : option dec := match ac with Some d => if dzero d then None else Some d | None => None end.
Definition parse_elem_source (c : string) (strict : bool) (mk : str -> str -> str -> option dec -> option dec -> option tfun -> pelem) (toks : list str)
  : res pelem :=
  match toks with
  | id :: n1 :: n2 :: rest =>
      bindr (source_loop (length rest) c strict rest None None None) (fun '(dc, ac, f) =>
      match dc, f with
      | None, None => Err NetlistParseError
      | _, _ => Ok (mk id n1 n2 dc (ac_of ac) f)
      end)
  | _ => Err NetlistParseError
  end.
Definition parse_elem_vsource := parse_elem_source "v" false PV.
Definition parse_elem_isource := parse_elem_source "i" true PI.

(** ahkab/netlist_parser.py 745-764: [value = convert_units(value)] comes before the names are looked at;
    [len] of a number is a TypeError. *)
Fixpoint diode_loop (toks : list str) (area ic : option dec) : res (option dec * option dec) :=
  match toks with
  | [] => Ok (area, ic)
  | tok :: rest =>
      if starred tok then Ok (area, ic)
      else bindr (parse_param_value tok) (fun '(param, value) =>
           bindr (num_value value) (fun d =>
           if streqb param (lit "area") then diode_loop rest (Some d) ic
           else if streqb param (lit "t") then diode_loop rest area ic
           else if streqb param (lit "ic") then diode_loop rest area (Some d)
           else if streqb param (lit "off") then Err TypeError
           else Err NetlistParseError))
  end.
(** ahkab/netlist_parser.py 714-777; any model will do, [T] is not passed on. *)
Definition parse_elem_diode (models : list (str * mtype)) (toks : list str) : res pelem :=
  match toks with
  | id :: n1 :: n2 :: model :: rest =>
      bindr (diode_loop rest None None) (fun '(area, ic) =>
      match dget streqb models model with
      | None => Err NetlistParseError
      | Some _ => Ok (PD id n1 n2 model area ic)
      end)
  | _ => Err NetlistParseError
  end.

(** ahkab/netlist_parser.py 813-832. *)
Record mospar := mkMos { mp_w : option dec; mp_l : option dec; mp_m : dec; mp_n : dec }.
Fixpoint mos_loop (toks : list str) (p : mospar) : res mospar :=
  match toks with
  | [] => Ok p
  | tok :: rest =>
      if starred tok then Ok p
      else bindr (parse_param_value tok) (fun '(param, value) =>
           if streqb param (lit "w") then bindr (num_value value) (fun d => mos_loop rest (mkMos (Some d) (mp_l p) (mp_m p) (mp_n p)))
           else if streqb param (lit "l") then bindr (num_value value) (fun d => mos_loop rest (mkMos (mp_w p) (Some d) (mp_m p) (mp_n p)))
           else if streqb param (lit "m") then bindr (num_value value) (fun d => mos_loop rest (mkMos (mp_w p) (mp_l p) d (mp_n p)))
           else if streqb param (lit "n") then bindr (num_value value) (fun d => mos_loop rest (mkMos (mp_w p) (mp_l p) (mp_m p) d))
           else Err NetlistParseError)
  end.
Definition one : dec := (1, 0)%Z.
(** ahkab/netlist_parser.py 780-862. *)
Definition parse_elem_mos (models : list (str * mtype)) (toks : list str) : res pelem :=
  match toks with
  | id :: nd :: ng :: ns :: nb :: model :: rest =>
      bindr (mos_loop rest (mkMos None None one one)) (fun p =>
      match mp_w p, mp_l p with
      | Some w, Some l =>
          match dget streqb models model with
          | Some MEkv | Some MMosq => Ok (PM id nd ng ns nb model w l (mp_m p) (mp_n p))
          | _ => Err NetlistParseError
          end
      | _, _ => Err NetlistParseError
      end)
  | _ => Err NetlistParseError
  end.

(** ahkab/netlist_parser.py 865-898 and 943-983. *)
Definition parse_elem_4 (mk : str -> str -> str -> str -> str -> dec -> pelem) (toks : list str) : res pelem :=
  match toks with
  | id :: n1 :: n2 :: s1 :: s2 :: v :: rest =>
      if extra rest then Err NetlistParseError else bindr (convert_units v) (fun d => Ok (mk id n1 n2 s1 s2 d))
  | _ => Err NetlistParseError
  end.
(** ahkab/netlist_parser.py 901-940 and 986-1023. *)
Definition parse_elem_src (mk : str -> str -> str -> str -> dec -> pelem) (toks : list str) : res pelem :=
  match toks with
  | id :: n1 :: n2 :: src :: v :: rest =>
      if extra rest then Err NetlistParseError else bindr (convert_units v) (fun d => Ok (mk id n1 n2 src d))
  | _ => Err NetlistParseError
  end.

(** ahkab/netlist_parser.py 1026-1072. *)
Definition parse_elem_switch (models : list (str * mtype)) (toks : list str) : res pelem :=
  match toks with
  | id :: n1 :: n2 :: s1 :: s2 :: model :: rest =>
      if extra rest then Err NetlistParseError
      else match dget streqb models model with
           | Some MSwitch => Ok (PS id n1 n2 s1 s2 model)
           | _ => Err NetlistParseError
           end
  | _ => Err NetlistParseError
  end.

Section Lines.
  Variable models : list (str * mtype).
  (** Lines that begin with x or y. *)
  Variable other : str -> res (list pelem).

  (** ahkab/netlist_parser.py 280-296: the table; an unknown letter is a KeyError,
      turned into NetlistParseError at 303-307 (the lines are not empty). *)
  Definition parse_letter (c : ascii) (line : str) (elements : list pelem) : res (list pelem) :=
    let toks := split line in
    let one r := bindr r (fun e => Ok [e]) in
    let is (l : ascii) := if ascii_dec c l then true else false in
    if is "c"%char then one (parse_elem_capacitor toks)
    else if is "d"%char then one (parse_elem_diode models toks)
    else if is "e"%char then one (parse_elem_4 PE toks)
    else if is "f"%char then one (parse_elem_src PF toks)
    else if is "g"%char then one (parse_elem_4 PG toks)
    else if is "h"%char then one (parse_elem_src PH toks)
    else if is "i"%char then one (parse_elem_isource toks)
    else if is "k"%char then one (parse_elem_inductor_coupling toks elements)
    else if is "l"%char then one (parse_elem_inductor toks)
    else if is "m"%char then one (parse_elem_mos models toks)
    else if is "r"%char then one (parse_elem_resistor toks)
    else if is "s"%char then one (parse_elem_switch models toks)
    else if is "v"%char then one (parse_elem_vsource toks)
    else if is "x"%char || is "y"%char then other line
    else Err NetlistParseError.
  Definition parse_line (line : str) (elements : list pelem) : res (list pelem) :=
    match line with [] => Err IndexError | c :: _ => parse_letter c line elements end.

  (** ahkab/netlist_parser.py 297-316. *)
  Fixpoint main_netlist_parser (lines : list str) (elements : list pelem) : res (list pelem) :=
    match lines with
    | [] => Ok elements
    | line :: lines' => bindr (parse_line line elements) (fun l => main_netlist_parser lines' (elements ++ l))
    end.
End Lines.

(** ** Printing *)

(** The decimal digits of a number that is not negative (at least one). *)
Fixpoint digits_fuel (fuel : nat) (n : Z) : str :=
  match fuel with
  | O => []
  | S fuel =>
      let d := ascii_of_nat (48 + Z.to_nat (n mod 10)) in
      if (n <? 10)%Z then [d] else digits_fuel fuel (n / 10) ++ [d]
  end.
Definition digits (n : Z) : str := digits_fuel (S (Z.to_nat (Z.log2 n))) n.

(** Rounding of [a / p] to an integer, half to even. *)
Definition round_div (a p : Z) : Z :=
  let q := (a / p)%Z in let r := (a mod p)%Z in
  if (2 * r <? p)%Z then q else if (p <? 2 * r)%Z then (q + 1)%Z else if Z.even q then q else (q + 1)%Z.

(** Six significant digits of a positive number: (m, e) with m < 10^6. *)
Definition round6 (a e : Z) : Z * Z :=
  let k := (Z.of_nat (List.length (digits a)) - 6)%Z in
  if (k <=? 0)%Z then (a, e)
  else let q := round_div a (10 ^ k) in if (q =? 10 ^ 6)%Z then (10 ^ 5, e + k + 1)%Z else (q, e + k)%Z.

(** Without trailing zeros. *)
Fixpoint strip0 (fuel : nat) (a e : Z) : Z * Z :=
  match fuel with
  | O => (a, e)
  | S fuel => if (a mod 10 =? 0)%Z then strip0 fuel (a / 10) (e + 1) else (a, e)
  end.

Definition zeros (n : nat) : str := repeat "0"%char n.
(** The digits with a point after the first [k] of them, if any follows. *)
Definition with_point (ds : str) (k : nat) : str :=
  match skipn k ds with [] => ds | fr => firstn k ds ++ c_dot :: fr end.
(** [%+03d]. *)
Definition show_exp (x : Z) : str :=
  (if (x <? 0)%Z then c_minus else c_plus) :: (if (Z.abs x <? 10)%Z then "0"%char :: digits (Z.abs x) else digits (Z.abs x)).

(** ["%g" % v]. *)
Definition fmt_g (d : dec) : str :=
  let '(m, e) := d in
  if (m =? 0)%Z then lit "0"
  else
    let '(a1, e1) := round6 (Z.abs m) e in
    let '(a, e2) := strip0 6 a1 e1 in
    let ds := digits a in
    let x := (e2 + Z.of_nat (List.length ds) - 1)%Z in
    (if (m <? 0)%Z then [c_minus] else []) ++
    (if (x <? -4)%Z || (6 <=? x)%Z then with_point ds 1 ++ "e"%char :: show_exp x
     else if (x <? 0)%Z then lit "0." ++ zeros (Z.to_nat (- x - 1)) ++ ds
     else if (e2 <? 0)%Z then with_point ds (S (Z.to_nat x))
     else ds ++ zeros (Z.to_nat e2)).

Definition sp_ : ascii := " "%char.
(** [' '.join]. *)
Fixpoint spaced (l : list str) : str :=
  match l with [] => [] | [t] => t | t :: l' => t ++ sp_ :: spaced l' end.

(** ahkab/time_functions.py 455-461, 526-531, 602-607, 668-670, 726-728: the text of a
    time function, between the blanks; [c] is "v" or "i", [srepr] is [str] of a float.
    (["%g" % None] is a TypeError in the code; here it is the text None.) *)
Section Print.
  Variable srepr : dec -> str.
  Definition vtext (v : option val) : str :=
    match v with
    | Some (VNum d) => srepr d
    | Some VInf => lit "inf"
    | Some (VStr s) => s
    | _ => lit "None"
    end.
  Definition gtext (v : option val) : str := match v with Some (VNum d) => fmt_g d | _ => vtext v end.
  Definition ftext (c : string) (f : tfun) : list str :=
    let '(ty, ps) := f in
    let v (l : string) (k : string) := lit l ++ c_eq :: vtext (dget streqb ps (lit k)) in
    let g (k : string) := lit k ++ c_eq :: gtext (dget streqb ps (lit k)) in
    let head := lit "type=" ++ ty in
    if streqb ty (lit "pulse") then
      [head; v (c ++ "1")%string "v1"; v (c ++ "2")%string "v2"; v "td" "td"; v "per" "per"; v "tr" "tr"; v "tf" "tf"; v "pw" "pw"]%string
    else if streqb ty (lit "sin") then
      [head; v (c ++ "o")%string "vo"; v (c ++ "a")%string "va"; v "freq" "freq"; v "theta" "theta"; v "td" "td"]%string
    else if streqb ty (lit "exp") then
      [head; v (c ++ "1")%string "v1"; v (c ++ "2")%string "v2"; v "td1" "td1"; v "td2" "td2"; v "tau1" "tau1"; v "tau2" "tau2"]%string
    else if streqb ty (lit "sffm") then [head; g "vo"; g "va"; g "fc"; g "mdi"; g "fs"; g "td"]%string
    else [head; g "sa"; g "oc"; g "fm"; g "fc"; g "td"]%string.

  Definition opt {A} (o : option A) (f : A -> list str) : list str := match o with Some a => f a | None => [] end.
  (** What [get_netlist_elem_line] shows (the files and lines are at the top): an
      element; a diode has in addition a temperature and the flag OFF, a MOS its type,
      a switch its state. *)
  Inductive shown :=
  | ShElem (e : pelem)
  | ShDiode (id n1 n2 model : str) (area : dec) (t ic : option dec) (off : bool)
  | ShMos (id nd ng ns nb model ty : str) (w l m n : dec)
  | ShSwitch (id n1 n2 s1 s2 model : str) (on : bool).
  (** The pieces between the blanks (a blank at the end of the line is left out). *)
  Definition pieces (s : shown) : list str :=
    match s with
    | ShElem e =>
        match e with
        | PR id n1 n2 v | PC id n1 n2 v _ | PL id n1 n2 v _ => [id; n1; n2; fmt_g v]
        | PK id l1 l2 k _ _ => [id; l1; l2; fmt_g k]
        | PE id n1 n2 s1 s2 v | PG id n1 n2 s1 s2 v => [id; n1; n2; s1; s2; fmt_g v]
        | PH id n1 n2 src v | PF id n1 n2 src v => [id; n1; n2; src; fmt_g v]
        | PV id n1 n2 dc ac f =>
            [id; n1; n2] ++ opt dc (fun d => [lit "type=vdc"; lit "value=" ++ srepr d]) ++
            opt ac (fun d => [lit "vac=" ++ srepr (Z.abs (fst d), snd d)]) ++ opt f (ftext "v")
        | PI id n1 n2 dc ac f =>
            [id; n1; n2] ++ opt dc (fun d => [lit "type=idc"; lit "value=" ++ srepr d]) ++
            opt ac (fun d => [lit "iac=" ++ srepr (Z.abs (fst d), snd d); lit "arg=" ++ (if (fst d <? 0)%Z then lit "3.141592653589793" else lit "0.0")]) ++
            opt f (ftext "i")
        | PD id n1 n2 model _ _ => [id; n1; n2; model]
        | PM id nd ng ns nb model _ _ _ _ => [id; nd; ng; ns; nb; model]
        | PS id n1 n2 s1 s2 model => [id; n1; n2; s1; s2; model]
        end
    | ShDiode id n1 n2 model area t ic off =>
        [id; n1; n2; model; lit "AREA=" ++ fmt_g area] ++ opt t (fun d => [lit "T=" ++ fmt_g d]) ++
        opt ic (fun d => [lit "IC=" ++ fmt_g d]) ++ (if off then [lit "OFF=1"] else [])
    | ShMos id nd ng ns nb model ty w l m n =>
        [id; nd; ng; ns; nb; model; lit "type=" ++ ty; lit "w=" ++ fmt_g w; lit "l=" ++ fmt_g l; lit "m=" ++ fmt_g m; lit "n=" ++ fmt_g n]
    | ShSwitch id n1 n2 s1 s2 model on => [id; n1; n2; s1; s2; model; if on then lit "True" else lit "False"]
    end.
  Definition netlist_line (s : shown) : str := spaced (pieces s).
End Print.
