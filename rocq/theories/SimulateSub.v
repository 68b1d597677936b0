(** Model of the way from a netlist file with subcircuits to the elements:
    ahkab/netlist_parser.py 1699-1723 ([parse_sub_declaration]), 1726-1791
    ([parse_sub_instance]), 257-275 ([parse_circuit], the table of the subcircuits) and
    ahkab/circuit.py 1214-1272 ([_circuit_wrapper]).

    The names of the prefixes and of the filter are those of Subckt.v; there the lines are
    given parsed and the elements are reduced to their connections, here the text is read
    and the elements are complete. *)
From Coq Require Import Ascii String List Bool Arith ZArith.
From Verif Require Import Base Str Units Directive Reader Netlist ModelLines Nodes Circuit Mna Session Subckt Simulate.
Import ListNotations.
Open Scope nat_scope.

(** The element of a line parsed with the wrapper as circuit: [f] is its [add_node], up to
    the table of the circuit; then [element.part_id = ...].  The names of other elements
    (F, H and K lines) stay as they are. *)
Definition ren (f g : str -> str) (e : pelem) : pelem :=
  match e with
  | PR id a b v => PR (g id) (f a) (f b) v
  | PC id a b v ic => PC (g id) (f a) (f b) v ic
  | PL id a b v ic => PL (g id) (f a) (f b) v ic
  | PK id l1 l2 k v1 v2 => PK (g id) l1 l2 k v1 v2
  | PV id a b dc ac w => PV (g id) (f a) (f b) dc ac w
  | PI id a b dc ac w => PI (g id) (f a) (f b) dc ac w
  | PD id a b m area ic => PD (g id) (f a) (f b) m area ic
  | PM id a b c d m w l mm n => PM (g id) (f a) (f b) (f c) (f d) m w l mm n
  | PE id a b c d v => PE (g id) (f a) (f b) (f c) (f d) v
  | PG id a b c d v => PG (g id) (f a) (f b) (f c) (f d) v
  | PH id a b s v => PH (g id) (f a) (f b) s v
  | PF id a b s v => PF (g id) (f a) (f b) s v
  | PS id a b c d m => PS (g id) (f a) (f b) (f c) (f d) m
  end.

(** [circuit.subckt], 1193-1211: the ports and the code. *)
Record stext := mkText { st_ports : list str; st_code : list str }.

(** netlist_parser.py 1711-1718; the names begin with a character, they come from [split]. *)
Fixpoint sub_ports (toks : list str) : res (list str) :=
  match toks with
  | [] => Ok []
  | t :: ts => if first_is "0"%char t then Err NetlistParseError else if starred t then Ok [] else bindr (sub_ports ts) (fun r => Ok (t :: r))
  end.
(** 1699-1723. *)
Definition parse_sub_declaration (lines : list str) : res (str * stext) :=
  match lines with
  | [] => Err UnboundLocal
  | l :: code =>
      match split l with
      | [] => Err IndexError
      | w :: ws =>
          if negb (streqb w (lit ".subckt")) then Err RuntimeError
          else match ws with
               | [] => Err IndexError
               | name :: nodes => bindr (sub_ports nodes) (fun ports => Ok (name, mkText ports code))
               end
      end
  end.
(** 262-271. *)
Fixpoint parse_subs (l : list (list str)) (subs : list (str * stext)) : res (list (str * stext)) :=
  match l with
  | [] => Ok subs
  | lines :: l' =>
      bindr (parse_sub_declaration lines) (fun '(name, s) =>
      match dget streqb subs name with
      | Some _ => Err NetlistParseError
      | None => parse_subs l' (dset streqb subs name s)
      end)
  end.

(** 1642-1645 with [rtype=str]. *)
Definition param_text (tok : str) : str * str :=
  if is_valid_value_param_string tok then let '(l, v) := span (fun c => negb (is_eq c)) tok in (l, tl v) else (tok, []).
(** 1744-1750. *)
Fixpoint inst_params (toks : list str) (d : list (str * str)) : list (str * str) :=
  match toks with
  | [] => d
  | t :: ts => if starred t then d else inst_params ts (dset streqb d (fst (param_text t)) (snd (param_text t)))
  end.

Section Sub.
  Variable models : list (str * mtype).
  (** User-defined elements. *)
  Variable user : str -> res (list pelem).
  Variable subs : list (str * stext).

  (** 1785-1789; the ids are not empty. *)
  Definition new_id (pre id : str) : str := match id with [] => [] | c :: r => c :: dash :: pre ++ r end.

  (** 1726-1791 for a line that begins with x; a line that begins with y is given to
      [user].  The fuel is the depth of the recursion. *)
  Fixpoint sub_line (fuel : nat) (line : str) : res (list pelem) :=
    match fuel with
    | 0 => Err OutOfFuel
    | S fuel =>
        if negb (first_is "x"%char line) then user line
        else
          match split line with
          | label :: ((_ :: _) as words) =>
              let params := inst_params words [] in
              match dget streqb params (lit "name") with
              | None => Err NetlistParseError
              | Some name =>
                  match dget streqb subs name with
                  | None => Err NetlistParseError
                  | Some s =>
                      let conn := filter (fun p => negb (streqb (fst p) (lit "name"))) params in
                      if negb (forallb (fun p => mem (fst p) (st_ports s)) conn) then Err NetlistParseError
                      else if negb (forallb (fun n => mem n (map fst conn)) (st_ports s)) then Err NetlistParseError
                      else
                        let pre := prefix label name in
                        bindr (main_netlist_parser models (sub_line fuel) (st_code s) []) (fun l =>
                        Ok (map (ren (local_name pre conn) (new_id pre)) l))
                  end
              end
          | _ => Err NetlistParseError
          end
    end.
End Sub.

(** [parse_circuit], then [check_circuit], as [load] of Simulate.v. *)
Definition load_all (fs : str -> option (list str)) (user : str -> res (list pelem)) (depth fuel : nat) (filename : str) : res (list pelem * ntab * list lelem) :=
  bindr (read_netlist fs fuel filename) (fun s =>
  bindr (parse_models (map fst (r_models s)) []) (fun models =>
  bindr (parse_subs (map (map fst) (r_subs s)) []) (fun subs =>
  let kinds := map (fun m => (fst m, fst (snd m))) models in
  bindr (main_netlist_parser kinds (sub_line kinds user subs depth) (map fst (r_lines s)) []) (fun parts =>
  bindr (place_all empty_ntab parts) (fun '(t, es) =>
  if fst (check_circuit (mkCirc (map as_celem es) t [])) then Ok (parts, t, es) else Err SystemExit))))).
