(** Model of the expansion of subcircuits: ahkab/netlist_parser.py 1729-1791
    [parse_sub_instance], 278-316 [main_netlist_parser] and ahkab/circuit.py
    1214-1272 [_circuit_wrapper].

    The lines are given parsed: an element with its id, the names of its nodes
    and the names of the elements it refers to (F, H and K lines); an instance
    with its label, the subcircuit and the connections.  What is computed is
    the id, the names given to [Circuit.add_node] at the top and the references
    of each element.  Element values and models do not take part. *)
From Coq Require Import Ascii String List Bool Arith.
From Verif Require Import Base Str.
Import ListNotations.

Inductive item :=
| Elem (id : str) (nodes : list str) (refs : list str)
| Inst (label sub : str) (params : list (str * str)).

(** ahkab/circuit.py 1193-1211 [subckt]. *)
Record subckt := mkSub { sk_ports : list str; sk_code : list item }.

Record flat := mkFlat { f_id : str; f_nodes : list str; f_refs : list str }.

Definition dash : ascii := "-"%char.
Definition gnd : str := lit "0".

(** ahkab/circuit.py 1246-1250. *)
Definition prefix (label sub : str) : str := label ++ dash :: sub ++ [dash].

(** ahkab/circuit.py 1251-1253, 1264-1270: the filter dictionary; the entry that
    [add_node] adds for a local node only repeats the computation. *)
Definition filter_dict (conn : list (str * str)) : list (str * str) := dset streqb conn gnd gnd.
Definition local_name (pre : str) (conn : list (str * str)) (n : str) : str :=
  match dget streqb (filter_dict conn) n with Some m => m | None => pre ++ n end.

Definition mem (x : str) (l : list str) : bool := existsb (streqb x) l.

(** ahkab/netlist_parser.py 1785-1789. *)
Definition rename_id (pre id : str) : res str :=
  match id with
  | [] => Err IndexError
  | c :: r => Ok (c :: dash :: pre ++ r)
  end.

Fixpoint rename_all (pre : str) (l : list flat) : res (list flat) :=
  match l with
  | [] => Ok []
  | e :: l' =>
      bindr (rename_id pre (f_id e)) (fun i =>
      bindr (rename_all pre l') (fun r => Ok (mkFlat i (f_nodes e) (f_refs e) :: r)))
  end.

(** [add] is the [add_node] of the circuit or wrapper; [fuel] is the depth of
    nesting (a subcircuit that contains itself exhausts Python's stack). *)
Fixpoint expand (fuel : nat) (subs : list (str * subckt)) (add : str -> str) (code : list item) {struct fuel}
  : res (list flat) :=
  match fuel with
  | O => Err OutOfFuel
  | S fuel' =>
      (fix go (code : list item) : res (list flat) :=
         match code with
         | [] => Ok []
         | it :: code' =>
             bindr
               (match it with
                | Elem id nodes refs => Ok [mkFlat id (map add nodes) refs]
                | Inst label sub params =>
                    match dget streqb subs sub with
                    | None => Err NetlistParseError
                    | Some s =>
                        if negb (forallb (fun p => mem (fst p) (sk_ports s)) params) then Err NetlistParseError
                        else if negb (forallb (fun p => mem p (map fst params)) (sk_ports s)) then Err NetlistParseError
                        else
                          let pre := prefix label sub in
                          bindr (expand fuel' subs (fun n => add (local_name pre params n)) (sk_code s))
                                (rename_all pre)
                    end
                end)
               (fun l => bindr (go code') (fun r => Ok (l ++ r)))
         end) code
  end.
