(** Model of [icmodified_x0], ahkab/ahkab.py 766-778 and ahkab/dc_analysis.py 1126-1190, on the
    circuit that was read from a netlist file (for the analyses of SimulateMain.v). *)
From Coq Require Import Ascii String Reals List Bool Arith ZArith.
From Verif Require Import Base Str Units Netlist Nodes Rsum Ics Mna Simulate SimulateTran SimulateMain.
Import ListNotations.
Open Scope R_scope.

(** The index of a node; every node of an element is registered. *)
Definition place_of (t : ntab) (n : str) : nat := match ext_node_to_int t (ss n) with Ok i => i | Err _ => 0%nat end.
(** What [modify_x0_for_ic] sees of an element: [elem.ic] is the value of "ic=" or None
    (ahkab/netlist_parser.py 405-508 and 687-762). *)
Definition ic_elem (t : ntab) (e : pelem) : icelem :=
  match e with
  | PC _ a b _ ic => ICap (place_of t a) (place_of t b) (option_map dR ic)
  | PD _ a b _ _ ic => IDio (place_of t a) (place_of t b) (option_map dR ic)
  | PL _ _ _ _ ic => IInd (option_map dR ic)
  | PV _ _ _ _ _ _ | PE _ _ _ _ _ _ | PH _ _ _ _ _ => IOther true
  | _ => IOther false
  end.
(** A result that is not found stays None, unless there is something to write in it. *)
Definition writes (e : icelem) : bool :=
  match e with ICap _ _ ic | IDio _ _ ic | IInd ic => match truthy ic with Some _ => true | None => false end | IOther _ => false end.
Definition icmodified (c : list pelem * ntab * list lelem) (r : result) : res result :=
  let '(parts, t, _) := c in
  let l := map (ic_elem t) parts in
  match r with
  | ROp (Some (x, _)) | RVec x => Ok (RVec (modify_x0 (get_nodes_number t) l x))
  | ROp None => if existsb writes l then Err TypeError else Ok (ROp None)
  | _ => Err TypeError
  end.
