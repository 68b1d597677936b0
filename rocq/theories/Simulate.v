(** Model of the way from a netlist file to the reported operating point:
    ahkab/netlist_parser.py 143-275 ([parse_circuit]), the [add_node] calls and the
    constructors at the end of the [parse_elem_*] functions (390-400, 434-442, 474-481,
    515-537, 615-627, 699-711, 768-776, 842-861, 888-897, 931-939, 973-982, 1014-1022,
    1054-1071), ahkab/ahkab.py 917-930 ([main] up to [check_circuit]),
    ahkab/dc_analysis.py 575-687 ([op_analysis], see Newton.v) and the names of the
    results, ahkab/results.py 262-312.

    The parts are modelled elsewhere (Reader.v, ModelLines.v, Netlist.v, Nodes.v, Mna.v,
    Newton.v, Session.v, Results.v); here they are put together. *)
From Coq Require Import Ascii String Reals List Bool Arith ZArith.
From Verif Require Import Base Str Units Directive Reader Netlist ModelLines Nodes Circuit Rsum Mna DcSolve Newton Csv Results Session.
Import ListNotations.
Open Scope nat_scope.

Definition ss (s : str) : string := string_of_list_ascii s.
(** The number that a decimal stands for. *)
Definition dR (d : Units.dec) : R := (IZR (fst d) * powerRZ 10 (snd d))%R.

(** [circ.add_node(ext_n)]. *)
Definition node (t : ntab) (s : str) : res (ntab * nat) :=
  let r := add_node t (Text (ss s)) in bindr (snd r) (fun i => Ok (fst r, i)).
Definition nodes2 (t : ntab) (a b : str) : res (ntab * (nat * nat)) :=
  bindr (node t a) (fun '(t, i) => bindr (node t b) (fun '(t, j) => Ok (t, (i, j)))).

(** The nodes of an element are registered in the order in which they are written, then
    the constructor is called.  A source with a time function is time-dependent; its DC
    value, if any, is stored too.  A diode, a switch or a transistor is opaque here: two
    of its terminals are kept. *)
Definition dc_part (dc : option Units.dec) : R := match dc with Some d => dR d | None => 0%R end.
Definition timed (f : option tfun) : bool := match f with Some _ => true | None => false end.
Definition place (t : ntab) (e : pelem) : res (ntab * lelem) :=
  match e with
  | PR id n1 n2 v => bindr (nodes2 t n1 n2) (fun '(t, (i, j)) => Ok (t, ER (ss id) i j (dR v)))
  | PC id n1 n2 v _ => bindr (nodes2 t n1 n2) (fun '(t, (i, j)) => Ok (t, EC (ss id) i j (dR v)))
  | PL id n1 n2 v _ => bindr (nodes2 t n1 n2) (fun '(t, (i, j)) => Ok (t, EL (ss id) i j (dR v)))
  | PK id l1 l2 k v1 v2 => Ok (t, EK (ss id) (ss l1) (ss l2) (dR k) (mutual (dR v1) (dR v2) (dR k)))
  | PV id n1 n2 dc _ f => bindr (nodes2 t n1 n2) (fun '(t, (i, j)) => Ok (t, EV (ss id) i j (dc_part dc) (timed f)))
  | PI id n1 n2 dc _ f => bindr (nodes2 t n1 n2) (fun '(t, (i, j)) => Ok (t, EI (ss id) i j (dc_part dc) (timed f)))
  | PE id n1 n2 s1 s2 v =>
      bindr (nodes2 t n1 n2) (fun '(t, (i, j)) => bindr (nodes2 t s1 s2) (fun '(t, (k, l)) => Ok (t, EE (ss id) i j k l (dR v))))
  | PG id n1 n2 s1 s2 v =>
      bindr (nodes2 t n1 n2) (fun '(t, (i, j)) => bindr (nodes2 t s1 s2) (fun '(t, (k, l)) => Ok (t, EG (ss id) i j k l (dR v))))
  | PH id n1 n2 src v => bindr (nodes2 t n1 n2) (fun '(t, (i, j)) => Ok (t, EH (ss id) i j (ss src) (dR v)))
  | PF id n1 n2 src v => bindr (nodes2 t n1 n2) (fun '(t, (i, j)) => Ok (t, EF (ss id) i j (ss src) (dR v)))
  | PD id n1 n2 _ _ _ => bindr (nodes2 t n1 n2) (fun '(t, (i, j)) => Ok (t, ENL (ss id) i j))
  | PM id nd ng ns nb _ _ _ _ _ =>
      bindr (nodes2 t nd ng) (fun '(t, (i, _)) => bindr (nodes2 t ns nb) (fun '(t, (k, _)) => Ok (t, ENL (ss id) i k)))
  | PS id n1 n2 s1 s2 _ =>
      bindr (nodes2 t n1 n2) (fun '(t, (i, j)) => bindr (nodes2 t s1 s2) (fun '(t, _) => Ok (t, ENL (ss id) i j)))
  end.

(** In the code every element is built when its line is parsed; a line that cannot be
    parsed ends everything, so it makes no difference to build them all afterwards. *)
Fixpoint place_all (t : ntab) (parts : list pelem) : res (ntab * list lelem) :=
  match parts with
  | [] => Ok (t, [])
  | e :: parts' => bindr (place t e) (fun '(t, l) => bindr (place_all t parts') (fun '(t, ls) => Ok (t, l :: ls)))
  end.

Section Load.
  Variable fs : str -> option (list str).
  (** Subcircuit instances and user-defined elements (SimulateSub.v, PropsSetup.v). *)
  Variable other : str -> res (list pelem).

  (** [parse_circuit] without the subcircuits (those are in SimulateSub.v), then [check_circuit] (sys.exit(3)). *)
  Definition load (fuel : nat) (filename : str) : res (list pelem * ntab * list lelem) :=
    bindr (read_netlist fs fuel filename) (fun s =>
    bindr (parse_models (map fst (r_models s)) []) (fun models =>
    bindr (main_netlist_parser (map (fun m => (fst m, fst (snd m))) models) other (map fst (r_lines s)) []) (fun parts =>
    bindr (place_all empty_ntab parts) (fun '(t, es) =>
    if fst (check_circuit (mkCirc (map as_celem es) t [])) then Ok (parts, t, es) else Err SystemExit)))).
End Load.

(** [part_id], the first word of the line. *)
Definition pid (e : pelem) : str :=
  match e with
  | PR id _ _ _ | PC id _ _ _ _ | PL id _ _ _ _ | PK id _ _ _ _ _ | PV id _ _ _ _ _ | PI id _ _ _ _ _ | PD id _ _ _ _ _ | PM id _ _ _ _ _ _ _ _ _
  | PE id _ _ _ _ _ | PG id _ _ _ _ _ | PH id _ _ _ _ | PF id _ _ _ _ | PS id _ _ _ _ _ => id
  end.

(** The external names of the nodes 1, 2, ..., ahkab/results.py 278-279. *)
Fixpoint names_of (t : ntab) (l : list nat) : res (list str) :=
  match l with
  | [] => Ok []
  | i :: l' => bindr (int_node_to_ext t i) (fun s => bindr (names_of t l') (fun r => Ok (list_ascii_of_string s :: r)))
  end.

Section Op.
  (** The solver of linear systems of a given size; the device equations; the convergence
      check; the ports of the nonlinear elements. *)
  Variable solve : nat -> mat -> vec -> option vec.
  Variable JT : vec -> mat * vec.
  Variable check : vec -> vec -> vec -> bool.
  Variable locked : list lelem -> list (nat * nat).
  Variables (o : dopts) (tdo : tdopts) (maxit fuel : nat) (gmin : R).
  (** The DC value of the sources with a time function, by name. *)
  Variable at0 : str -> R.

  (** [circ.is_nonlinear()]; the locked nodes are ports of nonlinear elements. *)
  Definition nonlinear (es : list lelem) : bool := existsb (fun e => match e with ENL _ _ _ => true | _ => false end) es.
  Definition ports (es : list lelem) : list (nat * nat) := if nonlinear es then locked es else [].
  Definition op_size (t : ntab) (es : list lelem) : nat := get_nodes_number t + n_vde es - 1.
  Definition op_newton (t : ntab) (es : list lelem) (i : nat) (A : mat) (b x : vec) : nout vec :=
    let size := op_size t es in
    mdn_solver size (solve size) (nonlinear es) JT (fun dx it => get_td tdo size dx (ports es) (Some it)) check maxit A b (Some (size, x)).

  (** What [op_analysis] returns; [x0] is the starting point. *)
  Definition op_run (t : ntab) (es : list lelem) (x0 : vec) : res (option (vec * bool)) :=
    op_analysis o (op_newton t es) gmin (fun e => at0 (list_ascii_of_string (lid e))) (get_nodes_number t) es fuel x0.

  (** [results[name]]. *)
  Definition op_report (t : ntab) (es : list lelem) (x : vec) (name : str) : res R :=
    bindr (names_of t (seq 1 (get_nodes_number t - 1))) (fun nodes =>
    op_getitem 0%R (op_vars nodes (map (fun e => list_ascii_of_string (lid e)) (filter is_vde es))) (map x (seq 0 (op_size t es))) name).
End Op.
