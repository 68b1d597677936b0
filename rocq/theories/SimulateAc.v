(** Model of the way from a netlist file to the results of an AC analysis: the AC values
    of the sources as the parser and the constructors store them
    (ahkab/netlist_parser.py 604-605, 620-621, 690-691, 704-705, ahkab/components/sources/VSource.py 50-56,
    ISource.py 49-53), ahkab/ac.py 146-298 ([ac_analysis], see Ac.v) and the table of
    results, ahkab/results.py 575-624 and 666-685.

    Linear circuits only (no nonlinear ports). *)
From Coq Require Import Ascii String Reals List Bool Arith ZArith.
From Verif Require Import Base Str Units Netlist Nodes Rsum Mna DcSolve Ac Csv Results Simulate.
Import ListNotations.
Open Scope nat_scope.

(** [np.abs] and [np.angle] of a real number. *)
Definition polar (a : R) : R * R := (Rabs a, if Rlt_dec a 0 then Rtrigo1.PI else 0%R).

(** [abs_ac] and [arg_ac] of the element built from a line; the parser has dropped the
    values that are zero ([Netlist.ac_of]). *)
Definition ac_field (e : pelem) : option (R * R) :=
  match e with
  | PV _ _ _ _ (Some d) _ | PI _ _ _ _ (Some d) _ => Some (polar (dR d))
  | _ => None
  end.
(** The attribute, looked up by the id of the element. *)
Definition ac_ph (parts : list pelem) : phasors := fun l =>
  match find (fun e => String.eqb (ss (pid e)) (lid l)) parts with Some e => ac_field e | None => None end.

Section AcRun.
  Variable csolve : cmat -> cvec -> option cvec.
  Variables (o : dopts) (damp_first : bool) (maxit fuel : nat) (cmin gmin : R).

  (** What [ac_analysis] computes: frequency and solution, point by point. *)
  Definition ac_run (parts : list pelem) (t : ntab) (es : list lelem) (start stop points : R) (stype : option string) (x0 : option vec)
    : res (option (list (R * cvec))) :=
    ac_analysis o damp_first maxit fuel csolve cmin gmin (get_nodes_number t) es [] (ac_ph parts) (Ok None) start stop points stype x0.
End AcRun.

Section AcTable.
  (** [numpy.angle] and [options.ac_phase_in_deg]. *)
  Variables (angle : R * R -> R) (deg : bool).

  (** ahkab/results.py 616-626 [add_line]: one sample of each column. *)
  Definition ac_line (size : nat) (r : R * cvec) : nat * list (list R) :=
    (1, [fst r] :: flat_map (fun i => let s := ac_store angle deg (fst (snd r) i, snd (snd r) i) in [[fst s]; [snd s]]) (seq 0 size)).
  (** The data file; the first line is written with the headers. *)
  Definition ac_file (headers : list str) (size : nat) (rows : list (R * cvec)) : list (line R) :=
    snd (fold_left (fun (s : bool * list (line R)) r => let b := ac_line size r in
      (true, write_csv 0%R (snd s) (fst b) (snd b) headers (fst s))) rows (false, [])).
  (** [results[name]], ahkab/results.py 666-685. *)
  Definition ac_value_of (v : acval R) : list (R * R) :=
    match v with AcReal l => map (fun a => (a, 0%R)) l | AcPolar m p => map ac_read (combine m p) end.
  Definition ac_report (t : ntab) (es : list lelem) (rows : list (R * cvec)) (name : str) : res (list (R * R)) :=
    bindr (names_of t (seq 1 (get_nodes_number t - 1))) (fun nodes =>
    bindr (ac_getitem 0%R (ac_file (ac_headers nodes (map (fun e => list_ascii_of_string (lid e)) (filter is_vde es))) (op_size t es) rows) name) (fun v =>
    Ok (ac_value_of v))).
End AcTable.
