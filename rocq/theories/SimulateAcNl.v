(** Model of the way from a netlist with diodes and transistors to the results of an AC
    analysis: the linearization in ahkab/ac.py 226-260 and 436-443 ([_generate_J]), with
    the loop on the devices of SimulateNl.v; the rest of ahkab/ac.py 146-298 is that of Ac.v,
    the table of results that of SimulateAc.v.

    The matrix J is never supplied by the caller. *)
From Coq Require Import Ascii String Reals List Bool Arith ZArith.
From Verif Require Import Base Str Units Netlist Nodes Rsum Mna DcSolve Newton Diode Mosq Ac Simulate SimulateAc SimulateNl.
Import ListNotations.
Open Scope nat_scope.

Section AcNl.
  (** The devices, see SimulateNl.v. *)
  Variables (square : pelem -> bool) (current : pelem -> list R -> R) (stamp : pelem -> list R -> nat -> nat -> R) (conductance : pelem -> list R -> nat -> R).
  Variable csolve : cmat -> cvec -> option cvec.
  Variables (o : dopts) (damp_first : bool) (maxit fuel : nat) (cmin gmin : R).

  (** ac.py 436-443 [_generate_J]: the currents go to a vector that is dropped. *)
  Definition devices_J (t : ntab) (parts : list pelem) (xop : vec) : res mat :=
    bindr (devices square current stamp conductance t parts xop) (fun JT => Ok (fst JT)).

  (** ac.py 196-298; [op] is the operating point analysis, [x0] the operating point
      supplied by the caller. *)
  Definition ac_nl_run (parts : list pelem) (t : ntab) (es : list lelem) (op : res (option vec)) (start stop points : R) (stype : option string) (x0 : option vec)
    : res (option (list (R * cvec))) :=
    let nv := get_nodes_number t in
    bindr (omegas fuel start stop points stype) (fun ws =>
    bindr (generate_mna_and_N nv es) (fun mn =>
    bindr (generate_AC cmin nv es) (fun AC =>
    let Nac := generate_Nac nv (ac_ph parts) es in
    let run J x :=
      match ws with
      | [] => Err UnboundLocal
      | _ => ac_points o damp_first maxit fuel csolve (op_size t es) (reduce_mat (fst mn)) (reduce_mat AC) J (build_gmin_matrix nv gmin)
               (reduce_vec (fst Nac), reduce_vec (snd Nac)) ws (x, vzero) []
      end in
    if nonlinear es then
      bindr (match x0 with Some x => Ok x | None => bindr op (fun r => match r with None => Err RuntimeError | Some x => Ok x end) end) (fun x =>
      bindr (devices_J t parts x) (fun J => run J x))
    else run mzero (match x0 with Some x => x | None => vzero end)))).
End AcNl.

(** ac.py 236: [dc_analysis.op_analysis(circ, verbose=0)]. *)
Definition op_point (r : res (option (vec * bool))) : res (option vec) := bindr r (fun q => Ok (option_map fst q)).

(** ** The devices of the simulator *)
Section Devices.
  (** [options.iea] and [options.gmin]; current and conductance of a diode, and the models and
      the sizes of the transistors, all of them square-law ones. *)
  Variables (iea gmin : R) (diode_i diode_g : pelem -> R -> R) (model_of : pelem -> qmodel) (size_of : pelem -> qdev).

  Definition bias3 (v : list R) : Mosq.bias := (nth 0 v 0%R, nth 1 v 0%R, nth 2 v 0%R).

  (** diode.py 149-162, mosq.py 233-243. *)
  Definition real_current (e : pelem) (v : list R) : R :=
    match e with
    | PD _ _ _ _ _ _ => diode_i e (nth 0 v 0%R)
    | PM _ _ _ _ _ _ _ _ _ _ => terminal_i iea (model_of e) (size_of e) (bias3 v)
    | _ => 0%R
    end.
  (** diode.py 176-182, mosq.py 363-382. *)
  Definition real_stamp (e : pelem) (v : list R) (i j : nat) : R :=
    match e with
    | PD _ _ _ _ _ _ => let g := stamp_gm gmin (diode_g e (nth 0 v 0%R)) in if i =? j then g else (- g)%R
    | PM _ _ _ _ _ _ _ _ _ _ => gstamp iea gmin (model_of e) (size_of e) (bias3 v) i j
    | _ => 0%R
    end.
End Devices.
