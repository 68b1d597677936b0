(** Model of the nonlinear devices of a netlist in the operating point analysis: the ports
    of diodes and transistors (ahkab/diode.py 88, 126-133; ahkab/mosq.py 111-112, 139-204;
    ahkab/ekv.py 145-146, 173-182), and the loop on the nonlinear elements, ahkab/
    dc_analysis.py 801-806 and 843-881 ([_update_J_and_Tx]).  The stamps are those of
    Stamp.v and Newton.v, the analysis is that of Simulate.v.

    The equations of a device are functions of the voltages of its drive ports: the
    memory of the models (C24, C89) is not modelled here.  Switches, which have a state, are
    left out. *)
From Coq Require Import Ascii String Reals List Bool Arith ZArith.
From Verif Require Import Base Str Units Netlist Nodes Circuit Rsum Mna Stamp DcSolve Newton Simulate.
Import ListNotations.
Open Scope nat_scope.

Section Devices.
  (** Whether the model of a transistor is a square-law one (mosq.py) or an EKV one
      (ekv.py): the former delivers stamps. *)
  Variable square : pelem -> bool.
  (** The current and the conductances for the voltages of the drive ports: those of the
      stamp, by row and column, or by port. *)
  Variable current : pelem -> list R -> R.
  Variable stamp : pelem -> list R -> nat -> nat -> R.
  Variable conductance : pelem -> list R -> nat -> R.

  (** [get_output_ports]: one port. *)
  Definition out_port (e : pelem) : option (str * str) :=
    match e with
    | PD _ a b _ _ _ => Some (a, b)
    | PM _ nd _ ns _ _ _ _ _ _ => Some (nd, ns)
    | _ => None
    end.
  (** [get_drive_ports]. *)
  Definition drive_ports (e : pelem) : list (str * str) :=
    match e with
    | PD _ a b _ _ _ => [(a, b)]
    | PM _ nd ng ns nb _ _ _ _ _ => if square e then [(nd, ns); (ng, ns); (nb, ns)] else [(nd, nb); (ng, nb); (ns, nb)]
    | _ => []
    end.
  (** [hasattr(elem, 'gstamp')], and the nodes of the stamp in order (diode.py 176-177,
      mosq.py 363-364). *)
  Definition stamp_nodes (e : pelem) : option (list str) :=
    match e with
    | PD _ a b _ _ _ => Some [a; b]
    | PM _ nd ng ns nb _ _ _ _ _ => if square e then Some [nd; ng; ns; nb] else None
    | _ => None
    end.

  Definition number (t : ntab) (n : str) : res nat := ext_node_to_int t (ss n).
  Fixpoint numbers (t : ntab) (l : list str) : res (list nat) :=
    match l with [] => Ok [] | n :: l' => bindr (number t n) (fun i => bindr (numbers t l') (fun r => Ok (i :: r))) end.
  Fixpoint port_numbers (t : ntab) (l : list (str * str)) : res (list (nat * nat)) :=
    match l with
    | [] => Ok []
    | (a, b) :: l' => bindr (number t a) (fun i => bindr (number t b) (fun j => bindr (port_numbers t l') (fun r => Ok ((i, j) :: r))))
    end.

  (** dc_analysis.py 843-881 for one element. *)
  Definition device (t : ntab) (x : vec) (st : mat * vec) (e : pelem) : res (mat * vec) :=
    match out_port e with
    | None => Ok st
    | Some (a, b) =>
        bindr (number t a) (fun n1 => bindr (number t b) (fun n2 =>
        bindr (port_numbers t (drive_ports e)) (fun dports =>
        let v := map (drive_v x) dports in
        match stamp_nodes e with
        | Some l =>
            bindr (numbers t l) (fun ns =>
            bindr (fancy_add_mat (fst st) (gstamp_reduced ns (stamp e v))) (fun J =>
            bindr (fancy_add_vec (snd st) (istamp_reduced n1 n2 (current e v))) (fun T => Ok (J, T))))
        | None => Ok (upd_port x st (mkPort (n1, n2) dports (current e) (conductance e)))
        end)))
    end.

  (** dc_analysis.py 801-806. *)
  Fixpoint device_loop (t : ntab) (x : vec) (parts : list pelem) (st : mat * vec) : res (mat * vec) :=
    match parts with
    | [] => Ok st
    | e :: parts' => bindr (device t x st e) (fun st' => device_loop t x parts' st')
    end.
  Definition devices (t : ntab) (parts : list pelem) (x : vec) : res (mat * vec) := device_loop t x parts (mzero, vzero).
End Devices.
