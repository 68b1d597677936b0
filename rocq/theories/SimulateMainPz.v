(** Model of the pole-zero analysis as [main] runs it: the arguments of the directive as
    keyword arguments of [calculate_singularities], ahkab/ahkab.py 703-719 and 857-863,
    ahkab/pz.py 135-136.  The starting point is the text "op", replaced by [run]. *)
From Coq Require Import Ascii String Reals List Bool Arith ZArith.
From Verif Require Import Base Str Units Directive Netlist Nodes Rsum Mna Simulate SimulateMain Pz SimulatePz.
Import ListNotations.
Open Scope nat_scope.

(** A keyword argument that is a text or None. *)
Definition opt_txt (an : list (str * val)) (key : string) : option str :=
  match dget streqb an (lit key) with Some (VStr s) => Some s | _ => None end.

Section PzMain.
  Variable square : pelem -> bool.
  Variable current : pelem -> list R -> R.
  Variable stamp : pelem -> list R -> nat -> nat -> R.
  Variable conductance : pelem -> list R -> nat -> R.
  Variable inv : mat -> option mat.
  Variable nonsing : nat -> mat -> bool.
  Variable eigvals : nat -> mat -> list cx.
  Variables (pz_max cmin : R).
  (** The depth of the recursion and the random numbers of new shifts, as in Pz.v. *)
  Variables (calls : nat) (u : nat -> R).
  (** The analyses that are still not modelled. *)
  Variable others : list pelem * ntab * list lelem -> str -> list (str * val) -> option result -> res result.

  (** [isinstance(x0, op_solution)]: its vector; None: zero (pz.py 203-212).  A matrix that
      has no inverse is a LinAlgError, which nothing catches. *)
  Definition pz_rest (c : list pelem * ntab * list lelem) (ty : str) (an : list (str * val)) (x0 : option result) : res result :=
    let '(parts, t, es) := c in
    if streqb ty (lit "pz") then
      bindr (num an "shift") (fun shift =>
      bindr (start_of x0) (fun x =>
      match pz_analysis square current stamp conductance inv nonsing eigvals pz_max cmin parts t es (opt_txt an "input_source") (opt_txt an "output_port") x calls u shift with
      | Some (PDone poles zeros) => Ok (RPz poles zeros)
      | Some (PErr e) => Err e
      | Some _ => Err ValueError
      | None => Err OutOfFuel
      end))
    else others c ty an x0.
End PzMain.
