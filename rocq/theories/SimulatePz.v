(** Model of the way from a netlist file to the results of a pole-zero analysis: the
    arguments and the matrices, ahkab/pz.py 174-217 (the algorithm is in Pz.v).  The matrix
    MNA is never supplied by the caller, the output port is supplied as a string, as a
    directive does (see Directive.v). *)
From Coq Require Import Ascii String Reals List Bool Arith.
From Verif Require Import Base Str Netlist Nodes Rsum Mna Newton Simulate SimulateNl SimulateAcNl Postproc Pss Pz.
Import ListNotations.
Open Scope nat_scope.

(** pz.py 178-183 and 186-188: the first label, without its first character, in lower
    case; [None[1:]] is a TypeError. *)
Definition label_nodes (l : lab) : res (str * str) :=
  match l with
  | Two _ None => Err TypeError
  | Two a (Some b) => Ok (slower (tl a), slower (tl b))
  | One a => Ok (slower (tl a), lit "0")
  end.
Definition output_nodes (s : str) : res (str * str) :=
  bindr (split_label s) (fun l => match l with [] => Err IndexError | x :: _ => label_nodes x end).
Definition output_numbers (t : ntab) (s : str) : res (nat * nat) :=
  bindr (output_nodes s) (fun '(a, b) => bindr (number t a) (fun i => bindr (number t b) (fun j => Ok (i, j)))).

Section PzRun.
  (** The devices, as in SimulateNl.v. *)
  Variable square : pelem -> bool.
  Variable current : pelem -> list R -> R.
  Variable stamp : pelem -> list R -> nat -> nat -> R.
  Variable conductance : pelem -> list R -> nat -> R.
  (** numpy, as in Pz.v. *)
  Variable inv : mat -> option mat.
  Variable nonsing : nat -> mat -> bool.
  Variable eigvals : nat -> mat -> list cx.
  Variables (pz_max cmin : R).

  (** pz.py 200-216: the matrix, with the derivatives of the devices at [x0], or at zero. *)
  Definition pz_matrix (parts : list pelem) (t : ntab) (es : list lelem) (x0 : option vec) : res mat :=
    bindr (generate_mna_and_N (get_nodes_number t) es) (fun mn =>
    if nonlinear es
    then bindr (devices_J square current stamp conductance t parts (match x0 with Some x => x | None => vzero end)) (fun J => Ok (mplus (reduce_mat (fst mn)) J))
    else Ok (reduce_mat (fst mn))).

  (** pz.py 174-343.  The source is looked for before the matrices are made in the code: the
      order is that of the errors only.  [None] when the recursion does not end. *)
  Definition pz_analysis (parts : list pelem) (t : ntab) (es : list lelem) (input output : option str) (x0 : option vec) (fuel : nat) (u : nat -> R) (shift : R)
      : option pzout :=
    let run io :=
      match pz_matrix parts t es x0 with
      | Err e => Some (PErr e)
      | Ok M => calculate_singularities inv nonsing eigvals pz_max cmin (get_nodes_number t) es M io fuel u shift
      end in
    match input, output with
    | Some i, Some o =>
        match output_numbers t o with
        | Err e => Some (PErr e)
        | Ok p => run (Some (ss i, p))
        end
    | _, _ => run None
    end.
End PzRun.
