(** Model of the periodic steady state analysis as [main] runs it: the arguments of the
    directive as keyword arguments of [pss_analysis], ahkab/ahkab.py 703-719 and 857-863,
    ahkab/pss.py 81-112.  There is no starting point in a .pss line.  The argument
    [autonomous] is passed on by [pss_analysis], ahkab/pss.py 104-112, and neither
    ahkab/shooting.py nor ahkab/bfpss.py looks at it. *)
From Coq Require Import Ascii String Reals List Bool Arith ZArith.
From Verif Require Import Base Str Units Directive Netlist Nodes Rsum Mna DcSolve Newton Df Tran Simulate SimulateMain SimulatePss.
Import ListNotations.
Open Scope nat_scope.

(** A number that is a natural number. *)
Definition dnat (d : dec) : option nat :=
  let '(m, e) := d in
  if (m <? 0)%Z then None
  else if (0 <=? e)%Z then Some (Z.to_nat (m * 10 ^ e))
  else if (m mod 10 ^ (- e) =? 0)%Z then Some (Z.to_nat (m / 10 ^ (- e))) else None.

(** A keyword argument that is a number or None. *)
Definition opt_num (an : list (str * val)) (key : string) : res (option R) :=
  match dget streqb an (lit key) with
  | Some (VNum d) => Ok (Some (dR d))
  | Some VNone | None => Ok None
  | Some _ => Err TypeError
  end.

Section PssMain.
  Variable solve : nat -> mat -> vec -> option vec.
  Variable msolve : nat -> mat -> mat -> option mat.
  Variable minv : nat -> mat -> option mat.
  Variable square : pelem -> bool.
  Variable current : pelem -> list R -> R.
  Variable conductance : pelem -> list R -> nat -> R.
  Variable locked : list lelem -> list (nat * nat).
  Variables (tdo : tdopts) (tol : tols) (cmin : R).
  Variable at_time : str -> R -> R.
  Variables (bf_default limit bf_iter : nat).
  Variable JT : vec -> mat * vec.
  Variable check : vec -> vec -> vec -> bool.
  Variables (o : dopts) (maxit fuel : nat) (topt : topts) (gmin : R).
  Variable inv : mat -> mat.
  Variable modules : string -> dfm.
  Variable has_module : string -> bool.
  Variables (rounds sh_default sh_iter : nat).
  (** The analyses that are still not modelled, and numbers of points that are negative or
      have decimals. *)
  Variable others : list pelem * ntab * list lelem -> str -> list (str * val) -> option result -> res result.

  Definition pss_rest (c : list pelem * ntab * list lelem) (ty : str) (an : list (str * val)) (x0 : option result) : res result :=
    let '(parts, t, es) := c in
    if streqb ty (lit "pss") then
      bindr (num an "period") (fun period =>
      bindr (opt_num an "step") (fun step =>
      bindr (txt an "method") (fun method =>
      bindr (start_of x0) (fun x =>
      match dget streqb an (lit "points") with
      | Some (VNum d) =>
          match dnat d with
          | Some n =>
              bindr (pss_analysis solve msolve minv square current conductance locked tdo tol cmin at_time bf_default limit bf_iter JT check o maxit fuel topt gmin inv modules
                      has_module rounds sh_default sh_iter (ss method) t parts es period step (Some n) x) (fun r => Ok (RPss r))
          | None => others c ty an x0
          end
      | _ => Err TypeError
      end))))
    else others c ty an x0.
End PssMain.
