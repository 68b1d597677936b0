(** Model of the AC analysis of a circuit with devices as [main] runs it: the arguments of
    the directive as keyword arguments of [ac_analysis], ahkab/ahkab.py 703-719 and 857-863,
    ahkab/ac.py 143-145.  There is no starting point in an .ac line, so that the operating
    point is computed on the spot, ahkab/ac.py 231-241, by [op_analysis] with its default
    arguments. *)
From Coq Require Import Ascii String Reals List Bool Arith ZArith.
From Verif Require Import Base Str Units Directive Netlist Nodes Rsum Mna DcSolve Newton Ac Session Simulate SimulateAc SimulateNl SimulateAcNl SimulateMain.
Import ListNotations.
Open Scope nat_scope.

Section AcMain.
  Variable solve : nat -> mat -> vec -> option vec.
  Variable csolve : cmat -> cvec -> option cvec.
  Variable JT : vec -> mat * vec.
  Variable check : vec -> vec -> vec -> bool.
  Variable locked : list lelem -> list (nat * nat).
  Variables (o : dopts) (tdo : tdopts) (damp_first : bool) (maxit acit fuel : nat) (cmin gmin : R).
  Variable at_time : str -> R -> R.
  Variable guess : list lelem -> vec.
  Variable settings : Session.opts.
  Variables (square : pelem -> bool) (current : pelem -> list R -> R) (stamp : pelem -> list R -> nat -> nat -> R) (conductance : pelem -> list R -> nat -> R).
  (** The analyses that are still not modelled. *)
  Variable others : list pelem * ntab * list lelem -> str -> list (str * val) -> option result -> res result.

  Definition ac_rest (c : list pelem * ntab * list lelem) (ty : str) (an : list (str * val)) (x0 : option result) : res result :=
    let '(parts, t, es) := c in
    if streqb ty (lit "ac") then
      bindr (num an "start") (fun a => bindr (num an "stop") (fun b => bindr (num an "points") (fun n => bindr (txt an "sweep_type") (fun st =>
      bindr (start_of x0) (fun x =>
      bindr (ac_nl_run square current stamp conductance csolve o damp_first acit fuel cmin gmin parts t es
              (op_point (op_run solve JT check locked o tdo maxit fuel gmin (at_dc at_time) t es (if op_guess settings true then guess es else vzero)))
              a b n (Some (ss st)) x) (fun r => Ok (RAc r)))))))
    else others c ty an x0.
End AcMain.
