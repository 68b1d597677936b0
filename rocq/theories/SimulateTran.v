(** Model of the way from a netlist file to the results of a transient analysis:
    ahkab/transient.py 121-428 ([transient_analysis], the loop is in Tran.v, the choice of
    the method in Session.v), the call of [dc_solve] in each round (340-349), and the table
    of results, ahkab/results.py 805-845. *)
From Coq Require Import Ascii String Reals List Bool Arith ZArith.
From Verif Require Import Base Str Units Netlist Nodes Rsum Mna DcSolve Newton Df Tran Csv Results Session Simulate SimulateDc.
Import ListNotations.
Open Scope nat_scope.

Section TranRun.
  Variable solve : nat -> mat -> vec -> option vec.
  Variable JT : vec -> mat * vec.
  Variable check : vec -> vec -> vec -> bool.
  Variable locked : list lelem -> list (nat * nat).
  (** The options of [dc_solve]; [options.transient_max_nr_iter]; the ones of the loop. *)
  Variables (o : dopts) (tdo : tdopts) (maxit fuel : nat) (top : topts) (cmin gmin : R).
  (** The value of the sources with a time function, by name and time. *)
  Variable at_time : str -> R -> R.
  (** [numpy.linalg.inv]; custom differentiation modules. *)
  Variable inv : mat -> mat.
  Variable modules : string -> dfm.

  (** ahkab/transient.py 340-349: one call of [dc_solve].  [mna], [N] and [D] are without
      ground; [Ntran] is the product of [D] with the constant term. *)
  Definition tran_solve (t : ntab) (es : list lelem) (mna : mat) (N : vec) (D : mat)
      (round : nat) (c1 : R) (c0 : vec) (time : R) (x0 : vec) : res (option vec) :=
    let nv := get_nodes_number t in
    match dc_solve_sys o (op_newton solve JT check locked tdo maxit t es) nv
            (fun i j => (mna i j + c1 * D i j)%R) (build_gmin_matrix nv gmin)
            (fun i => (N i + time_term nv (fun e => at_time (list_ascii_of_string (lid e)) time) es i)%R)
            (fun i => row (op_size t es) D i c0) fuel x0 with
    | DErr e _ => Err e
    | DRet (Some x) _ true _ _ => Ok (Some x)
    | DRet _ _ _ _ _ => Ok None
    end.

  (** ahkab/transient.py 205-231: the differentiation formulas. *)
  Definition method_of (d : dform) : dfm :=
    match d with
    | DImplicitEuler => m_ie
    | DTrap => m_trap inv
    | DGear k => m_gear k
    | DModule name => modules name
    end.

  (** ahkab/transient.py 188-200: the starting point is zero if none is given. *)
  Definition tran_start (x0 : option vec) : vec := match x0 with Some v => v | None => vzero end.

  (** ahkab/transient.py 121-428; [method] is the name after line 149, [sc] is
      [use_step_control and not options.transient_no_step_control].  The checks of the
      times come before the matrices in the code; the order is that of the errors only. *)
  Definition tran_run (has_module : string -> bool) (method : string) (sc : bool) (t : ntab) (es : list lelem)
      (tstart tstep tstop : R) (x0 : option vec) (rounds : nat) : res (option (list (R * vec))) :=
    let nv := get_nodes_number t in
    bindr (generate_mna_and_N nv es) (fun mn =>
    bindr (generate_D cmin nv es) (fun D =>
    bindr (choose_df has_module method) (fun d =>
    transient_analysis top (method_of d) sc (op_size t es) nv tstart tstep tstop (tran_start x0)
      (tran_solve t es (reduce_mat (fst mn)) (reduce_vec (snd mn)) (reduce_mat D)) rounds))).
End TranRun.

(** ahkab/results.py 835-844 [add_line]: the time, then the unknowns, as in a DC sweep. *)
Definition tran_file (headers : list str) (size : nat) (rows : list (R * vec)) : list (line R) := dc_file headers size rows.
(** [results[name]]; the names are in lines 813-828. *)
Definition tran_report (t : ntab) (es : list lelem) (rows : list (R * vec)) (name : str) : res (list R) :=
  bindr (names_of t (seq 1 (get_nodes_number t - 1))) (fun nodes =>
  sol_getitem 0%R (tran_file (tran_vars nodes (map (fun e => list_ascii_of_string (lid e)) (filter is_vde es))) (op_size t es) rows) name).
