(** Model of the way from a netlist file to the results of a periodic steady state
    analysis: ahkab/pss.py 81-112 ([pss_analysis]), ahkab/bfpss.py 43-292 and 336-405,
    ahkab/shooting.py 41-260 (the loops are in Pss.v), and the table of results, ahkab/
    results.py 877-928.  The matrices are never passed by the caller. *)
From Coq Require Import Ascii String Reals List Bool Arith ZArith.
From Verif Require Import Base Str Units Netlist Nodes Circuit Rsum Mna DcSolve Newton Sweep Df Tran Csv Results Session Simulate SimulateDc SimulateTran SimulateNl Pss.
Import ListNotations.
Open Scope nat_scope.

Section PssRun.
  (** [numpy.linalg.solve] (and [splu]) with a vector and with a matrix, [numpy.linalg.inv];
      the first argument is the size. *)
  Variable solve : nat -> mat -> vec -> option vec.
  Variable msolve : nat -> mat -> mat -> option mat.
  Variable minv : nat -> mat -> option mat.
  (** The devices, as in SimulateNl.v. *)
  Variable square : pelem -> bool.
  Variable current : pelem -> list R -> R.
  Variable conductance : pelem -> list R -> nat -> R.
  Variable locked : list lelem -> list (nat * nat).
  Variables (tdo : tdopts) (tol : tols) (cmin : R).
  (** The value of the sources with a time function, by name and time. *)
  Variable at_time : str -> R -> R.

  (** bfpss.py 190-233, shooting.py 325-357: the output port and the drive ports of the
      nonlinear elements, by number; the current and the conductances come from the
      methods [i] and [g], never from stamps. *)
  Fixpoint pss_ports (t : ntab) (parts : list pelem) : res (list nlport) :=
    match parts with
    | [] => Ok []
    | e :: parts' =>
        match out_port e with
        | None => pss_ports t parts'
        | Some (a, b) =>
            bindr (number t a) (fun n1 => bindr (number t b) (fun n2 =>
            bindr (port_numbers t (drive_ports square e)) (fun dports =>
            bindr (pss_ports t parts') (fun r => Ok (mkPort (n1, n2) dports (current e) (conductance e) :: r)))))
        end
    end.

  (** bfpss.py 375-405 [_build_Tt], shooting.py 279-308 [_build_Tass_static_vector]: the
      same loop as in a transient analysis. *)
  Definition pss_term (t : ntab) (es : list lelem) (time : R) : vec :=
    time_term (get_nodes_number t) (fun e => at_time (list_ascii_of_string (lid e)) time) es.

  (** bfpss.py 265-267, shooting.py 246-250: the times and the samples. *)
  Definition pss_rows (points : nat) (step : R) (x : nat -> vec) : list (R * vec) := map (fun k => ((INR k * step)%R, x k)) (seq 0 points).

  (** ** Brute force *)

  (** bfpss.py 336-357 [_build_x]: the same guess for each sample ([x0], if given, has the
      right size). *)
  Definition bf_start (n : nat) (x0 : option vec) : vec := match x0 with Some v => fun r => v (r mod n) | None => vzero end.
  (** bfpss.py 45: the largest of the components [from], .., [from + count - 1] of the
      samples; lines 156-163. *)
  Fixpoint vmax_of (l : list nat) (v : vec) : R := match l with [] => 0%R | i :: l' => Rmax (Rabs (v i)) (vmax_of l' v) end.
  Definition indices (n points from count : nat) : list nat := flat_map (fun k => map (fun j => k * n + j) (seq from count)) (seq 0 points).
  (** bfpss.py 280-292 [_convergence_check]. *)
  Definition bf_check (n points nv1 : nat) (dx x : vec) : bool :=
    let ni := indices n points nv1 (n - nv1) in
    let small l er ea := Rlt_b (vmax_of l dx) (er * vmax_of l x + ea)%R in
    small (indices n points 0 nv1) (Newton.t_ver tol) (Newton.t_vea tol) &&
    ((List.length ni =? 0) || small ni (Newton.t_ier tol) (Newton.t_iea tol)).

  (** [options.bfpss_default_points], [dense_matrix_limit] and [bfpss_max_nr_iter].  A
      singular matrix raises LinAlgError or RuntimeError. *)
  Variables (bf_default limit bf_iter : nat).
  Definition bfpss_run (t : ntab) (parts : list pelem) (es : list lelem) (period : R) (step : option R) (points : option nat) (x0 : option vec)
      : res (option (list (R * vec))) :=
    let nv := get_nodes_number t in
    let n := op_size t es in
    bindr (generate_mna_and_N nv es) (fun mn =>
    bindr (generate_D cmin nv es) (fun D =>
    bindr (check_step_and_points step points period bf_default) (fun ps =>
    bindr (pss_ports t parts) (fun devs =>
    let '(pts, h) := ps in
    match bf_solve n pts (reduce_mat (fst mn)) (reduce_mat D) h (reduce_vec (snd mn)) (pss_term t es) devs (solve (pts * n)) (msolve (pts * n))
            (fun dx => get_td tdo n dx (ports locked es) None) (bf_check n pts (nv - 1)) limit bf_iter (bf_start n x0) with
    | BSing => Err RuntimeError
    | BErr e => Err e
    | BDone None => Ok None
    | BDone (Some x) => Ok (Some (pss_rows pts h (Pss.sample n x)))
    end)))).

  (** ** Shooting *)

  (** The transient analysis that gives the first samples (shooting.py 145-161): its
      variables, as in SimulateTran.v. *)
  Variable JT : vec -> mat * vec.
  Variable check : vec -> vec -> vec -> bool.
  Variables (o : dopts) (maxit fuel : nat) (top : topts) (gmin : R).
  Variable inv : mat -> mat.
  Variable modules : string -> dfm.
  Variable has_module : string -> bool.
  Variable rounds : nat.

  (** transient.py 264-266, 392-393, 420-421 and 563-650 ([dfbuffer]): the last [points] of
      the samples, the starting point included. *)
  Definition last_samples (points : nat) (x0 : vec) (rows : list (R * vec)) : list vec :=
    let l := x0 :: map snd rows in skipn (List.length l - points) l.

  (** [options.shooting_default_points] and [shooting_max_nr_iter]. *)
  Variables (sh_default sh_iter : nat).
  (** If there are fewer samples than points the vectors have no components; what follows
      is rendered as a ValueError (there are ten times as many). *)
  Definition shooting_run (t : ntab) (parts : list pelem) (es : list lelem) (period : R) (step : option R) (points : option nat)
      : res (option (list (R * vec))) :=
    let nv := get_nodes_number t in
    let n := op_size t es in
    bindr (generate_mna_and_N nv es) (fun mn =>
    bindr (generate_D cmin nv es) (fun D =>
    bindr (check_step_and_points step points period sh_default) (fun ps =>
    bindr (pss_ports t parts) (fun devs =>
    let '(pts, h) := ps in
    bindr (tran_run solve JT check locked o tdo maxit fuel top cmin gmin at_time inv modules has_module "TRAP" false t es 0%R h (INR (10 * pts) * h)%R None rounds) (fun tr =>
    match tr with
    | None => Ok None
    | Some rows =>
        let xs := last_samples pts vzero rows in
        if negb (List.length xs =? pts) then Err ValueError
        else
          match shoot_loop n (solve n) (msolve n) (minv n) (reduce_mat (fst mn)) (reduce_mat D) (reduce_vec (snd mn)) (pss_term t es) devs h
                  (fun dx => get_td tdo n dx (ports locked es) None)
                  (small_test n (Rmin (Newton.t_ver tol) (Newton.t_ier tol)) (Rmin (Newton.t_vea tol) (Newton.t_iea tol))) sh_iter 0 xs with
          | SSing => Err RuntimeError
          | SDone None => Ok None
          | SDone (Some r) => Ok (Some (pss_rows pts h (fun k => nth k r vzero)))
          end
    end))))).

  (** ahkab/pss.py 104-112, ahkab/options.py [SHOOTINGPSS], [BFPSS]: the choice.  An unknown
      method is a bare Exception. *)
  Definition pss_analysis (method : string) (t : ntab) (parts : list pelem) (es : list lelem) (period : R) (step : option R) (points : option nat) (x0 : option vec)
      : res (option (list (R * vec))) :=
    if String.eqb (lower method) "shooting" then shooting_run t parts es period step points
    else if String.eqb (lower method) "brute-force" then bfpss_run t parts es period step points x0
    else Err ValueError.
End PssRun.

(** ahkab/results.py 907-928 [set_results]: all the samples are written at once. *)
Definition pss_block (size : nat) (rows : list (R * vec)) : nat * list (list R) :=
  (List.length rows, map fst rows :: map (fun i => map (fun r => snd r i) rows) (seq 0 size)).
Definition pss_file (headers : list str) (size : nat) (rows : list (R * vec)) : list (line R) :=
  write_csv 0%R [] (fst (pss_block size rows)) (snd (pss_block size rows)) headers false.
(** [results[name]]. *)
Definition pss_report (t : ntab) (es : list lelem) (rows : list (R * vec)) (name : str) : res (list R) :=
  bindr (names_of t (seq 1 (get_nodes_number t - 1))) (fun nodes =>
  sol_getitem 0%R (pss_file (pss_vars nodes (map (fun e => list_ascii_of_string (lid e)) (filter is_vde es))) (op_size t es) rows) name).
