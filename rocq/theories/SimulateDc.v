(** Model of the way from a netlist file to the results of a DC sweep:
    ahkab/dc_analysis.py 461-595 ([dc_analysis], see Sweep.v), each point of which is
    an [op_analysis] (Simulate.v), and the table of results, ahkab/results.py 733-776. *)
From Coq Require Import Ascii String Reals List Bool Arith ZArith.
From Verif Require Import Base Str Units Netlist Nodes Rsum Mna DcSolve Newton Sweep Csv Results Session Simulate.
Import ListNotations.
Open Scope nat_scope.

(** ahkab/dc_analysis.py 502-503 [sweep_label]: the first letter in upper case, the rest
    in lower case. *)
Definition sweep_label (source : str) : str :=
  match source with c :: r => upper_ascii (lower_ascii c) :: slower r | [] => [] end.

Section DcRun.
  Variable solve : nat -> mat -> vec -> option vec.
  Variable JT : vec -> mat * vec.
  Variable check : vec -> vec -> vec -> bool.
  Variable locked : list lelem -> list (nat * nat).
  Variables (o : dopts) (tdo : tdopts) (maxit fuel : nat) (gmin : R) (at0 : str -> R).
  (** [get_dc_guess], used for the first point and after a point that was skipped. *)
  Variable guess : list lelem -> vec.
  (** [options.dc_sweep_skip_allowed]. *)
  Variable skip : bool.

  (** The DC values of the sources with a time function.  The [dc_value] of the swept
      source is a number, which [V()] and [I()] prefer to the time function
      (ahkab/components/sources/VSource.py 92-97, ISource.py 94-99). *)
  Definition at_swept (isv : bool) (source : str) (es : list lelem) (id : str) : R :=
    match find_source es isv (ss source) 0 with
    | Some k =>
        match nth_error es k with
        | Some e => if String.eqb (lid e) (ss id) then match dc_of e with Some v => v | None => 0%R end else at0 id
        | None => at0 id
        end
    | None => at0 id
    end.
  (** The call of [op_analysis] in line 569; the solution of the point before is the
      starting point. *)
  Definition dc_point (isv : bool) (source : str) (t : ntab) (es : list lelem) (x : option vec) : res (option vec) :=
    bindr (op_run solve JT check locked o tdo maxit fuel gmin (at_swept isv source es) t es (match x with Some v => v | None => guess es end))
          (fun r => Ok (match r with Some (y, _) => Some y | None => None end)).
  (** A linear sweep.  The first letter of the name must be v or i; this is checked after
      the values of the sweep, the order of the checks being that of the errors only. *)
  Definition dc_run (t : ntab) (es : list lelem) (start stop step : R) (source : str) (x0 : option vec) : res (option (list (R * vec))) * list lelem :=
    match slower source with
    | [] => (Err IndexError, es)
    | c :: _ =>
        if ascii_dec c "v" then dc_analysis (dc_point true source t) skip es start stop step true (ss source) x0
        else if ascii_dec c "i" then dc_analysis (dc_point false source t) skip es start stop step false (ss source) x0
        else (Err SystemExit, es)
    end.
End DcRun.

(** ahkab/results.py 767-776 [add_op]: one sample of each column. *)
Definition dc_line (size : nat) (r : R * vec) : nat * list (list R) := (1, [fst r] :: map (fun i => [snd r i]) (seq 0 size)).
(** The data file; the first line is written with the headers. *)
Definition dc_file (headers : list str) (size : nat) (rows : list (R * vec)) : list (line R) :=
  snd (fold_left (fun (s : bool * list (line R)) r => let b := dc_line size r in
    (true, write_csv 0%R (snd s) (fst b) (snd b) headers (fst s))) rows (false, [])).
(** [results[name]]. *)
Definition dc_report (t : ntab) (es : list lelem) (source : str) (rows : list (R * vec)) (name : str) : res (list R) :=
  bindr (names_of t (seq 1 (get_nodes_number t - 1))) (fun nodes =>
  sol_getitem 0%R (dc_file (dc_vars (sweep_label source) nodes (map (fun e => list_ascii_of_string (lid e)) (filter is_vde es))) (op_size t es) rows) name).
