(** Model of [main], ahkab/ahkab.py 866-959: from a netlist file to the dictionary of the
    results.  The circuit is that of SimulateSub.v, the directives are read as in
    Directive.v ([parse_ics] and [parse_analysis], ahkab/netlist_parser.py 1418-1450), the
    analyses are run one by one as in RunQueue.v.

    [process_postproc] is not part of it (Postproc.v), nor are the output files and the
    messages.  The analyses pss, pz and symbolic, logarithmic DC sweeps and AC analyses of
    circuits with devices are oracles here (pz: SimulateMainPz.v, AC: SimulateMainAc.v,
    pss: SimulateMainPss.v); the circuit is left as it was by all of them (for DC sweeps
    that is part of C194). *)
From Coq Require Import Ascii String Reals List Bool Arith ZArith.
From Verif Require Import Base Str Units Directive Reader Netlist ModelLines Nodes Circuit Rsum Mna DcSolve Newton Df Tran Ac Sweep Csv Results Session RunQueue Ics Subckt
  Simulate SimulateAc SimulateDc SimulateTran SimulateSub.
Import ListNotations.
Open Scope nat_scope.

(** A result, or a starting point: a vector made from an .ic line or by [icmodified_x0]; a
    number if there is one in place of a vector. *)
Inductive result :=
| ROp (r : option (vec * bool))
| RDc (r : option (list (R * vec)))
| RAc (r : option (list (R * cvec)))
| RTran (r : option (list (R * vec)))
| RVec (x : vec)
| RPz (poles zeros : list (R * R))
| RPss (r : option (list (R * vec)))
| RNumber
| RRest (k : nat).

(** The arguments of an analysis.  A text that is not a number (C102) is a TypeError. *)
Definition num (an : list (str * val)) (key : string) : res R :=
  match dget streqb an (lit key) with Some (VNum d) => Ok (dR d) | _ => Err TypeError end.
Definition txt (an : list (str * val)) (key : string) : res str :=
  match dget streqb an (lit key) with Some (VStr s) => Ok s | _ => Err TypeError end.

(** [x0.asarray()] or the vector; [None] also if the operating point was not found.  Only a
    tran line without ic_label can have a number (C45, the default). *)
Definition start_of (x : option result) : res (option vec) :=
  match x with
  | None => Ok None
  | Some (ROp (Some (x, _))) | Some (RVec x) => Ok (Some x)
  | Some (ROp None) => Ok None
  | Some _ => Err TypeError
  end.

(** A dictionary made by [parse_single_analysis], for [run]. *)
Definition as_an (an : list (str * val)) : RunQueue.an (list (str * val)) result :=
  mkAn _ _ (match dget streqb an (lit "type") with Some (VStr s) => s | _ => [] end)
    (match dget streqb an (lit "x0") with
     | None => None
     | Some (VStr s) => Some (XText _ s)
     | Some (VNum _) => Some (XVal _ RNumber)
     | Some _ => Some (XNone _)
     end) an.

(** ahkab/netlist_parser.py 1418-1450. *)
Definition is_ic (line : str) : bool := streqb (firstn 3 line) (lit ".ic").
Fixpoint mapr {A B : Type} (f : A -> res B) (l : list A) : res (list B) :=
  match l with [] => Ok [] | a :: l' => bindr (f a) (fun b => bindr (mapr f l') (fun r => Ok (b :: r))) end.
Definition parse_ics (lines : list str) : res (list (val * list (str * val))) :=
  mapr (fun line => parse_ic_directive (tl (split line))) (filter is_ic lines).
Definition parse_analysis (lines : list str) : res (list (list (str * val))) :=
  mapr parse_single_analysis (filter (fun l => negb (is_ic l)) lines).

Definition known_types : list str := map lit ["op"; "dc"; "tran"; "ac"; "pss"; "symbolic"; "temp"; "pz"]%string.

Section Main.
  Variable solve : nat -> mat -> vec -> option vec.
  Variable csolve : cmat -> cvec -> option cvec.
  Variable JT : vec -> mat * vec.
  Variable check : vec -> vec -> vec -> bool.
  Variable locked : list lelem -> list (nat * nat).
  Variables (o : dopts) (tdo : tdopts) (damp_first : bool) (maxit acit trit fuel : nat) (top : topts) (cmin gmin : R).
  Variable at_time : str -> R -> R.
  Variable guess : list lelem -> vec.
  Variable skip : bool.
  Variable inv : mat -> mat.
  Variable modules : string -> dfm.
  Variable has_module : string -> bool.
  Variable rounds : nat.
  Variable settings : Session.opts.
  (** The value of a source with a time function in a DC analysis. *)
  Definition at_dc (id : str) : R := at_time id 0%R.
  (** The other analyses; [icmodified_x0] of a result (None included); [new_x0]. *)
  Variable rest : list pelem * ntab * list lelem -> str -> list (str * val) -> option result -> res result.
  Variable icmod : list pelem * ntab * list lelem -> result -> res result.

  (** [analysis[an_type](circ, **an_item)], ahkab/ahkab.py 711 and 857-860. *)
  Definition exec (c : list pelem * ntab * list lelem) (ty : str) (an : list (str * val)) (x0 : option result) : res result :=
    let '(parts, t, es) := c in
    if streqb ty (lit "op") then
      bindr (start_of x0) (fun x =>
      bindr (match dget streqb an (lit "guess") with Some (VBool b) => Ok b | _ => Err TypeError end) (fun g =>
      bindr (op_run solve JT check locked o tdo maxit fuel gmin at_dc t es
              (match x with Some v => v | None => if op_guess settings g then guess es else vzero end)) (fun r => Ok (ROp r))))
    else if streqb ty (lit "dc") then
      bindr (num an "start") (fun a => bindr (num an "stop") (fun b => bindr (num an "step") (fun s =>
      bindr (txt an "source") (fun src => bindr (txt an "sweep_type") (fun st =>
      if String.eqb (stype3 (ss st)) "LIN" then bindr (fst (dc_run solve JT check locked o tdo maxit fuel gmin at_dc guess skip t es a b s src None)) (fun r => Ok (RDc r))
      else rest c ty an x0)))))
    else if streqb ty (lit "ac") then
      bindr (num an "start") (fun a => bindr (num an "stop") (fun b => bindr (num an "points") (fun n => bindr (txt an "sweep_type") (fun st =>
      if nonlinear es then rest c ty an x0
      else bindr (ac_run csolve o damp_first acit fuel cmin gmin parts t es a b n (Some (ss st)) None) (fun r => Ok (RAc r))))))
    else if streqb ty (lit "tran") then
      bindr (num an "tstart") (fun a => bindr (num an "tstep") (fun s => bindr (num an "tstop") (fun b =>
      bindr (match dget streqb an (lit "method") with Some (VStr m) => Ok (Some (ss m)) | Some VNone => Ok None | _ => Err TypeError end) (fun m =>
      bindr (start_of x0) (fun x =>
      bindr (tran_run solve JT check locked o tdo trit fuel top cmin gmin at_time inv modules has_module (tran_method settings m) (step_control settings true) t es a s b x rounds)
        (fun r => Ok (RTran r)))))))
    else rest c ty an x0.

  (** The .ic lines as vectors, ahkab/ahkab.py 963-966.  A label that is a number (C103) is
      never found by a text. *)
  Definition ic_vectors (t : ntab) (es : list lelem) (ics : list (val * list (str * val))) : res (list (str * result)) :=
    bindr (mapr (fun '(name, conds) =>
      bindr (mapr (fun '(k, v) => match v with VNum d => Ok (k, dR d) | _ => Err TypeError end) conds) (fun d =>
      bindr (build_x0 t (map (fun e => list_ascii_of_string (lid e)) (filter is_vde es)) d) (fun x =>
      Ok (match name with VStr s => [(s, RVec x)] | _ => [] end)))) ics) (fun l => Ok (concat l)).

  (** Lines 911-959, without the messages and the post-processing.  The file is read
      once; here the circuit and the directives are taken from it one after the other. *)
  Definition main_file (fs : str -> option (list str)) (user : str -> res (list pelem)) (depth files : nat) (filename : str)
    : res (list pelem * ntab * list lelem * list (str * result)) :=
    bindr (load_all fs user depth files filename) (fun c =>
    bindr (read_netlist fs files filename) (fun s =>
    let dirs := map fst (r_dirs s) in
    bindr (parse_ics dirs) (fun ics =>
    bindr (ic_vectors (snd (fst c)) (snd c) ics) (fun xs =>
    bindr (parse_analysis dirs) (fun ans =>
    bindr (fst (RunQueue.main _ _ _ (fun ty => mem ty known_types) exec icmod c xs (map as_an ans) (mkSt _ _ _ [] [] []))) (fun rs => Ok (c, rs))))))).
End Main.
