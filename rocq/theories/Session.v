(** Model of what surrounds the analyses: the command line (ahkab/__main__.py 32-159),
    the names of the output files (ahkab/ahkab.py 237-657, 941-945), the choice of the
    differentiation formula (ahkab/transient.py 141-149, 205-235, 650-668), the set-up of a
    DC sweep (ahkab/dc_analysis.py 502-545), [check_circuit] (ahkab/utilities.py 597-636),
    user-defined elements (ahkab/netlist_parser.py 1075-1174, ahkab/circuit.py 972-1004),
    and the properties of a resistor (ahkab/components/Resistor.py 41-66). *)
From Coq Require Import Reals QArith String Ascii List Bool Arith ZArith.
From Verif Require Import Base Str Units Directive Nodes Circuit Mna Newton Sweep TimeFun.
Import ListNotations.
Open Scope nat_scope.

(** ** Command line *)

(** The module [options], as far as the command line sets it (ahkab/options.py 46-142).
    [dc_use_guess] is True at first; the command line puts a text there. *)
Inductive pyopt : Type := PyTrue | PyText (s : string).
Record opts := mkOpts {
  o_vea : Q; o_ver : Q; o_iea : Q; o_ier : Q; o_hmin : Q; o_gmin : Q; o_cmin : Q;
  o_dc_nr : Z; o_t_nr : Z; o_t_time : Z; o_s_nr : Z;
  o_method : string; o_no_step : bool; o_guess : pyopt }.

(** ahkab/options.py 50-60, 96-98, 111-118, 130-132, 142. *)
Definition tenth (n : positive) : Q := 1 # (10 ^ n).
Definition default_opts : opts :=
  mkOpts (tenth 6) (tenth 3) (tenth 9) (tenth 3) (tenth 20) (tenth 12) (tenth 18)
    10000 20 0 10000 "TRAP" false PyTrue.

(** [bool(x)]: a text is false only if it is empty. *)
Definition truthy (x : pyopt) : bool := match x with PyTrue => true | PyText s => negb (String.eqb s "") end.

(** The values that [OptionParser] returns (ahkab/__main__.py 39-104); optparse itself is
    not modelled.  [None] is an option that was not given. *)
Record args := mkArgs {
  a_verbose : string; a_outfile : string; a_guess : string; a_method : string; a_fixed : bool;
  a_vea : option string; a_ver : option string; a_iea : option string; a_ier : option string; a_hmin : option string;
  a_gmin : option string; a_cmin : option string;
  a_dc_nr : option string; a_t_nr : option string; a_t_time : option string; a_s_nr : option string;
  a_rest : list string }.

(** The defaults of ahkab/__main__.py 39-104. *)
Definition no_args (file : string) : args :=
  mkArgs "3" "stdout" "guess" "trap" false None None None None None None None None None None None [file].

Section Cli.
  (** [float(s)], [int(float(s))] and [int(s)]. *)
  Variable to_float : string -> res Q.
  Variable to_count to_int : string -> res Z.
  (** [os.path.isfile] (after [os.path.exists]). *)
  Variable is_file : string -> bool.

  Definition setq (t : option string) (f : Q -> opts -> opts) (o : opts) : res opts :=
    match t with None => Ok o | Some s => bindr (to_float s) (fun x => Ok (f x o)) end.
  Definition setz (t : option string) (f : Z -> opts -> opts) (o : opts) : res opts :=
    match t with None => Ok o | Some s => bindr (to_count s) (fun x => Ok (f x o)) end.

  (** ahkab/utilities.py 157-177. *)
  Definition check_file (s : string) : res bool := if is_file s then Ok true else Err IOError.

  (** ahkab/__main__.py 108-154: the settings, and the arguments of [ahkab.main]. *)
  Definition cli (a : args) (o : opts) : res (opts * (string * string * Z)) :=
    bindr (to_int (a_verbose a)) (fun verbose =>
    let o := mkOpts (o_vea o) (o_ver o) (o_iea o) (o_ier o) (o_hmin o) (o_gmin o) (o_cmin o)
               (o_dc_nr o) (o_t_nr o) (o_t_time o) (o_s_nr o) (upper (a_method a)) (o_no_step o) (o_guess o) in
    bindr (setq (a_vea a) (fun x o => mkOpts x (o_ver o) (o_iea o) (o_ier o) (o_hmin o) (o_gmin o) (o_cmin o)
               (o_dc_nr o) (o_t_nr o) (o_t_time o) (o_s_nr o) (o_method o) (o_no_step o) (o_guess o)) o) (fun o =>
    bindr (setq (a_ver a) (fun x o => mkOpts (o_vea o) x (o_iea o) (o_ier o) (o_hmin o) (o_gmin o) (o_cmin o)
               (o_dc_nr o) (o_t_nr o) (o_t_time o) (o_s_nr o) (o_method o) (o_no_step o) (o_guess o)) o) (fun o =>
    bindr (setq (a_iea a) (fun x o => mkOpts (o_vea o) (o_ver o) x (o_ier o) (o_hmin o) (o_gmin o) (o_cmin o)
               (o_dc_nr o) (o_t_nr o) (o_t_time o) (o_s_nr o) (o_method o) (o_no_step o) (o_guess o)) o) (fun o =>
    bindr (setq (a_ier a) (fun x o => mkOpts (o_vea o) (o_ver o) (o_iea o) x (o_hmin o) (o_gmin o) (o_cmin o)
               (o_dc_nr o) (o_t_nr o) (o_t_time o) (o_s_nr o) (o_method o) (o_no_step o) (o_guess o)) o) (fun o =>
    bindr (setq (a_hmin a) (fun x o => mkOpts (o_vea o) (o_ver o) (o_iea o) (o_ier o) x (o_gmin o) (o_cmin o)
               (o_dc_nr o) (o_t_nr o) (o_t_time o) (o_s_nr o) (o_method o) (o_no_step o) (o_guess o)) o) (fun o =>
    bindr (setz (a_dc_nr a) (fun x o => mkOpts (o_vea o) (o_ver o) (o_iea o) (o_ier o) (o_hmin o) (o_gmin o) (o_cmin o)
               x (o_t_nr o) (o_t_time o) (o_s_nr o) (o_method o) (o_no_step o) (o_guess o)) o) (fun o =>
    bindr (setz (a_t_nr a) (fun x o => mkOpts (o_vea o) (o_ver o) (o_iea o) (o_ier o) (o_hmin o) (o_gmin o) (o_cmin o)
               (o_dc_nr o) x (o_t_time o) (o_s_nr o) (o_method o) (o_no_step o) (o_guess o)) o) (fun o =>
    bindr (setz (a_t_time a) (fun x o => mkOpts (o_vea o) (o_ver o) (o_iea o) (o_ier o) (o_hmin o) (o_gmin o) (o_cmin o)
               (o_dc_nr o) (o_t_nr o) x (o_s_nr o) (o_method o) (o_no_step o) (o_guess o)) o) (fun o =>
    bindr (setz (a_s_nr a) (fun x o => mkOpts (o_vea o) (o_ver o) (o_iea o) (o_ier o) (o_hmin o) (o_gmin o) (o_cmin o)
               (o_dc_nr o) (o_t_nr o) (o_t_time o) x (o_method o) (o_no_step o) (o_guess o)) o) (fun o =>
    bindr (setq (a_gmin a) (fun x o => mkOpts (o_vea o) (o_ver o) (o_iea o) (o_ier o) (o_hmin o) x (o_cmin o)
               (o_dc_nr o) (o_t_nr o) (o_t_time o) (o_s_nr o) (o_method o) (o_no_step o) (o_guess o)) o) (fun o =>
    bindr (setq (a_cmin a) (fun x o => mkOpts (o_vea o) (o_ver o) (o_iea o) (o_ier o) (o_hmin o) (o_gmin o) x
               (o_dc_nr o) (o_t_nr o) (o_t_time o) (o_s_nr o) (o_method o) (o_no_step o) (o_guess o)) o) (fun o =>
    match a_rest a with
    | [file] =>
        bindr (if String.eqb file "-" then Ok true else check_file file) (fun ok =>
        if ok then
          Ok (mkOpts (o_vea o) (o_ver o) (o_iea o) (o_ier o) (o_hmin o) (o_gmin o) (o_cmin o)
                (o_dc_nr o) (o_t_nr o) (o_t_time o) (o_s_nr o) (o_method o) (a_fixed a) (PyText (a_guess a)),
              (file, a_outfile a, verbose))
        else Err SystemExit)
    | _ => Err SystemExit
    end)))))))))))).
End Cli.

(** ahkab/transient.py 141-142. *)
Definition step_control (o : opts) (asked : bool) : bool := if o_no_step o then false else asked.

(** ahkab/dc_analysis.py 619-620 and 640: whether the guess is computed when there is no
    starting point. *)
Definition op_guess (o : opts) (asked : bool) : bool := if truthy (o_guess o) then asked else false.

(** ** Differentiation formulas *)

Inductive dform : Type := DImplicitEuler | DTrap | DGear (order : nat) | DModule (name : string).

(** ahkab/transient.py 149; the netlist gives None if there is no METHOD. *)
Definition tran_method (o : opts) (m : option string) : string := match m with Some s => upper s | None => o_method o end.

(** ahkab/transient.py 650-668.  [imp.find_module] gives three values or raises
    ImportError; [imp.load_module] takes four arguments and gets one, so that it raises
    TypeError.  Every exception is caught. *)
Definition load_module (args : nat) (name : string) : res dform := if (args =? 4)%nat then Ok (DModule name) else Err TypeError.
Definition import_custom_df_module (exists_module : string -> bool) (method : string) : option dform :=
  match (if exists_module (lower method) then load_module 1 (lower method) else Err ValueError) with
  | Ok d => Some d
  | Err _ => None
  end.

(** ahkab/transient.py 205-235. *)
Definition choose_df (exists_module : string -> bool) (method : string) : res dform :=
  match (if String.eqb method "IMPLICIT_EULER" then Some DImplicitEuler
         else if String.eqb method "TRAP" then Some DTrap
         else if String.eqb method "GEAR1" then Some (DGear 1)
         else if String.eqb method "GEAR2" then Some (DGear 2)
         else if String.eqb method "GEAR3" then Some (DGear 3)
         else if String.eqb method "GEAR4" then Some (DGear 4)
         else if String.eqb method "GEAR5" then Some (DGear 5)
         else if String.eqb method "GEAR6" then Some (DGear 6)
         else import_custom_df_module exists_module method) with
  | Some d => Ok d
  | None => Err SystemExit
  end.

(** ** Output files *)

(** The analyses that the functions new_* of ahkab/ahkab.py describe; a PSS has a method. *)
Inductive akind : Type := AOp | ADc | ATran | AAc | APss (method : string) | APz | ASymbolic.

(** ahkab/ahkab.py 248, 315, 381, 444, 511, 571, 654. *)
Definition suffix (k : akind) : string :=
  match k with
  | AOp => ".op" | ADc => ".dc" | ATran => ".tran" | AAc => ".ac" | APss m => "." ++ lower m | APz => ".pz" | ASymbolic => ".symbolic"
  end.

(** ahkab/ahkab.py 239-248 and the same code in the other functions; [tmp] is the name
    that [tempfile] gives, [on_cli] is [options.cli]. *)
Definition new_outfile (on_cli : bool) (tmp : string -> string) (k : akind) (outfile : option string) : string :=
  match outfile with
  | Some f => if String.eqb f "stdout" then (if on_cli then "stdout" else tmp (suffix k)) else f ++ suffix k
  | None => if on_cli then "stdout" else tmp (suffix k)
  end.

(** The name of the type, key of the table at ahkab/ahkab.py 860-863. *)
Definition type_name (k : akind) : string :=
  match k with
  | AOp => "op" | ADc => "dc" | ATran => "tran" | AAc => "ac" | APss _ => "pss" | APz => "pz" | ASymbolic => "symbolic"
  end.
(** ahkab/ahkab.py 943-945, [main]: the analyses of a netlist have no output file. *)
Definition main_outfile (outfile : string) (k : akind) : string :=
  outfile ++ (if String.eqb outfile "stdout" then "" else "." ++ type_name k).

(** ** Set-up of a DC sweep *)

Inductive dcaxis : Type := DcLog (a : axis) | DcLin (a : axis).

(** The first three characters of the text in capital letters. *)
Definition stype3 (s : string) : string := String.substring 0 3 (upper s).

(** ahkab/dc_analysis.py 502-545.  For a logarithmic axis the bounds are taken to be
    positive; [points - 1] is zero if [start = stop]: ahkab/utilities.py 267 divides a
    numpy number by zero, which gives nan and a warning, rendered as ZeroDivision. *)
Definition dc_setup (es : list lelem) (start stop step : R) (source : string) (sweep_type : string) : res (dcaxis * nat) :=
  match source with
  | EmptyString => Err IndexError
  | String c _ =>
      let et := lower_ascii c in
      if String.eqb sweep_type "LOG" && Rlt_b (stop - start) 0 then Err SystemExit
      else if Rlt_b ((stop - start) * step) 0 then Err ValueError
      else if Req_EM_T step 0 then Err ZeroDivision
      else
        let points := ((stop - start) / step + 1)%R in
        let st := stype3 sweep_type in
        bindr (if String.eqb st "LOG" then (if Req_EM_T points 1 then Err ZeroDivision else Ok (DcLog (log_axis start stop points)))
               else if String.eqb st "LIN" then bindr (lin_axis start stop points) (fun a => Ok (DcLin a))
               else Err SystemExit) (fun ax =>
        if negb (Ascii.eqb et "v") && negb (Ascii.eqb et "i") then Err SystemExit
        else match find_source es (Ascii.eqb et "v") source 0 with
             | None => Err ValueError
             | Some k => Ok (ax, k)
             end)
  end.

(** ahkab/ahkab.py 316-317 [new_dc]: the step of an analysis with [points] points. *)
Definition new_dc_step (start stop : R) (points : nat) : res R :=
  if (points =? 1)%nat then Err ZeroDivision else Ok ((stop - start) / (INR points - 1))%R.

(** ** [check_circuit], ahkab/utilities.py 620-636 *)

Definition check_circuit (c : circ) : bool * string :=
  if (get_nodes_number (tab c) <? 2)%nat then (false, "the circuit has less than two nodes."%string)
  else if negb (dmem nkey_eqb (nodes_dict (tab c)) (KInt 0)) then (false, "the circuit has no ref. Quitting."%string)
  else if (List.length (elems c) <? 2)%nat then (false, "the circuit has less than two elements."%string)
  else if has_duplicate_elem c then (false, "duplicate elements found (check the names!)"%string)
  else (true, ""%string).

(** ** User-defined elements, ahkab/netlist_parser.py 1117-1174 *)

Section User.
  (** [imp.find_module] and [getattr]: the classes of the module of that name. *)
  Variable classes : str -> option (list str).

  (** 1120-1133. *)
  Fixpoint y_params (toks : list str) (d : list (str * val)) : res (list (str * val)) :=
    match toks with
    | [] => Ok d
    | tok :: toks' =>
        if starred tok then Ok d
        else bindr (parse_param_value tok) (fun '(p, v) =>
          match dget streqb d p with
          | None => y_params toks' (dset streqb d p v)
          | Some _ => Err NetlistParseError
          end)
    end.

  (** 1117-1174: the module and the class that the element is made of, its name, its nodes
      and the parameters it is given.  [imp.find_module] raises TypeError for a name that is
      no text, and so does [getattr]; the class itself is taken to accept them. *)
  Definition parse_elem_user_defined (line : str) : res (str * str * str * (str * str) * list (str * val)) :=
    match split line with
    | id :: n1 :: n2 :: p :: ps =>
        bindr (y_params (p :: ps) []) (fun d =>
        match dget streqb d (lit "module") with
        | None => Err NetlistParseError
        | Some (VStr m) =>
            match classes m with
            | None => Err NetlistParseError
            | Some cs =>
                let d' := ddel streqb d (lit "module") in
                match dget streqb d' (lit "type") with
                | None => Err NetlistParseError
                | Some (VStr t) =>
                    if existsb (streqb t) cs then Ok (m, t, id, (n1, n2), ddel streqb d' (lit "type")) else Err NetlistParseError
                | Some _ => Err TypeError
                end
            end
        | Some _ => Err TypeError
        end)
    | _ => Err NetlistParseError
    end.
End User.

(** ** Resistors, ahkab/components/Resistor.py 41-66 *)

Record resistor := mkRes { r_value : R; r_g : R }.
Definition new_resistor (v : R) : res resistor := if Req_EM_T v 0 then Err ZeroDivision else Ok (mkRes v (1 / v)).
Inductive rop : Type := SetValue (v : R) | SetG (g : R).
(** The two setters; the attribute is assigned before the division. *)
Definition rstep (r : resistor) (o : rop) : resistor * res unit :=
  match o with
  | SetValue v => if Req_EM_T v 0 then (mkRes v (r_g r), Err ZeroDivision) else (mkRes v (1 / v), Ok tt)
  | SetG g => if Req_EM_T g 0 then (mkRes (r_value r) g, Err ZeroDivision) else (mkRes (1 / g) g, Ok tt)
  end.
Definition rrun (ops : list rop) (r : resistor) : resistor := fold_left (fun r o => fst (rstep r o)) ops r.

(** ** Mutual inductors, ahkab/netlist_parser.py 530 and ahkab/circuit.py 606 *)
Definition mutual (l1 l2 k : R) : R := (sqrt (l1 * l2) * k)%R.
