(** Model of the .model lines of a netlist, ahkab/netlist_parser.py 330-366
    ([parse_models]), and of what the constructors do with their keyword arguments
    before any arithmetic: ahkab/ekv.py 369-432, mosq.py 431-500, diode.py 302-337,
    switch.py 309-321.  The arithmetic of the MOS models is in MosModel.v.  A model is
    given by its type and the arguments it was made from. *)
From Coq Require Import Ascii String List Bool Arith ZArith.
From Verif Require Import Base Str Units Directive Netlist.
Import ListNotations.
Open Scope nat_scope.

Definition kwargs : Type := list (str * val).
Definition pmodel : Type := (mtype * kwargs)%type.

(** [line.replace("(", "").replace(")", "")], line 333. *)
Definition is_paren (c : ascii) : bool :=
  if ascii_dec c "("%char then true else if ascii_dec c ")"%char then true else false.
Definition no_parens (s : str) : str := filter (fun c => negb (is_paren c)) s.

(** The keyword parameters of the constructors (ekv.py 369-372, mosq.py 432-435,
    diode.py 302-306, switch.py 309). [name] is lower case and material is no parameter
    that a number fits; neither can be written in a netlist. *)
Definition signature (t : mtype) : list str :=
  map lit match t with
  | MEkv => ["TYPE"; "TNOM"; "COX"; "GAMMA"; "NSUB"; "PHI"; "VTO"; "KP"; "XJ"; "LAMBDA"; "TOX"; "VFB"; "U0"; "TCV"; "BEX"]
  | MMosq => ["TYPE"; "TNOM"; "COX"; "GAMMA"; "NSUB"; "PHI"; "VTO"; "KP"; "LAMBDA"; "AKP"; "AVT"; "TOX"; "VFB"; "U0"; "TCV"; "BEX"]
  | MDiode => ["IS"; "N"; "NBV"; "ISR"; "NR"; "RS"; "CJ0"; "M"; "VJ"; "FC"; "CP"; "TT"; "BV"; "IBV"; "IKF"; "KF"; "AF"; "FFE"; "TEMP";
               "XTI"; "EG"; "TBV"; "TRS"; "TTT1"; "TTT2"; "TM1"; "TM2"]
  | MSwitch => ["VT"; "VH"; "VON"; "VOFF"; "RON"; "ROFF"]
  end%string.

(** Parameters that are stored without [float(...)]: ekv.py 426-427, mosq.py 491 and
    498-499; the type. *)
Definition stored_as_is (t : mtype) : list str :=
  map lit match t with
  | MEkv => ["TYPE"; "XJ"; "LAMBDA"]
  | MMosq => ["TYPE"; "LAMBDA"; "AKP"; "AVT"]
  | _ => []
  end%string.

Definition smem (k : str) (l : list str) : bool := existsb (streqb k) l.

(** [float(v)]: ValueError for a string (those that are numbers have been converted). *)
Definition float_ok (v : val) : bool := match v with VNum _ => true | _ => false end.

(** mosq.py 440-445: the type must be a string, n or p; the other constructors have no
    such check. *)
Definition check_type (t : mtype) (kw : kwargs) : res unit :=
  match t, dget streqb kw (lit "TYPE") with
  | MMosq, Some (VStr s) => if streqb (slower s) (lit "n") || streqb (slower s) (lit "p") then Ok tt else Err ValueError
  | MMosq, Some _ => Err AttributeError
  | _, _ => Ok tt
  end.

(** switch.py 312-313: [float(VON), float(VOFF)] if one of them is there. *)
Definition check_thresholds (t : mtype) (kw : kwargs) : res unit :=
  match t, dget streqb kw (lit "VON"), dget streqb kw (lit "VOFF") with
  | MSwitch, Some _, None | MSwitch, None, Some _ => Err TypeError
  | _, _, _ => Ok tt
  end.

(** The call of the constructor: binding of the keywords, then the conversions. *)
Definition construct (t : mtype) (kw : kwargs) : res pmodel :=
  if negb (forallb (fun p => smem (fst p) (signature t)) kw) then Err TypeError
  else bindr (check_type t kw) (fun _ =>
       if negb (forallb (fun p => smem (fst p) (stored_as_is t) || float_ok (snd p)) kw) then Err ValueError
       else bindr (check_thresholds t kw) (fun _ => Ok (t, kw))).

(** Lines 342-346: the parameters, up to the first token that begins with a star. *)
Fixpoint model_params (toks : list str) (kw : kwargs) : res kwargs :=
  match toks with
  | [] => Ok kw
  | tok :: toks' =>
      if starred tok then Ok kw
      else bindr (parse_param_value tok) (fun '(label, value) => model_params toks' (dset streqb kw (supper label) value))
  end.

(** Lines 347-364. *)
Definition model_type (w : str) : option mtype :=
  if streqb w (lit "ekv") then Some MEkv
  else if streqb w (lit "mosq") then Some MMosq
  else if streqb w (lit "diode") || streqb w (lit "d") then Some MDiode
  else if streqb w (lit "sw") then Some MSwitch
  else None.

(** One line: the label and the model. *)
Definition model_line (line : str) : res (str * pmodel) :=
  match split (no_parens line) with
  | _ :: w :: label :: params =>
      bindr (model_params params []) (fun kw =>
      match model_type w with
      | Some t => bindr (construct t kw) (fun m => Ok (label, m))
      | None => Err NetlistParseError
      end)
  | _ => Err NetlistParseError
  end.

(** All lines: a later model replaces an earlier one of the same label (line 365). *)
Fixpoint parse_models (lines : list str) (models : list (str * pmodel)) : res (list (str * pmodel)) :=
  match lines with
  | [] => Ok models
  | l :: lines' => bindr (model_line l) (fun '(label, m) => parse_models lines' (dset streqb models label m))
  end.
