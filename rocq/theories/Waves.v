(** Model of the way from the parameters of a time function, as they were parsed, to its
    values: the last lines of ahkab/netlist_parser.py 1177-1238 (the function is called
    with the parameters as keyword arguments; with 141-143), and the methods [V] and [I] of the independent
    sources (components/sources/VSource.py 76-97, ISource.py 75-98). *)
From Coq Require Import Ascii String Reals List Bool Arith ZArith.
From Verif Require Import Base Str Units Directive Netlist Newton TimeFun Simulate.
Import ListNotations.
Open Scope R_scope.

(** ahkab/netlist_parser.py 1235: a keyword argument; an argument that is missing or is
    not a number is a TypeError (sooner or later). *)
Definition kw (ps : list (str * val)) (name : string) : res R :=
  match dget streqb ps (lit name) with Some (VNum d) => Ok (dR d) | _ => Err TypeError end.
(** The same where None is a possible value, [None] here. *)
Definition kw_none (ps : list (str * val)) (name : string) : res (option R) :=
  match dget streqb ps (lit name) with Some (VNum d) => Ok (Some (dR d)) | Some VNone => Ok None | _ => Err TypeError end.
(** The same where infinity is a possible value, [None] here. *)
Definition kw_inf (ps : list (str * val)) (name : string) : res (option R) :=
  match dget streqb ps (lit name) with Some (VNum d) => Ok (Some (dR d)) | Some VInf => Ok None | _ => Err TypeError end.

(** ahkab/time_functions.py 573-596 [exp], as [exp_call] of TimeFun.v, the time constants
    being any number and the parameters of the fall possibly infinite ([x / inf] is 0). *)
Definition exp_value (v1 v2 td1 tau1 : R) (td2 tau2 : option R) (time : R) : res R :=
  if Rlt_b time td1 then Ok v1
  else if Req_EM_T tau1 0 then Err ZeroDivision
  else
    let rise := v1 + (v2 - v1) * (1 - exp (- 1 * (time - td1) / tau1)) in
    if match td2 with Some td2 => Rlt_b time td2 | None => true end then Ok rise
    else match td2, tau2 with
         | Some td2, Some tau2 => if Req_EM_T tau2 0 then Err ZeroDivision else Ok (rise + (v1 - v2) * (1 - exp (- 1 * (time - td2) / tau2)))
         | _, _ => Ok (rise + (v1 - v2) * (1 - exp 0))
         end.

(** ahkab/netlist_parser.py 1235 and the [__call__] of the function. *)
Definition fun_value (f : tfun) (time : R) : res R :=
  let '(ty, ps) := f in
  if streqb ty (lit "sin") then
    bindr (kw ps "vo") (fun vo => bindr (kw ps "va") (fun va => bindr (kw ps "freq") (fun freq => bindr (kw ps "td") (fun td => bindr (kw ps "theta") (fun theta =>
    Ok (sin_call vo va freq td theta 0 time))))))
  else if streqb ty (lit "exp") then
    bindr (kw ps "v1") (fun v1 => bindr (kw ps "v2") (fun v2 => bindr (kw ps "td1") (fun td1 => bindr (kw ps "tau1") (fun tau1 =>
    bindr (kw_inf ps "td2") (fun td2 => bindr (kw_inf ps "tau2") (fun tau2 => exp_value v1 v2 td1 tau1 td2 tau2 time))))))
  else if streqb ty (lit "pulse") then
    bindr (kw ps "v1") (fun v1 => bindr (kw ps "v2") (fun v2 => bindr (kw ps "td") (fun td => bindr (kw ps "tr") (fun tr => bindr (kw ps "pw") (fun pw =>
    bindr (kw ps "tf") (fun tf => bindr (kw ps "per") (fun per => pulse_call (new_pulse v1 v2 td tr pw tf per) time)))))))
  else if streqb ty (lit "sffm") then
    bindr (kw ps "vo") (fun vo => bindr (kw ps "va") (fun va => bindr (kw_none ps "fc") (fun fc => bindr (kw ps "mdi") (fun mdi => bindr (kw ps "fs") (fun fs =>
    bindr (kw ps "td") (fun td => sffm_call vo va fc mdi fs td time))))))
  else if streqb ty (lit "am") then
    bindr (kw ps "sa") (fun sa => bindr (kw ps "fc") (fun fc => bindr (kw ps "fm") (fun fm => bindr (kw ps "oc") (fun oc => bindr (kw_none ps "td") (fun td =>
    am_call sa fc fm oc td time)))))
  else Err KeyError.

(** components/sources/VSource.py 91-97, ISource.py 93-98: the time function of a source,
    and its value at a time that is not None; 0 for the names that are not those of a
    source with a time function, or if the function fails. *)
Definition function_of (e : pelem) : option tfun := match e with PV _ _ _ _ _ f | PI _ _ _ _ _ f => f | _ => None end.
Definition wave_of (parts : list pelem) (id : str) (time : R) : R :=
  match find (fun e => streqb (pid e) id) parts with
  | Some e => match function_of e with Some f => match fun_value f time with Ok v => v | Err _ => 0 end | None => 0 end
  | None => 0
  end.
