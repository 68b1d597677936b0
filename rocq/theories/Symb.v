(** Model of the symbolic formulation: ahkab/symbolic.py 301-560 [generate_mna_and_N],
    580-622 [_parse_substitutions] and 624-631 [_symbol_factory], on the linear elements
    ([lelem]).  A sympy expression is represented by its value for given values of the
    symbols ([env]) and of the Laplace variable [s]; symbols are equal when names and
    assumptions are.  With [options.symb_formulate_with_gs] the conductance symbols are
    replaced at once by what [subs_g] replaces them with after the solution.  Not
    modelled: diodes and MOS transistors (the elements [ENL] are those skipped with a
    warning), the solution of the equations by sympy. *)
From Coq Require Import Reals String Ascii List Bool Arith.
From Verif Require Import Base Str Rsum Mna.
Import ListNotations.
Open Scope R_scope.

(** 624-631: the name is put in upper case; [real] and [positive] as enabled
    (88: both are). *)
Record sym := mkSym { y_name : string; y_real : bool; y_pos : bool }.
Definition symbol_factory (name : string) (real pos : bool) : sym := mkSym (upper name) real pos.
Definition sym_eqb (a b : sym) : bool :=
  String.eqb (y_name a) (y_name b) && Bool.eqb (y_real a) (y_real b) && Bool.eqb (y_pos a) (y_pos b).

(** A dictionary from symbols to symbols; [update] replaces. *)
Definition sdict := list (sym * sym).
Definition sget (d : sdict) (k : sym) : option sym := option_map snd (find (fun p => sym_eqb (fst p) k) d).
Definition supdate (d : sdict) (k v : sym) : sdict := (k, v) :: filter (fun p => negb (sym_eqb (fst p) k)) d.
(** [if X in subs: X = subs[X]]. *)
Definition subst (d : sdict) (y : sym) : sym := match sget d y with Some v => v | None => y end.

(** [str[1:]]. *)
Definition tail (t : string) : string := match t with EmptyString => EmptyString | String _ r => r end.
Definition head_upper (t : string) : string := match t with EmptyString => EmptyString | String c _ => String (upper_ascii c) EmptyString end.
Definition cond_postfix : string := "xxx".

Definition positive_letter (l : string) : bool := existsb (String.eqb l) ["R"; "G"; "L"; "C"; "M"]%string.
(** 603-621: one entry; an empty name is an IndexError in python, here it gives a
    symbol. *)
Definition parse_substitution (gs : bool) (p : string * string) : sym * sym :=
  let '(v1, v2) := p in
  let cond := String.eqb (head_upper v1) "R" && gs in
  let l1 := if cond then append "G" cond_postfix else head_upper v1 in
  let l2 := if cond then append "G" cond_postfix else head_upper v2 in
  let p1 := if cond then true else positive_letter l1 in
  let p2 := if cond then true else positive_letter l2 in
  (symbol_factory (append l1 (tail v1)) true p1, symbol_factory (append l2 (tail v2)) true p2).
Definition parse_substitutions (gs : bool) (l : list (string * string)) : sdict :=
  fold_left (fun d p => let '(k, v) := parse_substitution gs p in supdate d k v) l [].

(** The symbol of each element (374, 395, 411, 422, 481, 489, 498, 508, 531, 549). *)
Definition sym_of (e : lelem) : sym :=
  match e with
  | ER id _ _ _ | EC id _ _ _ | EL id _ _ _ | EK id _ _ _ _ => symbol_factory id true true
  | EE id _ _ _ _ _ | EG id _ _ _ _ _ | EF id _ _ _ _ | EH id _ _ _ _ => symbol_factory id true false
  | EV id _ _ _ _ | EI id _ _ _ _ | ENL id _ _ => symbol_factory id false false
  end.
(** The number used for an element that is not symbolic: 387, 400,
    415 ([elem.value], which a GISource does not have), 426, 485, 493, 502, 513
    ([elem.L], which an Inductor does not have), 536 ([cd.K]), 553. *)
Definition num_of (e : lelem) : res R :=
  match e with
  | ER _ _ _ r => Ok r
  | EC _ _ _ c => Ok c
  | EL _ _ _ _ => Err AttributeError
  | EK _ _ _ k _ => Ok k
  | EV _ _ _ dc _ | EI _ _ _ dc _ => Ok dc
  | EE _ _ _ _ _ a => Ok a
  | EG _ _ _ _ _ _ => Err AttributeError
  | EF _ _ _ _ a | EH _ _ _ _ a => Ok a
  | ENL _ _ _ => Ok 0
  end.

Section Symbolic.
  Variable gs : bool.                 (* options.symb_formulate_with_gs *)
  Variable ac : bool.
  Variable s : R.
  Variable is_symbolic : lelem -> bool.
  Variable subs : sdict.
  Variable env : sym -> R.

  Definition value_of (e : lelem) : res R :=
    if is_symbolic e then Ok (env (subst subs (sym_of e))) else num_of e.

  (** 379-380: the conductance symbol of a resistor symbol. *)
  Definition cond_sym (r : sym) : sym := symbol_factory (append "Gxxx" (tail (y_name r))) true true.
  (** 383: [subs_g]. *)
  Definition subs_g (es : list lelem) : sdict :=
    fold_left (fun d e => match e with
                          | ER _ _ _ _ => if is_symbolic e && gs
                                          then let r := subst subs (sym_of e) in supdate d (cond_sym r) r
                                          else d
                          | _ => d end) es [].
  (** 370-387; in [all] are the elements that make [subs_g]. *)
  Definition conductance (all : list lelem) (e : lelem) : res R :=
    if is_symbolic e && gs
    then let r := subst subs (sym_of e) in
         Ok (match sget (subs_g all) (cond_sym r) with Some r' => 1 / env r' | None => env (cond_sym r) end)
    else bindr (value_of e) (fun r => Ok (1 / r)).

  (** 369-465, first pass. *)
  Definition y_stamp1 (all : list lelem) (st : mat * vec) (e : lelem) : res (mat * vec) :=
    let '(m, v) := st in
    match e with
    | ER _ n1 n2 _ =>
        bindr (conductance all e) (fun g =>
        Ok (madd (madd (madd (madd m n1 n1 g) n1 n2 (- g)) n2 n1 (- g)) n2 n2 g, v))
    | EC _ n1 n2 _ =>
        if ac then
          bindr (value_of e) (fun c =>
          Ok (madd (madd (madd (madd m n1 n1 (s * c)) n1 n2 (- (s * c))) n2 n2 (s * c)) n2 n1 (- (s * c)), v))
        else Ok (m, v)
    | EG _ n1 n2 s1 s2 _ =>
        bindr (value_of e) (fun a =>
        Ok (madd (madd (madd (madd m n1 s1 a) n1 s2 (- a)) n2 s1 (- a)) n2 s2 a, v))
    | EI _ n1 n2 _ _ =>
        bindr (value_of e) (fun i => Ok (m, vadd (vadd v n1 i) n2 (- i)))
    | _ => Ok (m, v)
    end.
  Fixpoint y_pass1 (all es : list lelem) (st : mat * vec) : res (mat * vec) :=
    match es with [] => Ok st | e :: es' => bindr (y_stamp1 all st e) (fun st' => y_pass1 all es' st') end.

  (** 467-522, second pass; as in [stamp_vde] the new rows and columns are the zero
      ones past the end, and a column not yet appended is an IndexError. *)
  Definition y_stamp_vde (nv : nat) (es : list lelem) (k : nat) (st : mat * vec) (e : lelem) : res (mat * vec) :=
    let '(m, v) := st in
    let idx := (nv + k)%nat in
    let branch n1 n2 := mset (mset (mset (mset m n1 idx 1) n2 idx (-1)) idx n1 1) idx n2 (-1) in
    match e with
    | EV _ n1 n2 _ _ => bindr (value_of e) (fun x => Ok (branch n1 n2, vset v idx (- x)))
    | EE _ n1 n2 s1 s2 _ => bindr (value_of e) (fun a => Ok (mset (mset (branch n1 n2) idx s1 (- a)) idx s2 a, v))
    | EH _ n1 n2 src _ =>
        bindr (value_of e) (fun a =>
        bindr (vde_index es src) (fun j =>
        if (j <=? k)%nat then Ok (mset (branch n1 n2) idx (nv + j) a, v) else Err IndexError))
    | EL _ n1 n2 _ =>
        if ac then bindr (value_of e) (fun l => Ok (mset (branch n1 n2) idx idx (- s * l), v))
        else Ok (branch n1 n2, v)
    | _ => Ok (m, v)
    end.
  Fixpoint y_pass2 (nv : nat) (all es : list lelem) (k : nat) (st : mat * vec) : res (mat * vec) :=
    match es with
    | [] => Ok st
    | e :: es' => if is_vde e then bindr (y_stamp_vde nv all k st e) (fun st' => y_pass2 nv all es' (S k) st')
                  else y_pass2 nv all es' k st
    end.

  (** 524-557, third pass: couplings (those that name the inductor, see
      [couplings_of]) and F sources. *)
  Fixpoint y_couplings (nv k : nat) (all : list lelem) (id : string) (es : list lelem) (m : mat) : res mat :=
    match es with
    | [] => Ok m
    | e :: es' =>
        match e with
        | EK _ l1 l2 _ _ =>
            if String.eqb l1 id || String.eqb l2 id
            then bindr (value_of e) (fun v =>
                 bindr (other_inductor (l1, l2, v) id) (fun o =>
                 bindr (vde_index all o) (fun j =>
                 y_couplings nv k all id es' (madd m (nv + k) (nv + j) (- s * v)))))
            else y_couplings nv k all id es' m
        | _ => y_couplings nv k all id es' m
        end
    end.
  Fixpoint y_pass3 (nv : nat) (all es : list lelem) (m : mat) : res mat :=
    match es with
    | [] => Ok m
    | e :: es' =>
        match e with
        | EL id _ _ _ =>
            if ac then bindr (vde_index all id) (fun k => bindr (y_couplings nv k all id all m) (fun m' => y_pass3 nv all es' m'))
            else y_pass3 nv all es' m
        | EF _ n1 n2 src _ =>
            bindr (vde_index all src) (fun j =>
            bindr (value_of e) (fun a => y_pass3 nv all es' (madd (madd m n1 (nv + j) a) n2 (nv + j) (- a))))
        | _ => y_pass3 nv all es' m
        end
    end.

  Definition symbolic_mna_and_N (nv : nat) (es : list lelem) : res (mat * vec) :=
    bindr (y_pass1 es es (mzero, vzero)) (fun st1 =>
    bindr (y_pass2 nv es es 0 st1) (fun st2 =>
    bindr (y_pass3 nv es es (fst st2)) (fun m => Ok (m, snd st2)))).
End Symbolic.
