(** Model of the symbolic analysis: ahkab/symbolic.py 103-214 [symbolic_analysis],
    217-249 [calculate_gains], 252-280 [get_variables], the small-signal elements of
    428-455, ahkab/results.py 959-1036 ([symbolic_solution], the symbols) and
    ahkab/printing.py 270-310.  An expression of sympy is a function of the Laplace
    variable and of the values of the symbols; [sympy.solve] and [diff] are oracles.
    Poles and zeros ([sympy.solve] again) are left out, and so are the messages. *)
From Coq Require Import Reals String Ascii List Bool Arith.
From Verif Require Import Base Str Rsum Mna Symb.
Import ListNotations.
Open Scope R_scope.

Definition env := sym -> R.
Definition expr := R -> env -> R.
Definition set_sym (en : env) (y : sym) (t : R) : env := fun z => if sym_eqb y z then t else en z.

(** ahkab/symbolic.py 252-280; [name i] is [circ.nodes_dict[i]]. *)
Definition node_sym (n : string) : sym := symbol_factory (append "V" n) false false.
Definition current_sym (id : string) : sym := symbol_factory (append "I[" (append (upper id) "]")) false false.
Definition get_variables (nv : nat) (name : nat -> string) (es : list lelem) : list sym :=
  (map (fun i => node_sym (name (S i))) (seq 0 (nv - 1)) ++ map (fun e => current_sym (lid e)) (filter is_vde es))%list.

Section Analysis.
  Variables (gs ac : bool) (is_symbolic : lelem -> bool) (subs : sdict).
  Variables (nv : nat) (name : nat -> string) (es : list lelem).
  (** 150-165: the left hand sides of the equations. *)
  Definition equation (i : nat) : expr := fun s en =>
    match symbolic_mna_and_N gs ac s is_symbolic subs en nv es with
    | Ok (m, v) =>
        let x := get_variables nv name es in
        rsum (length x) (fun j => m (S i) (S j) * en (nth j x (node_sym ""))) + v (S i)
    | Err _ => 0
    end.
  Definition equations : list expr := map equation (seq 0 (length (get_variables nv name es))).
End Analysis.

(** What [sympy.solve] returns for linear equations: a dictionary, or an empty list if
    there is no solution. *)
Inductive solved := SDict (l : list (sym * expr)) | SEmptyList.

(** A transfer function (241-248). *)
Record tf := mkTf { t_gain : expr; t_gain0 : expr }.

Section Driver.
  Variable solve : list expr -> list sym -> solved.
  Variable diff : expr -> sym -> expr.
  Variables (cli py3 : bool).          (* options.cli; python 3 *)

  (** 217-249; the key is "<variable>/<source>". *)
  Definition calculate_gains (sol : list (sym * expr)) (xin : sym) : list (string * tf) :=
    map (fun kv => (append (y_name (fst kv)) (append "/" (y_name xin)),
                    let g := diff (snd kv) xin in mkTf g (fun _ => g 0))) sol.

  (** ahkab/printing.py 270-284 and 287-310: [keys.sort(lambda ...)]. *)
  Definition print_sorted (py3 : bool) : res unit := if py3 then Err TypeError else Ok tt.

  (** 138-214.  The result has the solution, the transfer functions ([None] without a
      source) and the files that are written.  [subs] are the parsed substitutions. *)
  Record outcome := mkOut { o_sol : list (sym * expr); o_tfs : option (list (string * tf)); o_warned : bool; o_files : list string }.
  Definition symbolic_analysis (gs ac : bool) (is_symbolic : lelem -> bool) (subs : sdict) (nv : nat) (name : nat -> string) (es : list lelem)
      (source : option string) (outfile : option string) : res outcome :=
    bindr (match symbolic_mna_and_N gs ac 0 is_symbolic subs (fun _ => 1) nv es with Ok _ => Ok tt | Err e => Err e end) (fun _ =>
    match solve (equations gs ac is_symbolic subs nv name es) (get_variables nv name es) with
    | SEmptyList => Err AttributeError                                  (* 184: [sol.keys()] *)
    | SDict sol =>
        let warned := match sol with [] => true | _ => false end in
        bindr (if negb warned && cli then print_sorted py3 else Ok tt) (fun _ =>
        bindr (match source with
               | None => Ok None
               | Some src => let tfs := calculate_gains sol (symbol_factory (upper src) false false) in
                             bindr (if cli then print_sorted py3 else Ok tt) (fun _ => Ok (Some tfs))
               end) (fun tfs =>
        let to_file := match outfile with Some f => negb (String.eqb f "stdout") | None => false end in
        let base := match outfile with Some f => f | None => EmptyString end in
        let f1 := if to_file then [base] else [] in
        let f2 := match tfs with Some (_ :: _) => if to_file then [append base ".tfs"] else [] | _ => [] end in
        Ok (mkOut sol tfs warned (f1 ++ f2)%list)))
    end).
End Driver.

(** ** The symbols of a solution (ahkab/results.py 973-979, 984-1014) *)

(** The entries of [_symbols]: the keys, which are strings for transfer functions, and
    then the symbols of the expressions ([atoms], an oracle). *)
Inductive entry := ESym (y : sym) | EStr (s : string).
Definition add_new (l : list entry) (ys : list sym) : list entry :=
  fold_left (fun l y => if existsb (fun e => match e with ESym z => sym_eqb z y | EStr _ => false end) l then l else (l ++ [ESym y])%list) ys l.
Definition symbols_of (keys : list entry) (atoms : list (list sym)) : list entry := fold_left add_new atoms keys.
Fixpoint named (v : string) (l : list entry) : res (list sym) :=
  match l with
  | [] => Ok []
  | EStr _ :: _ => Err AttributeError
  | ESym y :: l' => bindr (named v l') (fun r => Ok (if String.eqb (lower (y_name y)) (lower v) then y :: r else r))
  end.
Definition as_symbol (l : list entry) (v : string) : res sym :=
  bindr (named v l) (fun r => match r with [] => Err ValueError | y :: _ => Ok y end).

(** ** Transistors and diodes (ahkab/symbolic.py 428-455) *)
Inductive selem :=
| SLin (e : lelem)
| SMos (id : string) (n1 n2 ng : nat)
| SDiode (id : string) (n1 n2 : nat).
Definition gm_sym (id : string) : sym := symbol_factory (append "gm_" id) true true.
Definition r0_sym (id : string) : sym := symbol_factory (append "r0_" id) true true.
(** [positive=True] alone; a positive symbol of sympy is real. *)
Definition gd_sym (id : string) : sym := symbol_factory (append "g" id) true true.
Definition linear (l : list selem) : list lelem := flat_map (fun e => match e with SLin x => [x] | _ => [] end) l.

Section SmallSignal.
  Variables (gs ac : bool) (s : R) (is_symbolic : lelem -> bool) (subs : sdict) (en : env) (r0s : bool).
  (** The first pass with these elements; the other passes skip them. *)
  Definition s_stamp1 (all : list lelem) (st : mat * vec) (e : selem) : res (mat * vec) :=
    let '(m, v) := st in
    match e with
    | SLin x => y_stamp1 gs ac s is_symbolic subs en all st x
    | SMos id n1 n2 ng =>
        let gm := en (subst subs (gm_sym id)) in
        let m := madd (madd (madd (madd m n1 ng gm) n1 n2 (- gm)) n2 ng (- gm)) n2 n2 gm in
        if r0s then
          let g0 := 1 / en (subst subs (r0_sym id)) in
          Ok (madd (madd (madd (madd m n1 n1 g0) n1 n2 (- g0)) n2 n1 (- g0)) n2 n2 g0, v)
        else Ok (m, v)
    | SDiode id n1 n2 =>
        let gd := en (subst subs (gd_sym id)) in
        Ok (madd (madd (madd (madd m n1 n1 gd) n1 n2 (- gd)) n2 n1 (- gd)) n2 n2 gd, v)
    end.
  Fixpoint s_pass1 (all : list lelem) (l : list selem) (st : mat * vec) : res (mat * vec) :=
    match l with [] => Ok st | e :: l' => bindr (s_stamp1 all st e) (fun st' => s_pass1 all l' st') end.
  Definition s_mna_and_N (nv : nat) (l : list selem) : res (mat * vec) :=
    let es := linear l in
    bindr (s_pass1 es l (mzero, vzero)) (fun st1 =>
    bindr (y_pass2 ac s is_symbolic subs en nv es es 0 st1) (fun st2 =>
    bindr (y_pass3 ac s is_symbolic subs en nv es es (fst st2)) (fun m => Ok (m, snd st2)))).
End SmallSignal.
