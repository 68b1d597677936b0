(** Model of the assembly of the MNA system (ahkab/dc_analysis.py 949-1069), of
    its reduction (ahkab/utilities.py 99-155), of the gmin matrix
    (ahkab/dc_analysis.py 323-351), of the dynamic matrix
    (ahkab/transient.py 472-561) and of the AC matrix (ahkab/ac.py 321-380).
    Floating point numbers are real numbers. *)
From Coq Require Import Reals String Ascii List Bool Arith QArith.
From Verif Require Import Base Nodes Circuit Rsum.
Import ListNotations.
Open Scope R_scope.

(** Linear elements (ahkab/components/*.py); nodes are the internal integers.
    [td] is [is_timedependent].  A nonlinear element is opaque here. *)
Inductive lelem : Type :=
| ER (id : string) (n1 n2 : nat) (r : R)
| EC (id : string) (n1 n2 : nat) (c : R)
| EL (id : string) (n1 n2 : nat) (l : R)
| EK (id : string) (l1 l2 : string) (k m : R)
| EV (id : string) (n1 n2 : nat) (dc : R) (td : bool)
| EI (id : string) (n1 n2 : nat) (dc : R) (td : bool)
| EE (id : string) (n1 n2 s1 s2 : nat) (alpha : R)
| EG (id : string) (n1 n2 s1 s2 : nat) (alpha : R)
| EF (id : string) (n1 n2 : nat) (src : string) (alpha : R)
| EH (id : string) (n1 n2 : nat) (src : string) (alpha : R)
| ENL (id : string) (n1 n2 : nat).

Definition lid (e : lelem) : string :=
  match e with
  | ER id _ _ _ | EC id _ _ _ | EL id _ _ _ | EK id _ _ _ _ | EV id _ _ _ _
  | EI id _ _ _ _ | EE id _ _ _ _ _ | EG id _ _ _ _ _ | EF id _ _ _ _ | EH id _ _ _ _
  | ENL id _ _ => id
  end.

(** ahkab/circuit.py 1150-1169 [is_elem_voltage_defined]. *)
Definition is_vde (e : lelem) : bool :=
  match e with EV _ _ _ _ _ | EE _ _ _ _ _ _ | EH _ _ _ _ _ | EL _ _ _ _ => true | _ => false end.

(** The circuit-level view of an element, so that the name lookup is the one of
    Circuit.v. *)
Definition as_celem (e : lelem) : celem :=
  mkElem (lid e) None None None None false [] (is_vde e) 0%Q.

(** ahkab/circuit.py 1078-1118 [find_vde_index]. *)
Definition vde_index (es : list lelem) (s : string) : res nat :=
  find_vde_index_from (map as_celem es) s 0.

Definition n_vde (es : list lelem) : nat := length (filter is_vde es).

(** ahkab/dc_analysis.py 985-1021, first pass. *)
Definition stamp1 (st : mat * vec) (e : lelem) : mat * vec :=
  let '(m, v) := st in
  match e with
  | ER _ n1 n2 r =>
      let g := 1 / r in
      (madd (madd (madd (madd m n1 n1 g) n1 n2 (- g)) n2 n1 (- g)) n2 n2 g, v)
  | EG _ n1 n2 s1 s2 a =>
      (madd (madd (madd (madd m n1 s1 a) n1 s2 (- a)) n2 s1 (- a)) n2 s2 a, v)
  | EI _ n1 n2 dc td =>
      if td then (m, v) else (m, vadd (vadd v n1 dc) n2 (- dc))
  | _ => (m, v)
  end.

(** ahkab/dc_analysis.py 1023-1056, second pass: one more row and column for
    each voltage-defined element.  [k] counts those met so far, so that the
    new row has index [nv + k]; the not yet appended rows and columns are zero.
    [n1], [n2] entries are assigned, not accumulated.  The access to the
    column of the sensed source raises IndexError if that column has not been
    appended yet. *)
Definition stamp_vde (nv : nat) (es : list lelem) (k : nat) (st : mat * vec) (e : lelem)
  : res (mat * vec) :=
  let '(m, v) := st in
  let idx := (nv + k)%nat in
  let branch n1 n2 :=
    mset (mset (mset (mset m n1 idx 1) n2 idx (-1)) idx n1 1) idx n2 (-1) in
  match e with
  | EV _ n1 n2 dc td => Ok (branch n1 n2, if td then v else vset v idx (- dc))
  | EE _ n1 n2 s1 s2 a => Ok (mset (mset (branch n1 n2) idx s1 (- a)) idx s2 a, v)
  | EL _ n1 n2 _ => Ok (branch n1 n2, v)
  | EH _ n1 n2 src a =>
      bindr (vde_index es src) (fun j =>
      if (j <=? k)%nat then Ok (mset (branch n1 n2) idx (nv + j) a, v) else Err IndexError)
  | _ => Ok (m, v)
  end.

Fixpoint pass2 (nv : nat) (all : list lelem) (es : list lelem) (k : nat) (st : mat * vec)
  : res (mat * vec) :=
  match es with
  | [] => Ok st
  | e :: es' =>
      if is_vde e
      then bindr (stamp_vde nv all k st e) (fun st' => pass2 nv all es' (S k) st')
      else pass2 nv all es' k st
  end.

(** ahkab/dc_analysis.py 1058-1063, third pass: the F sources. *)
Definition stampF (nv : nat) (es : list lelem) (m : mat) (e : lelem) : res mat :=
  match e with
  | EF _ n1 n2 src a =>
      bindr (vde_index es src) (fun j => Ok (madd (madd m n1 (nv + j) a) n2 (nv + j) (- a)))
  | _ => Ok m
  end.

Fixpoint pass3 (nv : nat) (all : list lelem) (es : list lelem) (m : mat) : res mat :=
  match es with
  | [] => Ok m
  | e :: es' => bindr (stampF nv all m e) (fun m' => pass3 nv all es' m')
  end.

(** ahkab/dc_analysis.py 949-1069 [generate_mna_and_N]; the result has
    [nv + n_vde es] rows.  The ground-path check that follows only prints. *)
Definition generate_mna_and_N (nv : nat) (es : list lelem) : res (mat * vec) :=
  bindr (pass2 nv es es 0 (fold_left stamp1 es (mzero, vzero))) (fun st =>
  bindr (pass3 nv es es (fst st)) (fun m => Ok (m, snd st))).

(** ahkab/utilities.py 99-131 [remove_row_and_col] and 134-155 [remove_row] with the
    default arguments: row and column 0 go. *)
Definition reduce_mat (m : mat) : mat := fun i j => m (S i) (S j).
Definition reduce_vec (v : vec) : vec := fun i => v (S i).

(** ahkab/dc_analysis.py 323-351 [build_gmin_matrix]; [nv] nodes. *)
Fixpoint gmin_loop (n : nat) (g : R) (m : mat) : mat :=
  match n with O => m | S k => mset (gmin_loop k g m) k k g end.
Definition build_gmin_matrix (nv : nat) (g : R) : mat := gmin_loop (nv - 1) g mzero.

(** ** Dynamic matrix *)

(** The couplings attached to the inductor called [id]: [add_inductor_coupling]
    (ahkab/circuit.py 599-611) appends the coupling to both inductors it names. *)
Definition couplings_of (es : list lelem) (id : string) : list (string * string * R) :=
  flat_map (fun e => match e with
                     | EK _ l1 l2 _ m =>
                         if String.eqb l1 id || String.eqb l2 id then [(l1, l2, m)] else []
                     | _ => []
                     end) es.

(** ahkab/components/Inductor.py 125-133 [get_other_inductor]; the generic
    [Exception] is rendered as ValueError. *)
Definition other_inductor (c : string * string * R) (id : string) : res string :=
  let '(l1, l2, _) := c in
  if String.eqb (upper id) (upper l1) then Ok l2
  else if String.eqb (upper id) (upper l2) then Ok l1
  else Err ValueError.

(** ahkab/transient.py 538-545: the loop on [coupling_devices]. *)
Fixpoint add_couplings (nv k : nat) (es : list lelem) (id : string)
         (cs : list (string * string * R)) (d : mat) : res mat :=
  match cs with
  | [] => Ok d
  | c :: cs' =>
      bindr (other_inductor c id) (fun o =>
      bindr (vde_index es o) (fun j =>
      add_couplings nv k es id cs' (madd d (nv + k) (nv + j) (- (snd c)))))
  end.

(** ahkab/transient.py 524-548: the loop on the elements; [k] is [i_eq]. *)
Fixpoint dyn_loop (nv : nat) (all : list lelem) (es : list lelem) (k : nat) (d : mat) : res mat :=
  match es with
  | [] => Ok d
  | e :: es' =>
      match e with
      | EC _ n1 n2 c =>
          dyn_loop nv all es' k
            (madd (madd (madd (madd d n1 n1 c) n1 n2 (- c)) n2 n2 c) n2 n1 (- c))
      | EL id _ _ l =>
          bindr (add_couplings nv k all id (couplings_of all id)
                   (mset d (nv + k) (nv + k) (- l)))
                (fun d' => dyn_loop nv all es' (S k) d')
      | _ => dyn_loop nv all es' (if is_vde e then S k else k) d
      end
  end.

(** ahkab/transient.py 550-554: [eye] with ones along the ground row and column
    and [nv - 1] in the corner. *)
Definition cmin_mat (nv : nat) : mat := fun i j =>
  if (i =? 0)%nat && (j =? 0)%nat then INR nv - 1
  else if (i =? 0)%nat || (j =? 0)%nat then 1
  else dlt i j.

(** ahkab/transient.py 550-560: the [cmin] capacitors; [options.cmin] is a
    parameter. *)
Definition add_cmin (nv : nat) (cmin : R) (d : mat) : mat :=
  if Rlt_dec 0 cmin
  then fun i j => if (i <? nv)%nat && (j <? nv)%nat then d i j + cmin * cmin_mat nv i j else d i j
  else d.

(** ahkab/transient.py 472-561 [generate_D]. *)
Definition generate_D (cmin : R) (nv : nat) (es : list lelem) : res mat :=
  bindr (dyn_loop nv es es 0 mzero) (fun d => Ok (add_cmin nv cmin d)).

(** ahkab/ac.py 323-377 [_generate_AC], transcribed on its own. *)
Fixpoint ac_loop (nv : nat) (all : list lelem) (es : list lelem) (k : nat) (d : mat) : res mat :=
  match es with
  | [] => Ok d
  | e :: es' =>
      match e with
      | EC _ n1 n2 c =>
          let d1 := madd d n1 n1 c in
          let d2 := madd d1 n1 n2 (- c) in
          let d3 := madd d2 n2 n2 c in
          ac_loop nv all es' k (madd d3 n2 n1 (- c))
      | EL id _ _ l =>
          match add_couplings nv k all id (couplings_of all id) (mset d (nv + k) (nv + k) (- l)) with
          | Ok d' => ac_loop nv all es' (S k) d'
          | Err er => Err er
          end
      | _ => ac_loop nv all es' (if is_vde e then S k else k) d
      end
  end.

Definition generate_AC (cmin : R) (nv : nat) (es : list lelem) : res mat :=
  bindr (ac_loop nv es es 0 mzero) (fun d => Ok (add_cmin nv cmin d)).
