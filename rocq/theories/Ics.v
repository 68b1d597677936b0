(** Model of the initial vectors: ahkab/dc_analysis.py 1072-1123
    [build_x0_from_user_supplied_ic] and 1126-1190 [modify_x0_for_ic]. *)
From Coq Require Import Ascii String Reals List Bool Arith.
From Verif Require Import Base Str Nodes Rsum.
Import ListNotations.
Open Scope R_scope.

(** ** User-supplied vectors *)

(** The class [[a-z0-9]] with IGNORECASE. *)
Definition is_alnum (c : ascii) : bool :=
  let n := nat_of_ascii (lower_ascii c) in is_digit c || ((97 <=? n)%nat && (n <=? 122)%nat).

(** ahkab/dc_analysis.py 1103-1104: a match of the regular expression
    [c\s*\(\s*([a-z0-9]+)\s*\)] at the start of [s]; the classes that meet are
    disjoint, so there is nothing to backtrack.  The group is returned. *)
Definition match_here (c : ascii) (s : str) : option str :=
  match s with
  | [] => None
  | x :: s1 =>
      if Ascii.eqb (lower_ascii x) c then
        match lstrip s1 with
        | "("%char :: s2 =>
            let '(name, s3) := span is_alnum (lstrip s2) in
            match name, lstrip s3 with
            | _ :: _, ")"%char :: _ => Some name
            | _, _ => None
            end
        | _ => None
        end
      else None
  end.
(** [search] and the first of [findall]. *)
Fixpoint re_search (c : ascii) (s : str) : option str :=
  match match_here c s with
  | Some n => Some n
  | None => match s with [] => None | _ :: s' => re_search c s' end
  end.

(** [list.index] on the lower-case names of the voltage-defined elements. *)
Fixpoint index_of (names : list str) (x : str) (k : nat) : res nat :=
  match names with
  | [] => Err ValueError
  | y :: names' => if streqb y x then Ok k else index_of names' x (S k)
  end.

Definition ic_v (t : ntab) (name : str) : res nat := ext_node_to_int t (string_of_list_ascii name).

(** ahkab/dc_analysis.py 1105-1123; [vdes] are the ids of the voltage-defined
    elements in circuit order. *)
Definition ic_index (t : ntab) (vdes : list str) (label : str) : res nat :=
  match re_search "v"%char label with
  | Some n => ic_v t n
  | None =>
      match re_search "i"%char label with
      | Some e => bindr (index_of (map slower vdes) (slower e) 0) (fun k => Ok (get_nodes_number t + k)%nat)
      | None => Err ValueError
      end
  end.
Fixpoint ic_loop (t : ntab) (vdes : list str) (d : list (str * R)) (x0 : vec) : res vec :=
  match d with
  | [] => Ok x0
  | (label, v) :: d' => bindr (ic_index t vdes label) (fun i => ic_loop t vdes d' (vset x0 i v))
  end.
(** The row of ground is dropped. *)
Definition build_x0 (t : ntab) (vdes : list str) (d : list (str * R)) : res vec :=
  bindr (ic_loop t vdes d vzero) (fun x => Ok (fun i => x (S i))).

(** ** Initial conditions of the elements *)

(** Capacitors and diodes have nodes; [ic] is None if not given.  Other
    elements are voltage defined or not. *)
Inductive icelem :=
| ICap (n1 n2 : nat) (ic : option R)
| IDio (n1 n2 : nat) (ic : option R)
| IInd (ic : option R)
| IOther (vde : bool).

(** Truth value of [elem.ic]: neither None nor 0. *)
Definition truthy (ic : option R) : option R :=
  match ic with Some v => if Req_EM_T v 0 then None else Some v | None => None end.

(** numpy index [n - 1]: for ground that is -1, the last of the [size] entries. *)
Definition np_index (size n : nat) : nat := match n with O => (size - 1)%nat | S k => k end.

(** ahkab/dc_analysis.py 1171-1174. *)
Definition ic_voltage (size : nat) (x : vec) (e : icelem) : vec :=
  match e with
  | ICap n1 n2 ic | IDio n1 n2 ic =>
      match truthy ic with
      | Some v => vset x (np_index size n1) (x (np_index size n2) + v)
      | None => x
      end
  | _ => x
  end.
(** ahkab/dc_analysis.py 1177-1179; [k] is the position among the
    voltage-defined elements. *)
Fixpoint ic_currents (nv : nat) (es : list icelem) (k : nat) (x : vec) : vec :=
  match es with
  | [] => x
  | IInd ic :: es' =>
      ic_currents nv es' (S k) (match truthy ic with Some v => vset x (nv - 1 + k) v | None => x end)
  | IOther true :: es' => ic_currents nv es' (S k) x
  | _ :: es' => ic_currents nv es' k x
  end.
Definition is_ivde (e : icelem) : bool := match e with IInd _ | IOther true => true | _ => false end.
Definition modify_x0 (nv : nat) (es : list icelem) (x : vec) : vec :=
  let size := (nv - 1 + length (filter is_ivde es))%nat in
  ic_currents nv es 0 (fold_left (ic_voltage size) es x).
