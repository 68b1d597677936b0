(** Model of the element list of a circuit: insertion, removal and lookups
    (ahkab/circuit.py 303-1169). *)
From Coq Require Import String Ascii List Bool Arith QArith.
From Verif Require Import Base Nodes.
Import ListNotations.
Open Scope nat_scope.

(** What the circuit-level operations observe of an element.  [None] in
    [at_n1] .. [at_sn2] means that the object has no such attribute
    ([hasattr] is false): resistors, capacitors, inductors and independent
    sources have [n1]/[n2] only (ahkab/components/*.py); E and G sources and
    switches have also [sn1]/[sn2]; an inductor coupling has neither
    (ahkab/components/Inductor.py 113-120).  [vdef] is
    [is_elem_voltage_defined] (ahkab/circuit.py 1150-1169).  [value] stands
    for the element parameters. *)
Record celem : Type := mkElem {
  part_id : string;
  at_n1 : option nat;
  at_n2 : option nat;
  at_sn1 : option nat;
  at_sn2 : option nat;
  nonlin : bool;
  ports : list (nat * nat);     (* nonlinear elements: [elem.ports], also the output ports *)
  vdef : bool;
  value : Q
}.

(** A circuit: element list, node table, names of the defined models. *)
Record circ : Type := mkCirc {
  elems : list celem;
  tab : ntab;
  models : list string
}.

Definition empty_circ : circ := mkCirc [] empty_ntab [].

Definition two_term (id : string) (v : bool) (i j : nat) (q : Q) : celem :=
  mkElem id (Some i) (Some j) None None false [] v q.

Definition set_tab (c : circ) (t : ntab) : circ := mkCirc (elems c) t (models c).
Definition append (c : circ) (e : celem) : circ := mkCirc (elems c ++ [e]) (tab c) (models c).

(** A node registration on the circuit that may raise. *)
Definition cadd_node (c : circ) (n : pyname) : circ * res nat :=
  let r := add_node (tab c) n in (set_tab c (fst r), snd r).

(** Sequencing of two calls: the state survives an exception. *)
Definition cbind {A B : Type} (m : circ * res A) (f : circ -> A -> circ * res B) : circ * res B :=
  match m with
  | (c, Ok a) => f c a
  | (c, Err e) => (c, Err e)
  end.

(** ahkab/circuit.py 465-498 [add_resistor]: the nodes are added before the
    value is checked. *)
Definition add_resistor (c : circ) (id : string) (n1 n2 : pyname) (v : Q) : circ * res unit :=
  cbind (cadd_node c n1) (fun c1 i =>
  cbind (cadd_node c1 n2) (fun c2 j =>
  if Qeq_bool v 0 then (c2, Err CircuitError)
  else (append c2 (two_term id false i j v), Ok tt))).

(** ahkab/circuit.py 500-537 [add_capacitor]: the value is checked first. *)
Definition add_capacitor (c : circ) (id : string) (n1 n2 : pyname) (v : Q) : circ * res unit :=
  if Qeq_bool v 0 then (c, Err CircuitError)
  else
    cbind (cadd_node c n1) (fun c1 i =>
    cbind (cadd_node c1 n2) (fun c2 j =>
    (append c2 (two_term id false i j v), Ok tt))).

(** ahkab/circuit.py 539-574 [add_inductor], 614-642 [add_vsource]: nodes, then
    the element, which is voltage defined. *)
Definition add_branch (c : circ) (id : string) (n1 n2 : pyname) (v : Q) : circ * res unit :=
  cbind (cadd_node c n1) (fun c1 i =>
  cbind (cadd_node c1 n2) (fun c2 j =>
  (append c2 (two_term id true i j v), Ok tt))).

(** ahkab/circuit.py 644-672 [add_isource]. *)
Definition add_isource (c : circ) (id : string) (n1 n2 : pyname) (v : Q) : circ * res unit :=
  cbind (cadd_node c n1) (fun c1 i =>
  cbind (cadd_node c1 n2) (fun c2 j =>
  (append c2 (two_term id false i j v), Ok tt))).

(** ahkab/circuit.py 844-877 [add_vcvs] ([vd = true]) and 880-915 [add_vccs]
    ([vd = false]): four nodes. *)
Definition add_vc (vd : bool) (c : circ) (id : string) (n1 n2 s1 s2 : pyname) (v : Q)
  : circ * res unit :=
  cbind (cadd_node c n1) (fun c1 i =>
  cbind (cadd_node c1 n2) (fun c2 j =>
  cbind (cadd_node c2 s1) (fun c3 k =>
  cbind (cadd_node c3 s2) (fun c4 l =>
  (append c4 (mkElem id (Some i) (Some j) (Some k) (Some l) false [] vd v), Ok tt))))).

(** ahkab/circuit.py 674-710 [add_diode]: the nodes are added before the model
    label is looked up; [self.models] is used ([models=None]). *)
Definition add_diode (c : circ) (id : string) (n1 n2 : pyname) (label : string) : circ * res unit :=
  cbind (cadd_node c n1) (fun c1 i =>
  cbind (cadd_node c1 n2) (fun c2 j =>
  if existsb (String.eqb label) (models c2)
  then (append c2 (mkElem id (Some i) (Some j) None None true [(i, j)] false 0), Ok tt)
  else (c2, Err ModelError))).

(** ahkab/circuit.py 576-612 [add_inductor_coupling]: both inductors must be
    present (exact, case-sensitive match of [part_id]; the [elif] makes
    [L1 = L2] an error); the coupling has no nodes.  The inductors are the
    voltage-defined elements whose id starts with the caller's [is_ind]. *)
Definition add_coupling (is_ind : celem -> bool) (c : circ) (id l1 l2 : string) (v : Q)
  : circ * res unit :=
  let has1 := existsb (fun e => is_ind e && String.eqb l1 (part_id e)) (elems c) in
  let has2 := existsb (fun e => is_ind e && String.eqb l2 (part_id e)
                                 && negb (String.eqb l1 (part_id e))) (elems c) in
  if has1 && has2
  then (append c (mkElem id None None None None false [] false v), Ok tt)
  else (c, Err ValueError).

(** ahkab/circuit.py 388-409 [get_elem_by_name]. *)
Definition name_match (s : string) (e : celem) : bool := String.eqb (lower (part_id e)) (lower s).

Definition get_elem_by_name (c : circ) (s : string) : res celem :=
  match find (name_match s) (elems c) with
  | Some e => Ok e
  | None => Err ValueError
  end.

(** ahkab/circuit.py 370-382 [has_duplicate_elem]: [len(set(ids)) != len(ids)]. *)
Definition has_duplicate_elem (c : circ) : bool :=
  let ids := map part_id (elems c) in
  negb (Nat.eqb (length (nodup string_dec ids)) (length ids)).

(** ahkab/circuit.py 303-314 [is_nonlinear]. *)
Definition is_nonlinear (c : circ) : bool := existsb nonlin (elems c).

(** ahkab/circuit.py 1078-1118 [find_vde_index], called with a [part_id]. *)
Fixpoint find_vde_index_from (es : list celem) (s : string) (k : nat) : res nat :=
  match es with
  | [] => Err ValueError
  | e :: es' =>
      if vdef e
      then if String.eqb (upper (part_id e)) (upper s) then Ok k
           else find_vde_index_from es' s (S k)
      else find_vde_index_from es' s k
  end.

Definition find_vde_index (c : circ) (s : string) : res nat := find_vde_index_from (elems c) s 0.

(** ahkab/circuit.py 1120-1146 [find_vde].  The index is signed because the
    code subtracts the number of node rows without checking. *)
Fixpoint find_vde_from (es : list celem) (index ni : Z) : res celem :=
  match es with
  | [] => Err IndexError
  | e :: es' =>
      if vdef e
      then if Z.eqb index ni then Ok e else find_vde_from es' index (ni + 1)
      else find_vde_from es' index ni
  end.

Definition find_vde (c : circ) (index : Z) : res celem :=
  find_vde_from (elems c) (index - Z.of_nat (get_nodes_number (tab c)) + 1) 0.

(** ** Element removal, ahkab/circuit.py 1007-1076 *)

Fixpoint remove_first (p : celem -> bool) (es : list celem) : list celem :=
  match es with
  | [] => []
  | e :: es' => if p e then es' else e :: remove_first p es'
  end.

Definition add_new (n : nat) (l : list nat) : list nat :=
  if (n =? 0) || existsb (Nat.eqb n) l then l else l ++ [n].

Definition add_opt (o : option nat) (l : list nat) : list nat :=
  match o with Some n => add_new n l | None => l end.

(** Lines 1033-1043: the non-ground nodes of the removed element. *)
Definition elem_nodes (e : celem) : list nat :=
  let l := add_opt (at_n2 e) (add_opt (at_n1 e) []) in
  if nonlin e
  then fold_left (fun l p => add_new (snd p) (add_new (fst p) l)) (ports e) l
  else l.

(** One operand of the [or] at lines 1048-1051: [hasattr] is asked of the
    removed element, the attribute is then read on the other one. *)
Definition attr_test (mine other : option nat) (n : nat) : res bool :=
  match mine with
  | None => Ok false
  | Some _ => match other with
              | None => Err AttributeError
              | Some x => Ok (x =? n)
              end
  end.

Definition orr (a : res bool) (b : res bool) : res bool :=
  match a with Ok true => Ok true | Ok false => b | Err e => Err e end.

Definition port_mem (n : nat) (ps : list (nat * nat)) : bool :=
  existsb (fun p => (fst p =? n) || (snd p =? n)) ps.

(** Lines 1047-1071: is node [n] of the removed element [x] still needed by
    some element?  When [x] is nonlinear the code tests the ports of [x]
    itself (twice), not those of the other element. *)
Fixpoint still_needed (x : celem) (n : nat) (es : list celem) : res bool :=
  match es with
  | [] => Ok false
  | e :: es' =>
      match orr (attr_test (at_n1 x) (at_n1 e) n)
           (orr (attr_test (at_n2 x) (at_n2 e) n)
           (orr (attr_test (at_sn1 x) (at_sn1 e) n)
                (attr_test (at_sn2 x) (at_sn2 e) n))) with
      | Err er => Err er
      | Ok true => Ok true
      | Ok false =>
          if nonlin x && port_mem n (ports x) then Ok true
          else still_needed x n es'
      end
  end.

Fixpoint orphans (x : celem) (ns : list nat) (es : list celem) : res (list nat) :=
  match ns with
  | [] => Ok []
  | n :: ns' =>
      bindr (still_needed x n es) (fun b =>
      bindr (orphans x ns' es) (fun l => Ok (if b then l else n :: l)))
  end.

(** Lines 1073-1075: [pop(nodes_dict[n])] then [pop(n)]. *)
Definition pop_node (d : ndict) (n : nat) : ndict * res unit :=
  match dget nkey_eqb d (KInt n) with
  | None => (d, Err KeyError)
  | Some nm =>
      if dmem nkey_eqb d nm
      then let d1 := ddel nkey_eqb d nm in
           if dmem nkey_eqb d1 (KInt n)
           then (ddel nkey_eqb d1 (KInt n), Ok tt)
           else (d1, Err KeyError)
      else (d, Err KeyError)
  end.

Fixpoint pop_nodes (d : ndict) (ns : list nat) : ndict * res unit :=
  match ns with
  | [] => (d, Ok tt)
  | n :: ns' =>
      match pop_node d n with
      | (d1, Ok _) => pop_nodes d1 ns'
      | (d1, Err e) => (d1, Err e)
      end
  end.

(** [remove_elem] called with a [part_id]. *)
Definition remove_elem (c : circ) (s : string) : circ * res unit :=
  match get_elem_by_name c s with
  | Err e => (c, Err e)
  | Ok x =>
      let es := remove_first (name_match s) (elems c) in
      let c1 := mkCirc es (tab c) (models c) in
      match orphans x (elem_nodes x) es with
      | Err e => (c1, Err e)
      | Ok l =>
          let r := pop_nodes (nodes_dict (tab c)) l in
          (set_tab c1 (mkNtab (fst r) (internal_nodes (tab c))), snd r)
      end
  end.

(** Histories of edits. *)
Inductive cop : Type :=
| AddR (id : string) (n1 n2 : string) (v : Q)
| AddC (id : string) (n1 n2 : string) (v : Q)
| AddB (id : string) (n1 n2 : string) (v : Q)
| AddI (id : string) (n1 n2 : string) (v : Q)
| AddVC (vd : bool) (id : string) (n1 n2 s1 s2 : string) (v : Q)
| AddD (id : string) (n1 n2 label : string)
| Rem (id : string).

Definition step_cop (c : circ) (o : cop) : circ :=
  match o with
  | AddR id a b v => fst (add_resistor c id (Text a) (Text b) v)
  | AddC id a b v => fst (add_capacitor c id (Text a) (Text b) v)
  | AddB id a b v => fst (add_branch c id (Text a) (Text b) v)
  | AddI id a b v => fst (add_isource c id (Text a) (Text b) v)
  | AddVC vd id a b s t v => fst (add_vc vd c id (Text a) (Text b) (Text s) (Text t) v)
  | AddD id a b l => fst (add_diode c id (Text a) (Text b) l)
  | Rem id => fst (remove_elem c id)
  end.

Definition run_cops (ops : list cop) (c : circ) : circ := fold_left step_cop ops c.
