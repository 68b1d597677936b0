(** Model of the node table of a circuit (ahkab/circuit.py 151-368). *)
From Coq Require Import String Ascii List Bool Arith DecimalString.
From Verif Require Import Base.
Import ListNotations.

(** ahkab/circuit.py 154: [nodes_dict] is a single dictionary which holds both
    directions, [{int: name}] and [{name: int}].  A Python int and a Python
    string never compare equal, hence the tagged union. *)
Inductive nkey : Type :=
| KInt (n : nat)
| KStr (s : string).

Definition nkey_eqb (a b : nkey) : bool :=
  match a, b with
  | KInt m, KInt n => Nat.eqb m n
  | KStr s, KStr t => String.eqb s t
  | _, _ => false
  end.

Definition ndict := list (nkey * nkey).

(** The node-related fields of a [Circuit] (ahkab/circuit.py 151-158). *)
Record ntab : Type := mkNtab {
  nodes_dict : ndict;
  internal_nodes : nat
}.

Definition empty_ntab : ntab := mkNtab [] 0.

(** A name given by the caller: text, or an object of another type. *)
Inductive pyname : Type :=
| Text (s : string)
| NotText.

Definition ground_name : string := "0".

(** ahkab/circuit.py 195-201 and 243-250: the integer given to a new name.
    [int(len(d)/2)] is [Nat.div2]. *)
Definition fresh_int (d : ndict) (name : string) : nat :=
  if String.eqb name ground_name then 0
  else Nat.div2 (length d) + (if dmem nkey_eqb d (KInt 0) then 0 else 1).

(** ahkab/circuit.py 202-203 and 249-250: the two [update] calls. *)
Definition register (d : ndict) (i : nat) (name : string) : ndict :=
  dset nkey_eqb (dset nkey_eqb d (KInt i) (KStr name)) (KStr name) (KInt i).

(** ahkab/circuit.py 208-254 [add_node].  The state is returned even if the
    call raises. *)
Definition add_node (t : ntab) (name : pyname) : ntab * res nat :=
  match name with
  | NotText => (t, Err TypeError)
  | Text s =>
      match dget nkey_eqb (nodes_dict t) (KStr s) with
      | None =>
          let i := fresh_int (nodes_dict t) s in
          (mkNtab (register (nodes_dict t) i s) (internal_nodes t), Ok i)
      | Some (KInt i) => (t, Ok i)
      | Some (KStr _) => (t, Err TypeError)   (* never: names map to ints *)
      end
  end.

(** ahkab/circuit.py 166-206 [create_node]; it returns the name. *)
Definition create_node (t : ntab) (name : pyname) : ntab * res string :=
  match name with
  | NotText => (t, Err TypeError)
  | Text s =>
      match dget nkey_eqb (nodes_dict t) (KStr s) with
      | None =>
          let i := fresh_int (nodes_dict t) s in
          (mkNtab (register (nodes_dict t) i s) (internal_nodes t), Ok s)
      | Some _ => (t, Err ValueError)
      end
  end.

Definition nat_str (n : nat) : string := NilEmpty.string_of_uint (Nat.to_uint n).

(** ahkab/circuit.py 256-276 [new_internal_node]: the counter is incremented
    before [create_node] is attempted. *)
Definition new_internal_node (t : ntab) : ntab * res string :=
  let name := ("INT" ++ nat_str (internal_nodes t))%string in
  let t1 := mkNtab (nodes_dict t) (S (internal_nodes t)) in
  create_node t1 (Text name).

(** ahkab/circuit.py 278-280 [get_nodes_number]. *)
Definition get_nodes_number (t : ntab) : nat := Nat.div2 (length (nodes_dict t)).

(** ahkab/circuit.py 338-352 [ext_node_to_int] (KeyError if missing). *)
Definition ext_node_to_int (t : ntab) (s : string) : res nat :=
  match dget nkey_eqb (nodes_dict t) (KStr s) with
  | Some (KInt i) => Ok i
  | _ => Err KeyError
  end.

(** ahkab/circuit.py 354-368 [int_node_to_ext] (KeyError if missing). *)
Definition int_node_to_ext (t : ntab) (i : nat) : res string :=
  match dget nkey_eqb (nodes_dict t) (KInt i) with
  | Some (KStr s) => Ok s
  | _ => Err KeyError
  end.

(** The three registration calls, and the table after a history of them
    (exceptions are caught by the caller, who goes on). *)
Inductive nop : Type :=
| OAdd (name : pyname)
| OCreate (name : pyname)
| ONewInternal.

Definition step_nop (t : ntab) (o : nop) : ntab :=
  match o with
  | OAdd n => fst (add_node t n)
  | OCreate n => fst (create_node t n)
  | ONewInternal => fst (new_internal_node t)
  end.

Definition run_nops (ops : list nop) : ntab := fold_left step_nop ops empty_ntab.
