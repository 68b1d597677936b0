(** Shared vocabulary of the model: Python exceptions as values, Python
    dictionaries, and the string helpers the code base relies on. *)
From Coq Require Import String Ascii List Bool Arith ZArith Lia.
Import ListNotations.

(** The exception classes that the modelled functions raise.  CircuitError and
    ModelError are ahkab/circuit.py 1178-1185; NetlistParseError is
    ahkab/netlist_parser.py; the others are Python built-ins. *)
Inductive exn : Type :=
| TypeError | ValueError | KeyError | IndexError | AttributeError
| UnboundLocal | ZeroDivision
| CircuitError | ModelError | NetlistParseError | SystemExit | RuntimeError | IOError | OutOfFuel.

(** A call either returns a value or raises. *)
Inductive res (A : Type) : Type :=
| Ok (a : A)
| Err (e : exn).
Arguments Ok {A} a.
Arguments Err {A} e.

Definition bindr {A B : Type} (x : res A) (f : A -> res B) : res B :=
  match x with Ok a => f a | Err e => Err e end.

Definition isOk {A : Type} (x : res A) : bool :=
  match x with Ok _ => true | Err _ => false end.

(** Python [dict]: an association list in insertion order.  [dset] is
    [d[k] = v] (equivalently [d.update({k: v})]): an existing key keeps its
    place and gets the new value, a new key goes to the end.  [ddel] is
    [d.pop(k)] for a key that is present. *)
Section Dict.
  Context {K V : Type}.
  Variable eqb : K -> K -> bool.

  Fixpoint dget (d : list (K * V)) (k : K) : option V :=
    match d with
    | [] => None
    | (k', v) :: d' => if eqb k k' then Some v else dget d' k
    end.

  Fixpoint dset (d : list (K * V)) (k : K) (v : V) : list (K * V) :=
    match d with
    | [] => [(k, v)]
    | (k', v') :: d' => if eqb k k' then (k', v) :: d' else (k', v') :: dset d' k v
    end.

  Fixpoint ddel (d : list (K * V)) (k : K) : list (K * V) :=
    match d with
    | [] => []
    | (k', v') :: d' => if eqb k k' then d' else (k', v') :: ddel d' k
    end.

  Definition dmem (d : list (K * V)) (k : K) : bool :=
    match dget d k with Some _ => true | None => false end.

  Definition dkeys (d : list (K * V)) : list K := map fst d.
End Dict.

(** ASCII case mapping: [str.lower] / [str.upper] restricted to ASCII. *)
Definition lower_ascii (c : ascii) : ascii :=
  let n := nat_of_ascii c in
  if (65 <=? n) && (n <=? 90) then ascii_of_nat (n + 32) else c.

Definition upper_ascii (c : ascii) : ascii :=
  let n := nat_of_ascii c in
  if (97 <=? n) && (n <=? 122) then ascii_of_nat (n - 32) else c.

Fixpoint smap (f : ascii -> ascii) (s : string) : string :=
  match s with
  | EmptyString => EmptyString
  | String c s' => String (f c) (smap f s')
  end.

Definition lower (s : string) : string := smap lower_ascii s.
Definition upper (s : string) : string := smap upper_ascii s.
