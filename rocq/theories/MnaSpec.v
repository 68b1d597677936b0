(** What the assembled systems are supposed to say, written without reference
    to the assembly code. *)
From Coq Require Import Reals String List Bool Arith.
From Verif Require Import Base Nodes Circuit Rsum Mna.
Import ListNotations.
Open Scope R_scope.

(** The unknowns of a circuit with [nv] nodes: [x n] is the voltage of node [n]
    (ground included) and [x (nv + k)] the current which enters the [k]-th
    voltage-defined element at its first terminal. *)

(** The DC current that flows from the first to the second output terminal
    through element [e], whose number among the voltage-defined ones is [k] if
    it is one.  Capacitors and couplings carry no DC current, a time-dependent
    source is accounted for elsewhere. *)
Definition dc_current (nv : nat) (all : list lelem) (x : vec) (k : nat) (e : lelem) : R :=
  match e with
  | ER _ n1 n2 r => (x n1 - x n2) / r
  | EC _ _ _ _ => 0
  | EK _ _ _ _ _ => 0
  | EI _ _ _ dc td => if td then 0 else dc
  | EG _ _ _ s1 s2 a => a * (x s1 - x s2)
  | EF _ _ _ src a => match vde_index all src with Ok j => a * x (nv + j)%nat | Err _ => 0 end
  | EV _ _ _ _ _ | EE _ _ _ _ _ _ | EH _ _ _ _ _ | EL _ _ _ _ => x (nv + k)%nat
  | ENL _ _ _ => 0
  end.

Definition term1 (e : lelem) : nat :=
  match e with
  | ER _ n _ _ | EC _ n _ _ | EL _ n _ _ | EV _ n _ _ _ | EI _ n _ _ _ | EE _ n _ _ _ _
  | EG _ n _ _ _ _ | EF _ n _ _ _ | EH _ n _ _ _ | ENL _ n _ => n
  | EK _ _ _ _ _ => 0%nat
  end.

Definition term2 (e : lelem) : nat :=
  match e with
  | ER _ _ n _ | EC _ _ n _ | EL _ _ n _ | EV _ _ n _ _ | EI _ _ n _ _ | EE _ _ n _ _ _
  | EG _ _ n _ _ _ | EF _ _ n _ _ | EH _ _ n _ _ | ENL _ _ n => n
  | EK _ _ _ _ _ => 0%nat
  end.

Definition sense_nodes (e : lelem) : list nat :=
  match e with EE _ _ _ s1 s2 _ | EG _ _ _ s1 s2 _ => [s1; s2] | _ => [] end.

(** The sum of the currents that leave node [n] through the elements [es]; [k]
    voltage-defined elements came before. *)
Fixpoint kcl (nv : nat) (all es : list lelem) (k n : nat) (x : vec) : R :=
  match es with
  | [] => 0
  | e :: es' =>
      let i := dc_current nv all x k e in
      (if (term1 e =? n)%nat then i else 0) - (if (term2 e =? n)%nat then i else 0)
      + kcl nv all es' (if is_vde e then S k else k) n x
  end.

(** Every terminal is one of the [nv] nodes, and the voltage-defined elements
    are not shorted. *)
Definition wf_elem (nv : nat) (e : lelem) : Prop :=
  (term1 e < nv)%nat /\ (term2 e < nv)%nat /\ Forall (fun s => (s < nv)%nat) (sense_nodes e) /\
  (is_vde e = true -> term1 e <> term2 e).

Definition wf_circ (nv : nat) (es : list lelem) : Prop := Forall (wf_elem nv) es.

(** Residual of the branch law of a voltage-defined element, in DC. *)
Definition branch_law (nv : nat) (all : list lelem) (x : vec) (e : lelem) : R :=
  match e with
  | EV _ n1 n2 dc td => x n1 - x n2 - (if td then 0 else dc)
  | EL _ n1 n2 _ => x n1 - x n2
  | EE _ n1 n2 s1 s2 a => x n1 - x n2 - a * (x s1 - x s2)
  | EH _ n1 n2 src a =>
      match vde_index all src with Ok j => x n1 - x n2 - a * x (nv + j)%nat | Err _ => 0 end
  | _ => 0
  end.

(** The sense nodes of an E source may coincide with its output nodes, or with
    each other, at ground only. *)
Definition sense_apart (e : lelem) : Prop :=
  match e with
  | EE _ n1 n2 s1 s2 _ =>
      (s1 <> 0%nat -> s1 <> n1 /\ s1 <> n2) /\ (s2 <> 0%nat -> s2 <> n1 /\ s2 <> n2) /\
      (s1 = s2 -> s1 = 0%nat)
  | _ => True
  end.

(** Dynamic currents and flux voltages: [y] is the time derivative of the
    unknowns. *)
Definition cap_current (y : vec) (e : lelem) : R :=
  match e with EC _ n1 n2 c => c * (y n1 - y n2) | _ => 0 end.

Definition dyn_kcl (es : list lelem) (n : nat) (y : vec) : R :=
  lsum (fun e => (dlt n (term1 e) - dlt n (term2 e)) * cap_current y e) es.
