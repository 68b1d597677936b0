(** Model of the ground path check, ahkab/utilities.py 639-690
    ([check_ground_paths]), as it is called at ahkab/dc_analysis.py 1066, with the
    complete (not reduced) matrix: row [n] belongs to node [n]. *)
From Coq Require Import Reals String List Bool Arith.
From Verif Require Import Base Nodes Circuit Rsum Mna Newton Diode.
Import ListNotations.
Open Scope R_scope.

(** ahkab/utilities.py 671-673: nothing on the diagonal and nothing in the columns
    of the currents.  [nv] is [get_nodes_number()], [tot] the size of the matrix. *)
Definition suspicious (nv tot : nat) (m : mat) (n : nat) : bool :=
  Req_b (m n n) 0 && negb (existsb (fun j => negb (Req_b (m n j) 0)) (seq nv (tot - nv))).

(** ahkab/utilities.py 676-683: the node is in an output port of a nonlinear
    element.  All the nonlinear elements of the simulator have one output port. *)
Definition nl_output (es : list lelem) (n : nat) : bool :=
  existsb (fun e => match e with ENL _ n1 n2 => (n1 =? n)%nat || (n2 =? n)%nat | _ => false end) es.

(** ahkab/utilities.py 664-689: the nodes reported.  The keys of [nodes_dict] which
    are integers are the node numbers. *)
Definition reported (nv : nat) (es : list lelem) (m : mat) : list nat :=
  filter (fun n => negb (nl_output es n)) (filter (suspicious nv (nv + n_vde es) m) (seq 1 (nv - 1))).

Definition check_ground_paths (nv : nat) (es : list lelem) (m : mat) : bool :=
  match reported nv es m with [] => true | _ => false end.
