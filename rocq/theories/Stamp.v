(** Model of how the nonlinear devices deliver their stamps: ahkab/diode.py 135-199,
    ahkab/mosq.py 220-245 and 346-404, ahkab/components/TunnelJunction.py (the same
    code), and of the use in ahkab/dc_analysis.py 857-862.  Nodes are numbers, 0 is
    the ground; the index -1 of the code is the node 0. *)
From Coq Require Import Reals List Bool Arith.
From Verif Require Import Base Rsum.
Import ListNotations.
Open Scope R_scope.

Definition pair_eqb (a b : nat * nat) : bool := (fst a =? fst b)%nat && (snd a =? snd b)%nat.

(** [zap_rc]: the positions that are kept (diode.py 183, mosq.py 388). *)
Definition kept (ns : list nat) : list nat := filter (fun p => negb (nth p ns 0 =? 0)%nat) (seq 0 (length ns)).

(** [np.delete] on rows and columns, then [reshape(-1)] (mosq.py 389-392). *)
Definition flat (s : nat -> nat -> R) (ps : list nat) : list R := flat_map (fun i => map (fun j => s i j) ps) ps.

(** The indices without the ground (mosq.py 391). *)
Definition all_indices (ns : list nat) : list (nat * nat) := flat_map (fun r => map (fun c => (r, c)) ns) ns.
Definition live_indices (ns : list nat) : list (nat * nat) :=
  filter (fun rc => negb (fst rc =? 0)%nat && negb (snd rc =? 0)%nat) (all_indices ns).

(** mosq.py 393-401: entries with the same index are added up. *)
Definition fold_step (acc : list ((nat * nat) * R)) (e : (nat * nat) * R) : list ((nat * nat) * R) :=
  match dget pair_eqb acc (fst e) with
  | None => acc ++ [e]
  | Some v => dset pair_eqb acc (fst e) (v + snd e)
  end.
Definition folded (es : list ((nat * nat) * R)) : list ((nat * nat) * R) := fold_left fold_step es [].

(** [gstamp(..., reduced=True)]. *)
Definition gstamp_reduced (ns : list nat) (s : nat -> nat -> R) : list ((nat * nat) * R) :=
  folded (combine (live_indices ns) (flat s (kept ns))).

(** [istamp(..., reduced=True)]: the two entries, without the ground, not folded
    (diode.py 149-156, mosq.py 235-242). *)
Definition istamp_reduced (n1 n2 : nat) (i : R) : list (nat * R) :=
  filter (fun e => negb (fst e =? 0)%nat) [(n1, i); (n2, - i)].

(** [J[iis] += gs] of numpy: the sums are formed with the old values and assigned in
    order.  With an empty index tuple the whole array is meant and the shapes do not
    match: ValueError. *)
Definition fancy_add_mat (J : mat) (es : list ((nat * nat) * R)) : res mat :=
  match es with
  | [] => Err ValueError
  | _ => Ok (fold_left (fun M e => mset M (fst (fst e) - 1) (snd (fst e) - 1) (J (fst (fst e) - 1)%nat (snd (fst e) - 1)%nat + snd e)) es J)
  end.
Definition fancy_add_vec (T : vec) (es : list (nat * R)) : res vec :=
  match es with
  | [] => Err ValueError
  | _ => Ok (fold_left (fun M e => vset M (fst e - 1) (T (fst e - 1)%nat + snd e)) es T)
  end.
