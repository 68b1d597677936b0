(** Model of ahkab/mosq.py 219-273, 341-386 and 432-803: the square-law MOS
    transistor.  The caches of the methods are left out (see Memo.v). *)
From Coq Require Import Reals List Bool Arith.
From Verif Require Import Base Newton Diode.
Import ListNotations.
Open Scope R_scope.

(** mosq.py 432-513: the parameters of the model that are used below; [q_NP] is
    NPMOS, +1 or -1. *)
Record qmodel := mkQ { q_NP : R; q_VTO : R; q_GAMMA : R; q_PHI : R; q_KP : R; q_LAMBDA : R; q_AVT : R; q_AKP : R }.
(** The device: sizes and the Monte Carlo key. *)
Record qdev := mkQd { t_W : R; t_L : R; t_M : R; t_N : R; t_mc : option (R * R) }.

(** A bias (vds, vgs, vbs). *)
Definition bias := (R * R * R)%type.

(** mosq.py 552-582 [get_voltages]; the flag is [cs == -1]. *)
Definition get_voltages (m : qmodel) (b : bias) : bias * bool :=
  let '(vds, vgs, vbs) := b in
  let vds := vds * q_NP m in let vgs := vgs * q_NP m in let vbs := vbs * q_NP m in
  if Rlt_b vds 0 then ((- vds, vgs - vds, vbs - vds), true) else ((vds, vgs, vbs), false).

(** mosq.py 584-594 [get_svt_skp]. *)
Definition svt (m : qmodel) (d : qdev) : R :=
  match t_mc d with Some (a, _) => a * q_AVT m / sqrt (2 * t_W d * t_L d) | None => 0 end.
Definition skp (m : qmodel) (d : qdev) : R :=
  match t_mc d with Some (_, a) => a * q_AKP m / sqrt (2 * t_W d * t_L d) | None => 0 end.

(** mosq.py 601-605: [vsqrt1 ** .5] and [vsqrt2 ** .5]. *)
Definition sq1 (m : qmodel) (vbs : R) : R := sqrt (Rmax (- vbs + 2 * q_PHI m) 0).
Definition sq2 (m : qmodel) : R := sqrt (Rmax (2 * q_PHI m) 0).

(** mosq.py 596-606 [get_VT]. *)
Definition get_VT (m : qmodel) (d : qdev) (vbs : R) : R := q_VTO m + svt m d + q_GAMMA m * (sq1 m vbs - sq2 m).

(** The boundary between the ohmic region and saturation (mosq.py 647, 748). *)
Definition vdsat (m : qmodel) (u : R) : R := u - 1/2 * q_LAMBDA m * (- u) ^ 2.

Section Mosq.
  Variables (iea gmin : R).

  (** mosq.py 608-659 [get_ids]; the value for VT = 0 in cutoff is treated by
      [ids_call]. *)
  Definition get_ids (m : qmodel) (d : qdev) (b : bias) : R :=
    let '(vds, vgs, vbs) := b in
    let VT := get_VT m d vbs in
    let ids :=
      if Rlt_b vgs VT then iea * (vgs / VT + vds / VT) / 100
      else if Rlt_b vds (vgs - VT - 1/2 * q_LAMBDA m * (VT - vgs) ^ 2)
      then (skp m d + 1) * q_KP m * t_W d / t_L d * ((vgs - VT) * vds - 1/2 * vds ^ 2)
      else (skp m d + 1) * (1/2) * q_KP m * t_W d / t_L d * (vgs - VT) ^ 2 *
           (1 + q_LAMBDA m * (vds - vgs + VT + 1/4 * q_LAMBDA m * (VT - vgs) ^ 2)) in
    q_NP m * t_M d / t_N d * ids.
  (** The same with the division by zero of line 631. *)
  Definition ids_call (m : qmodel) (d : qdev) (b : bias) : res R :=
    let '(vds, vgs, vbs) := b in
    if Rlt_b vgs (get_VT m d vbs) && Req_b (get_VT m d vbs) 0 then Err ZeroDivision else Ok (get_ids m d b).

  (** mosq.py 714-756 [get_gmd]. *)
  Definition get_gmd (m : qmodel) (d : qdev) (b : bias) : R :=
    let '(vds, vgs, vbs) := b in
    let VT := get_VT m d vbs in
    let gmd :=
      if Rlt_b vgs VT then iea / VT / 100
      else if Rlt_b vds (vgs - VT - 1/2 * q_LAMBDA m * (VT - vgs) ^ 2)
      then q_KP m * t_W d / t_L d * (vgs - vds - VT)
      else 1/2 * q_KP m * q_LAMBDA m * t_W d / t_L d * (vgs - VT) ^ 2 in
    (1 + skp m d) * gmd * t_M d / t_N d.

  (** mosq.py 758-803 [get_gm]. *)
  Definition get_gm (m : qmodel) (d : qdev) (b : bias) : R :=
    let '(vds, vgs, vbs) := b in
    let VT := get_VT m d vbs in
    let w := q_GAMMA m * (- sq2 m + sq1 m vbs) in
    let gm :=
      if Rlt_b vgs VT then iea / VT / 100
      else if Rlt_b vds (vgs - VT) then q_KP m * t_W d / t_L d * vds
      else - (1/2) * q_KP m * q_LAMBDA m * t_W d / t_L d * (- w + vgs - q_VTO m) ^ 2 +
           1/2 * q_KP m * t_W d / t_L d * (q_LAMBDA m * (w + vds - vgs + q_VTO m) + 1) *
           (- 2 * w + 2 * vgs - 2 * q_VTO m) in
    (1 + skp m d) * gm * t_M d / t_N d.

  (** mosq.py 661-712 [get_gmb]. *)
  Definition get_gmb (m : qmodel) (d : qdev) (b : bias) : R :=
    let '(vds, vgs, vbs) := b in
    let VT := get_VT m d vbs in
    let g := q_GAMMA m in let s1 := sq1 m vbs in let s2 := sq2 m in
    let gmb :=
      if Rlt_b vgs VT then 0
      else if negb (Rlt_b 0 (Rmax (- vbs + 2 * q_PHI m) 0)) then 0
      else if Rlt_b vds (vgs - VT) then q_KP m * g * vds * t_W d / (2 * t_L d * s1)
      else - (1/4) * q_KP m * g * q_LAMBDA m * t_W d * (- g * (- s2 + s1) + vgs - q_VTO m) ^ 2 / (t_L d * s1) +
           1/2 * q_KP m * g * t_W d * (q_LAMBDA m * (g * (s2 + s1) + vds - vgs + q_VTO m) + 1) *
           (- g * (s2 + s1) + vgs - q_VTO m) / (t_L d * s1) in
    q_NP m * (1 + skp m d) * gmb * t_M d / t_N d.

  (** mosq.py 233-235 [istamp]: the current from drain to source. *)
  Definition terminal_i (m : qmodel) (d : qdev) (b : bias) : R :=
    let '(sw, cs) := get_voltages m b in (if cs then -1 else 1) * get_ids m d sw.

  (** mosq.py 366-382 [gstamp]: terminals in the order drain, gate, source, bulk.
      [T1*stamp*T2] on numpy arrays multiplies entry by entry. *)
  Definition T12 (i j : nat) : R :=
    match i, j with
    | 0%nat, 2%nat => 1 | 1%nat, 1%nat => 1 | 2%nat, 0%nat => 1 | 3%nat, 3%nat => 1 | _, _ => 0
    end.
  Definition forward_stamp (gmd gmg gmb : R) (i j : nat) : R :=
    match i, j with
    | 0%nat, 0%nat => gmd | 0%nat, 1%nat => gmg | 0%nat, 2%nat => - gmd - gmb - gmg | 0%nat, 3%nat => gmb
    | 2%nat, 0%nat => - gmd | 2%nat, 1%nat => - gmg | 2%nat, 2%nat => gmd + gmg + gmb | 2%nat, 3%nat => - gmb
    | _, _ => 0
    end.
  Definition nz (g dflt : R) : R := if Req_b g 0 then dflt else g.
  Definition gstamp (m : qmodel) (d : qdev) (b : bias) : nat -> nat -> R :=
    let '(sw, cs) := get_voltages m b in
    let s := forward_stamp (nz (get_gmd m d sw) (gmin * 2)) (nz (get_gm m d sw) (gmin * 2)) (nz (get_gmb m d sw) (-2 * gmin)) in
    if cs then fun i j => T12 i j * s i j * T12 i j else s.

  (** mosq.py 265-271, the operating point report: VTH, ON, SAT, VOD. *)
  Definition op_VTH (m : qmodel) (d : qdev) (b : bias) : R := let '(_, _, vbs) := b in get_VT m d vbs.
  Definition op_ON (m : qmodel) (d : qdev) (b : bias) : bool := let '(_, vgs, _) := b in negb (Rlt_b vgs (op_VTH m d b)).
  Definition op_SAT (m : qmodel) (d : qdev) (b : bias) : bool := let '(vds, vgs, _) := b in Rlt_b (vgs - op_VTH m d b) vds.
  Definition op_VOD (m : qmodel) (d : qdev) (b : bias) : R := let '(_, vgs, _) := b in q_NP m * (vgs - op_VTH m d b).
End Mosq.
