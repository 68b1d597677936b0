(** Model of ahkab/ekv.py 481-794: the EKV MOS transistor.  The arguments of roots and
    logarithms are taken to be in range (Python raises ValueError otherwise);
    [eps] is utilities.EPS, [ut] is constants.Vth(), [esi] constants.si.esi. *)
From Coq Require Import Reals List Bool.
From Verif Require Import Base Newton.
Open Scope R_scope.

Record emodel := mkE { e_NP : R; e_VTO : R; e_GAMMA : R; e_PHI : R; e_KP : R; e_UCRIT : R; e_LAMBDA : R; e_XJ : R; e_COX : R }.
Record edev := mkEd { x_W : R; x_L : R; x_M : R; x_N : R }.
(** A bias (vd, vg, vs), referred to the bulk. *)
Definition ebias := (R * R * R)%type.

(** ekv.py 481-502 [get_voltages]; the flag is [cs == -1]. *)
Definition e_voltages (m : emodel) (b : ebias) : ebias * bool :=
  let '(vd, vg, vs) := b in
  let vd := vd * e_NP m in let vg := vg * e_NP m in let vs := vs * e_NP m in
  if Rlt_b vd vs then ((vs, vg, vd), true) else ((vd, vg, vs), false).

(** ekv.py 524-546 [get_vp_nv_nq]. *)
Definition get_VP (m : emodel) (VG : R) : R :=
  if Rlt_b 0 (VG - e_VTO m + e_PHI m + e_GAMMA m * sqrt (e_PHI m)) && Rlt_b 0 (VG - e_VTO m + (sqrt (e_PHI m) + e_GAMMA m / 2) ^ 2)
  then VG - e_VTO m - e_GAMMA m * (sqrt (VG - e_VTO m + (sqrt (e_PHI m) + e_GAMMA m / 2) ^ 2) - (sqrt (e_PHI m) + e_GAMMA m / 2))
  else - e_PHI m.
Definition get_nq (m : emodel) (VG : R) : R := 1 + 1/2 * e_GAMMA m / sqrt (e_PHI m + 1/2 * get_VP m VG).
Definition get_nv (m : emodel) (VG : R) : R := 1 + 1/2 * e_GAMMA m / sqrt (e_PHI m + get_VP m VG + / 10 ^ 12).

(** ekv.py 728-736 [_vsmall_obj], 738-747 [_vsmall_obj_prime], 749-752
    [_vsmall_obj_prime2]. *)
Definition v_obj (x v : R) : R :=
  if Rlt_b 0 x then ln (sqrt (1/4 + x) - 1/2) + 2 * sqrt (1/4 + x) - 1 - v else x - v.
Definition v_obj_prime (eps x : R) : R :=
  let x := if Rlt_b x eps then 10 * eps else x in
  1/2 / (sqrt (1/4 + x) - 1/2) / sqrt (1/4 + x) + 1 / sqrt (1/4 + x).
Definition v_obj_prime2 (eps x : R) : R :=
  let x := if Rlt_b x eps then 10 * eps else x in
  let s := sqrt (x + 1/4) in
  - (1) / (4 * (x + 1/4) * (s - 1/2) ^ 2) - 1 / (2 * s ^ 3) - 1 / (4 * s ^ 3 * (s - 1/2)).

(** ekv.py 754-765 [get_vsmall], 781-788 [ismall2qsmall], 790-794 [qsmall2ismall]. *)
Definition get_vsmall (eps i : R) : R :=
  let i := if Rlt_b (Rabs i) eps then eps else i in
  ln (sqrt (1/4 + i) - 1/2) + 2 * sqrt (1/4 + i) - 1.
Definition i2q (i : R) : R := sqrt (1/4 + Rmax 0 i) - 1/2.
Definition q2i (q : R) : R := q ^ 2 + q.

Section Ids.
  Variables (eps ut esi : R).
  (** [newton(_vsmall_obj, guess, ...)], ekv.py 722-724. *)
  Variable newton : R -> R -> R.

  (** ekv.py 703-726 [get_ismall]. *)
  Definition get_ismall (v guess : R) : R := Rmax (newton v guess) (10 * eps).

  (** ekv.py 629-670 [get_leq_virp]; vd and vs are scaled by [ut]. *)
  Definition leq_virp (m : emodel) (d : edev) (vd vs Vp ifn : R) : R * R :=
    let Vc := e_UCRIT m * x_N d * x_L d in
    let Vdss := Vc * (sqrt (1/4 + ut / Vc * sqrt ifn) - 1/2) in
    let Vdssp := Vc * (sqrt (1/4 + ut / Vc * (sqrt ifn - 3/4 * ln ifn)) - 1/2) + ut * (ln (1/2 * Vc / ut) - 3/5) in
    let vser := sqrt ifn - Vdss / ut in
    let Vds := (vd - vs) * (1/2) * ut in
    let delta_v := 4 * ut * sqrt (e_LAMBDA m * vser + 1/64) in
    let Vip := sqrt (Vdss ^ 2 + delta_v ^ 2) - sqrt ((Vds - Vdss) ^ 2 + delta_v ^ 2) in
    let Lc := sqrt (esi * e_XJ m / e_COX m) in
    let delta_l := e_LAMBDA m * Lc * ln (1 + (Vds - Vip) / (Lc * e_UCRIT m)) in
    let Lp := x_N d * x_L d - delta_l + (Vds + Vip) / e_UCRIT m in
    let Lmin := x_N d * x_L d / 10 in
    (1/2 * (Lp + sqrt (Lp ^ 2 + Lmin ^ 2)),
     (Vp - Vds - vs * ut - sqrt (Vdssp ^ 2 + delta_v ^ 2) + sqrt ((Vds - Vdssp) ^ 2 + delta_v ^ 2)) / ut).

  (** ekv.py 512-522 [setup_scaling]: Is and Gs. *)
  Definition e_Is (m : emodel) (d : edev) (VG : R) : R := 2 * get_nq m VG * ut ^ 2 * e_KP m * x_W d / x_L d.
  Definition e_Gs (m : emodel) (d : edev) (VG : R) : R := 2 * get_nq m VG * ut * e_KP m * x_W d / x_L d.

  (** ekv.py 547-627 [get_ids]: the two normalised currents and the length; [g1] and
      [g2] are the guesses kept in [opdict]. *)
  Definition e_currents (m : emodel) (d : edev) (g1 g2 : R) (b : ebias) : R * R * R :=
    let '((VD, VG, VS), cs) := e_voltages m b in
    let VP := get_VP m VG in
    let ifn := get_ismall (VP / ut - VS / ut) g1 in
    let '(Leff, v_irn) := leq_virp m d (VD / ut) (VS / ut) VP ifn in
    (ifn, get_ismall v_irn g2, Leff).
  Definition e_ids (m : emodel) (d : edev) (g1 g2 : R) (b : ebias) : R :=
    let '((VD, VG, VS), cs) := e_voltages m b in
    let '(ifn, irn, Leff) := e_currents m d g1 g2 b in
    (if cs then -1 else 1) * e_NP m * x_L d / Leff * x_M d * e_Is m d VG * (ifn - irn).

  (** ekv.py 672-681 [get_gms], 683-692 [get_gmd], 694-701 [get_gmg]; the last one evaluates the slope
      factor at the gate voltage as it comes, without NPMOS. *)
  Definition e_gms (m : emodel) (d : edev) (g1 g2 : R) (b : ebias) : R :=
    let '((VD, VG, VS), cs) := e_voltages m b in
    let '(ifn, irn, _) := e_currents m d g1 g2 b in
    - e_Gs m d VG * (if cs then i2q irn else i2q ifn).
  Definition e_gmd (m : emodel) (d : edev) (g1 g2 : R) (b : ebias) : R :=
    let '((VD, VG, VS), cs) := e_voltages m b in
    let '(ifn, irn, _) := e_currents m d g1 g2 b in
    e_Gs m d VG * (if cs then i2q ifn else i2q irn).
  Definition e_gmg (m : emodel) (d : edev) (g1 g2 : R) (b : ebias) : R :=
    let '((VD, VG, VS), cs) := e_voltages m b in
    let '(ifn, irn, _) := e_currents m d g1 g2 b in
    let '(_, vg, _) := b in
    (if cs then -1 else 1) * e_Gs m d VG * (i2q ifn - i2q irn) / get_nv m vg.
End Ids.
