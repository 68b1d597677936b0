(** Model of ahkab/diode.py 75-424: currents, conductances, temperature.  Infinite
    parameters are [None].  Messages and the initial-condition options are left
    out. *)
From Coq Require Import Reals List Bool Arith.
From Verif Require Import Base Newton Memo.
Import ListNotations.
Open Scope R_scope.

Definition Req_b (a b : R) : bool := if Req_EM_T a b then true else false.

(** The parameters that the modelled methods use (ahkab/diode.py 302-339). *)
Record dmodel := mkDm {
  d_IS : R; d_N : R; d_NBV : R; d_ISR : R; d_NR : R; d_RS : R;
  d_BV : option R; d_IKF : option R; d_XTI : R; d_TBV : R; d_TRS : R; d_T : R; d_VT : R }.

(** ahkab/diode.py 75-104: the state of one device. *)
Record ddev := mkDev { v_AREA : R; v_T : R; v_last : option R }.

(** ahkab/diode.py 384-385 [_safe_exp]. *)
Definition safe_exp (x : R) : R := if Rlt_b x 70 then exp x else exp 70 + 10 * x.

(** [_safe_exp(-(v+BV)/nf)]; minus infinity gives 0. *)
Definition rev_exp (m : dmodel) (nf v : R) : R :=
  match d_BV m with None => 0 | Some bv => safe_exp (- (v + bv) / nf) end.

(** ahkab/diode.py 387-395 [_get_i]. *)
Definition junction_i (m : dmodel) (v : R) : R :=
  let i_fwd := d_IS m * (safe_exp (v / (d_N m * d_VT m)) - 1) in
  let i_rec := d_ISR m * (safe_exp (v / (d_NR m * d_VT m)) - 1) in
  let i_rev := - d_IS m * (rev_exp m (d_NBV m * d_VT m) v - 1) in
  let k_inj := match d_IKF m with
               | None => 1
               | Some ikf => if Rlt_b 0 ikf && Rlt_b 0 i_fwd then sqrt (ikf / (ikf + i_fwd)) else 1
               end in
  k_inj * i_fwd + i_rec + i_rev.

(** ahkab/diode.py 397-410 [get_gm], without the cache and the temperature. *)
Definition junction_gm (m : dmodel) (v : R) : R :=
  d_IS m / (d_N m * d_VT m) * safe_exp (v / (d_N m * d_VT m)) +
  - d_IS m / d_VT m * rev_exp m (d_VT m) v +
  d_ISR m / (d_NR m * d_VT m) * safe_exp (v / (d_NR m * d_VT m)).
Definition raw_gm (gmin : R) (m : dmodel) (dev : ddev) (v : R) : R :=
  let gm := junction_gm m v in
  v_AREA dev * (if Req_b (d_RS m) 0 then gm else 1 / (d_RS m + 1 / (gm + 1 / 1000 * gmin))).

(** [self.RS = 0]. *)
Definition without_RS (m : dmodel) : dmodel :=
  mkDm (d_IS m) (d_N m) (d_NBV m) (d_ISR m) (d_NR m) 0 (d_BV m) (d_IKF m) (d_XTI m) (d_TBV m) (d_TRS m) (d_T m) (d_VT m).

(** ahkab/diode.py 415-424 [set_temperature] of the model, for a model with a
    material.  [qk] is e/k, [eg] the energy gap of the material at the reference
    temperature. *)
Definition set_temperature (qk eg : R) (m : dmodel) (t : R) : dmodel :=
  mkDm (d_IS m * Rpower (t / d_T m) (d_XTI m / d_N m) * exp (- qk * eg / (d_N m * t) * (1 - t / d_T m)))
       (d_N m) (d_NBV m) (d_ISR m) (d_NR m)
       (d_RS m * (1 + d_TRS m * (t - d_T m)))
       (match d_BV m with None => None | Some bv => Some (bv - d_TBV m * (t - d_T m)) end)
       (d_IKF m) (d_XTI m) (d_TBV m) (d_TRS m) t (d_VT m).

(** [if dev.T != self.T: self.set_temperature(dev.T)]. *)
Definition sync (qk eg : R) (m : dmodel) (dev : ddev) : dmodel :=
  if Req_b (v_T dev) (d_T m) then m else set_temperature qk eg m (v_T dev).

(** ahkab/diode.py 352-365 [get_i], without the cache.  [newton f x0] is
    [scipy.optimize.newton]: a zero of [f], or RuntimeError. *)
Definition raw_i (newton : (R -> R) -> R -> res R) (m : dmodel) (dev : ddev) (vext : R) : res (R * ddev) :=
  if Req_b (d_RS m) 0 then Ok (junction_i m vext * v_AREA dev, mkDev (v_AREA dev) (v_T dev) (Some vext))
  else
    let vd := match v_last dev with Some x => x | None => 10 * d_VT m end in
    bindr (newton (fun x => x / d_RS m - junction_i m (vext - x) * v_AREA dev) vd) (fun vd =>
    Ok (junction_i m (vext - vd), mkDev (v_AREA dev) (v_T dev) (Some vd))).

(** One model with one device: [get_i] and [get_gm] with their caches.  The key of
    the cache is (model, voltage, device); model and device are compared by
    identity, so that only the voltage counts. *)
Record dstate := mkSt { s_model : dmodel; s_dev : ddev; s_icache : @cache R R; s_gcache : @cache R R }.

Section Calls.
  Variables (qk eg gmin : R) (newton : (R -> R) -> R -> res R) (limit : option nat).

  (** ahkab/diode.py 106-115: the temperature of the device. *)
  Definition dev_set_temperature (s : dstate) (t : R) : dstate :=
    mkSt (s_model s) (mkDev (v_AREA (s_dev s)) t (v_last (s_dev s))) (s_icache s) (s_gcache s).

  (** ahkab/diode.py 352-365 with [memoize].  The caches written while Newton's
      method runs are left out. *)
  Definition call_i (s : dstate) (v : R) : res R * dstate :=
    let m := sync qk eg (s_model s) (s_dev s) in
    let '(r, c, called) := memo_call Req_b (fun v => bindr (raw_i newton m (s_dev s) v) (fun p => Ok (fst p))) limit (s_icache s) v in
    (r, if called
        then mkSt m (match raw_i newton m (s_dev s) v with Ok (_, d) => d | Err _ => s_dev s end) c (s_gcache s)
        else mkSt (s_model s) (s_dev s) c (s_gcache s)).

  (** ahkab/diode.py 397-410 with [memoize]. *)
  Definition call_gm (s : dstate) (v : R) : res R * dstate :=
    let m := sync qk eg (s_model s) (s_dev s) in
    let '(r, c, called) := memo_call Req_b (fun v => Ok (raw_gm gmin m (s_dev s) v)) limit (s_gcache s) v in
    (r, mkSt (if called then m else s_model s) (s_dev s) (s_icache s) c).

  (** ahkab/diode.py 371-382 [_obj_irs_prime]: the series resistance is switched off
      around a call of [get_gm].  The model is at the temperature of the device
      here. *)
  Definition obj_irs_prime (s : dstate) (x vext : R) : res R * dstate :=
    let m := s_model s in
    let '(r, s1) := call_gm (mkSt (without_RS m) (s_dev s) (s_icache s) (s_gcache s)) (vext - x) in
    (bindr r (fun g => Ok (1 / d_RS m + g)), mkSt m (s_dev s1) (s_icache s1) (s_gcache s1)).
End Calls.

(** ahkab/diode.py 165-180 [gstamp]: the conductance that goes into the Jacobian. *)
Definition stamp_gm (gmin gm : R) : R := if Req_b gm 0 then gmin * 2 else gm.
