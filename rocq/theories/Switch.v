(** Model of ahkab/switch.py 272-399 (class vswitch_model): the resistance of a
    voltage controlled switch with hysteresis.  [th] is [math.tanh]. *)
From Coq Require Import Reals List Bool.
From Verif Require Import Base Newton Diode.
Import ListNotations.
Open Scope R_scope.

Record swmodel := mkSw { w_VT : R; w_VH : R; w_RON : R; w_ROFF : R }.

(** ahkab/switch.py 310-323 [__init__], 325-329 [_get_VTVH_from_VONVOFF]: [float(None)] is
    a TypeError.  [gmin] is options.gmin. *)
Definition make_switch (gmin : R) (VT VH VON VOFF RON ROFF : option R) : res swmodel :=
  let dflt o d := match o with Some x => x | None => d end in
  let finish VT VH := Ok (mkSw (dflt VT 0) (dflt VH 0) (dflt RON 1) (dflt ROFF (1 / gmin))) in
  match VON, VOFF with
  | None, None => finish VT VH
  | Some von, Some voff =>
      let vt := (von - voff) / 2 + voff in finish (Some vt) (Some (vt * (1 / 1000)))
  | _, _ => Err TypeError
  end.

Definition SLOPE : R := 100.

Section Switch.
  Variable th : R -> R.

  (** ahkab/switch.py 331-334 [_get_V], 336-340 [_set_status]. *)
  Definition sw_V (m : swmodel) (on : bool) : R := w_VT m + w_VH m * 2 * (if on then 0 else 1) - w_VH m.

  (** [self.A*math.tanh((vin - V)*self.SLOPE) + self.B], 313-314 and 345-348. *)
  Definition sw_A (m : swmodel) : R := (w_RON m - w_ROFF m) / 2.
  Definition sw_B (m : swmodel) : R := (w_RON m + w_ROFF m) / 2.
  Definition sw_R (m : swmodel) (V vin : R) : R := sw_A m * th ((vin - V) * SLOPE) + sw_B m.

  (** ahkab/switch.py 342-361 [_update_status]: the new [dev.is_on].  The model's own
      [V] and [is_on] are set before they are read, so they are not state. *)
  Definition sw_update (m : swmodel) (on : bool) (vin : R) : bool :=
    let same := Req_b (sw_R m (sw_V m on) vin - sw_R m (sw_V m (negb on)) vin) 0 in
    let on1 := if Rlt_b (sw_V m on) vin && negb on && same then true else on in
    if Rlt_b vin (sw_V m on1) && on1 && same then false else on1.

  (** ahkab/switch.py 378-384 [get_i], 386-391 [get_go], 393-399 [get_gm]: value and new [dev.is_on]. *)
  Definition sw_i (m : swmodel) (on : bool) (vout vin : R) : R * bool :=
    let on' := sw_update m on vin in (vout / sw_R m (sw_V m on') vin, on').
  Definition sw_go (m : swmodel) (on : bool) (vout vin : R) : R * bool :=
    let on' := sw_update m on vin in (1 / sw_R m (sw_V m on') vin, on').
  Definition sw_gm (gmin : R) (m : swmodel) (on : bool) (vout vin : R) : R * bool :=
    let on' := sw_update m on vin in
    let V := sw_V m on' in
    (sw_A m * SLOPE * (th (SLOPE * (V - vin)) ^ 2 - 1) / (sw_A m * th (SLOPE * (V - vin)) - sw_B m) ^ 2 + gmin, on').

  (** Devices that share one model: device [d] is evaluated at the input [vin]. *)
  Definition sw_step (m : swmodel) (st : nat -> bool) (ev : nat * R) : nat -> bool :=
    fun d => if Nat.eqb d (fst ev) then sw_update m (st (fst ev)) (snd ev) else st d.
  Definition sw_run (m : swmodel) (st : nat -> bool) (evs : list (nat * R)) : nat -> bool := fold_left (sw_step m) evs st.
End Switch.
