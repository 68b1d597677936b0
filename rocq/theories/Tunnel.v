(** Model of ahkab/components/TunnelJunction.py 208-261 (Simmons' formula).  The
    physical constants are parameters: [q] elementary charge, [eV], [me] electron
    mass, [hbar].  [phi] is PHI_B in eV, [dd] the thickness in Angstrom. *)
From Coq Require Import Reals.
Open Scope R_scope.

Section Tunnel.
  Variables (q eV me hbar : R).

  (** Lines 218-223; [fr] is +1 or -1, [P] the barrier in joule, [d] in metre. *)
  Definition endiff (V P fr : R) : R := (P - fr * q * V) / 2.
  Definition d_endiff (fr : R) : R := - fr * q / 2.
  Definition expfr (V P d fr : R) : R := exp (- (2 * sqrt (2 * me)) / hbar * sqrt (endiff V P fr) * d).
  Definition d_expfr (V P d fr : R) : R :=
    - (2 * sqrt (2 * me)) / hbar * d / sqrt (endiff V P fr) / 2 * d_endiff fr *
    exp (- (2 * sqrt (2 * me) / hbar * sqrt (endiff V P fr) * d)).
  Definition term (V P d fr : R) : R := endiff V P fr * expfr V P d fr.
  Definition d_term (V P d fr : R) : R := d_endiff fr * expfr V P d fr + d_expfr V P d fr * endiff V P fr.

  (** Lines 253-255 [get_gm] and 260-261 [_get_i]. *)
  Definition tj_scale (d : R) : R := q / (4 * PI ^ 2 * hbar * d ^ 2).
  Definition tj_i (phi dd V : R) : R :=
    let d := dd * / 10 ^ 10 in tj_scale d * (term V (phi * eV) d 1 - term V (phi * eV) d (-1)).
  Definition tj_gm (phi dd V : R) : R :=
    let d := dd * / 10 ^ 10 in tj_scale d * (d_term V (phi * eV) d 1 - d_term V (phi * eV) d (-1)).
End Tunnel.
