(** Property theorems about the tunnel junction (C54, C98). *)
From Coq Require Import Reals Lra.
From Verif Require Import Base Newton NewtonFacts Deriv Tunnel.
Open Scope R_scope.

Section Constants.
  Variables (q eV me hbar : R).
  Hypotheses (q0 : 0 < q) (e0 : 0 < eV) (m0 : 0 < me) (h0 : 0 < hbar).

  Lemma tj_odd : forall phi dd V, tj_i q eV me hbar phi dd (- V) = - tj_i q eV me hbar phi dd V.
  Proof.
    intros phi dd V. unfold tj_i, term, expfr, endiff.
    replace (phi * eV - 1 * q * - V) with (phi * eV - -1 * q * V) by ring.
    replace (phi * eV - -1 * q * - V) with (phi * eV - 1 * q * V) by ring. ring.
  Qed.

  Definition kk : R := 2 * sqrt (2 * me) / hbar.
  Lemma kk_pos : 0 < kk.
  Proof. unfold kk. apply Rdiv_lt_0_compat; [|exact h0]. assert (K : 0 < sqrt (2 * me)) by (apply sqrt_lt_R0; lra). lra. Qed.
  Lemma expfr_kk : forall V P d fr, expfr q me hbar V P d fr = exp (- (kk * d) * sqrt (endiff q V P fr)).
  Proof. intros. unfold expfr, kk. f_equal. unfold Rdiv. ring. Qed.

  Lemma endiff_d : forall P fr V, derivable_pt_lim (fun V => endiff q V P fr) V (d_endiff q fr).
  Proof.
    intros P fr V. eapply dlim_eq; [|eapply dlim_ext; [|exact (dlim_poly2 0 (- fr * q / 2) (P / 2) V)]].
    - unfold d_endiff. field.
    - intros y. unfold endiff. field.
  Qed.
  Lemma term_d : forall P d fr V, 0 < endiff q V P fr -> derivable_pt_lim (fun V => term q me hbar V P d fr) V (d_term q me hbar V P d fr).
  Proof.
    intros P d fr V E. assert (De := endiff_d P fr V).
    assert (Ds := derivable_pt_lim_comp _ sqrt V _ _ De (derivable_pt_lim_sqrt _ E)). unfold comp in Ds.
    assert (Da := derivable_pt_lim_scal _ (- (kk * d)) V _ Ds). unfold mult_real_fct in Da.
    assert (Dx := derivable_pt_lim_comp _ exp V _ _ Da (derivable_pt_lim_exp _)). unfold comp in Dx.
    assert (Dm := derivable_pt_lim_mult _ _ V _ _ De Dx). unfold mult_fct in Dm.
    eapply dlim_eq; [|eapply dlim_ext; [|exact Dm]].
    - unfold d_term. rewrite expfr_kk. unfold d_expfr.
      replace (- (2 * sqrt (2 * me) / hbar * sqrt (endiff q V P fr) * d)) with (- (kk * d) * sqrt (endiff q V P fr)) by (unfold kk; ring).
      replace (- (2 * sqrt (2 * me)) / hbar) with (- kk) by (unfold kk, Rdiv; ring).
      assert (S0 : sqrt (endiff q V P fr) <> 0) by (assert (K := sqrt_lt_R0 _ E); intros Z; lra).
      field. exact S0.
    - intros y. unfold term. rewrite expfr_kk. reflexivity.
  Qed.

  Lemma tj_derivative : forall phi dd V, Rabs (q * V) < phi * eV ->
    derivable_pt_lim (tj_i q eV me hbar phi dd) V (tj_gm q eV me hbar phi dd V).
  Proof.
    intros phi dd V H. apply Rabs_def2 in H.
    assert (D1 := term_d (phi * eV) (dd * / 10 ^ 10) 1 V ltac:(unfold endiff; lra)).
    assert (D2 := term_d (phi * eV) (dd * / 10 ^ 10) (-1) V ltac:(unfold endiff; lra)).
    exact (derivable_pt_lim_scal _ (tj_scale q hbar (dd * / 10 ^ 10)) V _ (derivable_pt_lim_minus _ _ V _ _ D1 D2)).
  Qed.

  (** s^2 exp(-c s) decreases from c s = 2 on. *)
  Lemma hump : forall c a b, 0 < c -> 2 <= c * a -> a <= b -> b * b * exp (- c * b) <= a * a * exp (- c * a).
  Proof.
    intros c a b C A B. assert (a0 : 0 < a) by (destruct (Rlt_le_dec 0 a) as [K|K]; [exact K|exfalso; assert (c * a <= c * 0) by (apply Rmult_le_compat_l; lra); lra]).
    set (t := (b - a) / a). assert (T : 0 <= t) by (unfold t; apply Rmult_le_pos; [lra|left; apply Rinv_0_lt_compat; exact a0]).
    assert (Eb : b = a * (1 + t)) by (unfold t; field; lra).
    assert (X : 1 + t <= exp t) by (destruct T as [T|T]; [left; apply exp_ineq1; lra|rewrite <- T, exp_0; lra]).
    assert (X2 : (1 + t) * (1 + t) <= exp (2 * t)).
    { replace (2 * t) with (t + t) by ring. rewrite exp_plus. apply Rmult_le_compat; lra. }
    assert (X3 : exp (2 * t) <= exp (c * a * t)).
    { assert (K : 2 * t <= c * a * t) by (apply Rmult_le_compat_r; lra). destruct K as [K|K]; [left; apply exp_increasing; exact K|right; f_equal; exact K]. }
    replace (- c * b) with (- c * a + - (c * a * t)) by (rewrite Eb; ring). rewrite exp_plus, exp_Ropp.
    replace (b * b * (exp (- c * a) * / exp (c * a * t))) with (a * a * exp (- c * a) * ((1 + t) * (1 + t) * / exp (c * a * t))) by (rewrite Eb; ring).
    assert (P : 0 < exp (c * a * t)) by apply exp_pos.
    assert (Q : (1 + t) * (1 + t) * / exp (c * a * t) <= 1).
    { apply Rmult_le_reg_r with (exp (c * a * t)); [exact P|]. rewrite Rmult_assoc, Rinv_l by lra. lra. }
    assert (W : 0 <= a * a * exp (- c * a)) by (assert (K := exp_pos (- c * a)); apply Rmult_le_pos; [apply Rmult_le_pos; lra|lra]).
    rewrite <- (Rmult_1_r (a * a * exp (- c * a))) at 2. apply Rmult_le_compat_l; assumption.
  Qed.

  Lemma scale_pos : forall d, d <> 0 -> 0 < tj_scale q hbar d.
  Proof.
    intros d D. unfold tj_scale. apply Rdiv_lt_0_compat; [exact q0|].
    assert (0 < PI ^ 2) by (apply pow_lt; apply PI_RGT_0). assert (0 < d ^ 2) by (rewrite <- Rsqr_pow2; apply Rsqr_pos_lt; exact D).
    apply Rmult_lt_0_compat; [apply Rmult_lt_0_compat; lra|assumption].
  Qed.

  Lemma tj_forward : forall phi dd V, 0 < dd -> 0 <= V -> q * V < phi * eV ->
    2 <= kk * (dd * / 10 ^ 10) * sqrt ((phi * eV - q * V) / 2) -> 0 <= tj_i q eV me hbar phi dd V.
  Proof.
    intros phi dd V D V0 H K. assert (d0 : 0 < dd * / 10 ^ 10) by (apply Rmult_lt_0_compat; [exact D|apply Rinv_0_lt_compat; apply pow_lt; lra]).
    unfold tj_i. set (d := dd * / 10 ^ 10) in *. apply Rmult_le_pos; [left; apply scale_pos; lra|].
    assert (qV : 0 <= q * V) by (apply Rmult_le_pos; lra).
    unfold term. rewrite !expfr_kk. unfold endiff. rewrite Rmult_1_l.
    replace (phi * eV - -1 * q * V) with (phi * eV + q * V) by ring.
    set (a := sqrt ((phi * eV - q * V) / 2)) in *. set (b := sqrt ((phi * eV + q * V) / 2)).
    replace ((phi * eV - q * V) / 2) with (a * a) by (unfold a; apply sqrt_sqrt; lra).
    replace ((phi * eV + q * V) / 2) with (b * b) by (unfold b; apply sqrt_sqrt; lra).
    assert (AB : a <= b) by (unfold a, b; apply sqrt_le_1_alt; lra).
    assert (HH := hump (kk * d) a b ltac:(apply Rmult_lt_0_compat; [exact kk_pos|exact d0]) K AB). lra.
  Qed.

  Lemma tj_edge : forall phi dd, 0 < dd -> 0 < phi -> tj_i q eV me hbar phi dd (phi * eV / q) < 0.
  Proof.
    intros phi dd D P. assert (d0 : 0 < dd * / 10 ^ 10) by (apply Rmult_lt_0_compat; [exact D|apply Rinv_0_lt_compat; apply pow_lt; lra]).
    unfold tj_i. set (d := dd * / 10 ^ 10) in *. assert (S0 := scale_pos d ltac:(lra)).
    assert (PE : 0 < phi * eV) by (apply Rmult_lt_0_compat; assumption).
    unfold term. rewrite !expfr_kk. unfold endiff.
    replace ((phi * eV - 1 * q * (phi * eV / q)) / 2) with 0 by (field; lra).
    replace ((phi * eV - -1 * q * (phi * eV / q)) / 2) with (phi * eV) by (field; lra).
    assert (X := exp_pos (- (kk * d) * sqrt (phi * eV))).
    assert (0 < tj_scale q hbar d * (phi * eV * exp (- (kk * d) * sqrt (phi * eV)))) by (apply Rmult_lt_0_compat; [exact S0|apply Rmult_lt_0_compat; assumption]).
    lra.
  Qed.
End Constants.

(** * C54 *)
Theorem C54_odd : forall q eV me hbar phi dd V,
  tj_i q eV me hbar phi dd (- V) = - tj_i q eV me hbar phi dd V /\ tj_i q eV me hbar phi dd 0 = 0.
Proof.
  intros q eV me hbar phi dd V. split; [apply tj_odd|].
  assert (K := tj_odd q eV me hbar phi dd 0). rewrite Ropp_0 in K. lra.
Qed.
Print Assumptions C54_odd.

Theorem C54_gm_derivative : forall q eV me hbar phi dd V, 0 < q -> 0 < eV -> 0 < me -> 0 < hbar ->
  Rabs (q * V) < phi * eV -> derivable_pt_lim (tj_i q eV me hbar phi dd) V (tj_gm q eV me hbar phi dd V).
Proof. intros q eV me hbar phi dd V q0 e0 m0 h0 H. exact (tj_derivative q eV me hbar phi dd V H). Qed.
Print Assumptions C54_gm_derivative.
(** With all constants 1, PHI_B = 8, d = 10^10 A: the barrier is 8 V. *)
Example C54_example : derivable_pt_lim (tj_i 1 1 1 1 8 (10 ^ 10)) 2 (tj_gm 1 1 1 1 8 (10 ^ 10) 2).
Proof. apply C54_gm_derivative; try lra. rewrite Rabs_pos_eq; lra. Qed.

(** * C98 *)

(** The junction absorbs power while the barrier that is left is thick enough. *)
Theorem C98_passive_guarded : forall q eV me hbar phi dd V, 0 < q -> 0 < eV -> 0 < me -> 0 < hbar -> 0 < dd ->
  Rabs (q * V) < phi * eV -> 2 <= 2 * sqrt (2 * me) / hbar * (dd * / 10 ^ 10) * sqrt ((phi * eV - Rabs (q * V)) / 2) ->
  0 <= V * tj_i q eV me hbar phi dd V.
Proof.
  intros q eV me hbar phi dd V q0 e0 m0 h0 D H K.
  destruct (Rle_lt_dec 0 V) as [P|N].
  - assert (QV : 0 <= q * V) by (apply Rmult_le_pos; lra). rewrite (Rabs_pos_eq _ QV) in *.
    apply Rmult_le_pos; [exact P|]. apply tj_forward; assumption.
  - assert (QV : 0 < q * - V) by (apply Rmult_lt_0_compat; lra).
    assert (E : Rabs (q * V) = q * - V) by (rewrite Rabs_left; lra). rewrite E in *.
    assert (F := tj_forward q eV me hbar q0 m0 h0 phi dd (- V) D ltac:(lra) H K).
    rewrite tj_odd in F. assert (0 <= - V * - tj_i q eV me hbar phi dd V) by (apply Rmult_le_pos; lra). lra.
Qed.
Print Assumptions C98_passive_guarded.

(** At a voltage equal to the barrier it delivers power, for every barrier and every
    thickness. *)
Theorem C98_barrier_refuted : forall q eV me hbar phi dd, 0 < q -> 0 < eV -> 0 < me -> 0 < hbar -> 0 < dd -> 0 < phi ->
  exists V, 0 < V /\ V * tj_i q eV me hbar phi dd V < 0.
Proof.
  intros q eV me hbar phi dd q0 e0 m0 h0 D P. exists (phi * eV / q).
  assert (V0 : 0 < phi * eV / q) by (apply Rdiv_lt_0_compat; [apply Rmult_lt_0_compat; assumption|exact q0]).
  split; [exact V0|]. assert (E := tj_edge q eV me hbar q0 e0 h0 phi dd D P).
  assert (0 < phi * eV / q * - tj_i q eV me hbar phi dd (phi * eV / q)) by (apply Rmult_lt_0_compat; lra). lra.
Qed.
Print Assumptions C98_barrier_refuted.
