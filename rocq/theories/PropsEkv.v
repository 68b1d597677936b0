(** Property theorems about the EKV transistor (C55, C91, C92, C99). *)
From Coq Require Import Reals Ranalysis5 List Bool Lra Lia.
From Verif Require Import Base Newton NewtonFacts Deriv Ekv.
Open Scope R_scope.

(** * C55: charge and current *)
Theorem C55_inverse : (forall i, 0 <= i -> q2i (i2q i) = i /\ 0 <= i2q i) /\ (forall q, 0 <= q -> i2q (q2i q) = q /\ 0 <= q2i q).
Proof.
  split.
  - intros i H. unfold q2i, i2q. rewrite Rmax_right by lra. assert (S2 := sqrt_sqrt (1/4 + i) ltac:(lra)).
    set (s := sqrt (1/4 + i)) in *. split; [nra|].
    assert (1/2 <= s); [|lra]. unfold s. replace (1/2) with (sqrt (1/4)); [apply sqrt_le_1_alt; lra|].
    replace (1/4) with ((1/2) * (1/2)) by field. apply sqrt_square. lra.
  - intros q H. assert (P : 0 <= q2i q) by (unfold q2i; nra). split; [|exact P]. unfold i2q. rewrite Rmax_right by exact P.
    replace (1/4 + q2i q) with ((q + 1/2) * (q + 1/2)) by (unfold q2i; field). rewrite sqrt_square by lra. ring.
Qed.
Print Assumptions C55_inverse.

(** The root of 1/4 + i, for positive i, exceeds 1/2 and grows. *)
Lemma root_half : sqrt (1/4) = 1/2.
Proof. replace (1/4) with ((1/2) * (1/2)) by field. apply sqrt_square. lra. Qed.
Lemma root_gt : forall i, 0 < i -> 1/2 < sqrt (1/4 + i).
Proof. intros i H. rewrite <- root_half at 1. apply sqrt_lt_1_alt. lra. Qed.
Lemma root_mono : forall i j, 0 <= i -> i < j -> sqrt (1/4 + i) < sqrt (1/4 + j).
Proof. intros i j H K. apply sqrt_lt_1_alt. lra. Qed.

Definition v_of (i : R) : R := ln (sqrt (1/4 + i) - 1/2) + 2 * sqrt (1/4 + i) - 1.
Lemma v_of_mono : forall i j, 0 < i -> i < j -> v_of i < v_of j.
Proof.
  intros i j H K. unfold v_of. assert (A := root_gt i H). assert (B := root_mono i j ltac:(lra) K).
  assert (C := ln_increasing (sqrt (1/4 + i) - 1/2) (sqrt (1/4 + j) - 1/2) ltac:(lra) ltac:(lra)). lra.
Qed.

(** v = ln q + 2 q with q = i2q i, as documented. *)
Theorem C55_v_of_q : forall eps i, 0 < eps -> eps <= i -> get_vsmall eps i = ln (i2q i) + 2 * i2q i.
Proof.
  intros eps i E H. unfold get_vsmall. assert (A : Rlt_b (Rabs i) eps = false) by (apply Rlt_b_false; rewrite Rabs_pos_eq; lra). rewrite A.
  unfold i2q. rewrite Rmax_right by lra. field.
Qed.
Print Assumptions C55_v_of_q.

(** The voltage grows strictly with the current (from the resolution eps on), so that
    at most one positive current belongs to a voltage. *)
Theorem C55_increasing : forall eps i j, 0 < eps -> eps <= i -> i < j -> get_vsmall eps i < get_vsmall eps j.
Proof.
  intros eps i j E H K. unfold get_vsmall.
  assert (A : Rlt_b (Rabs i) eps = false) by (apply Rlt_b_false; rewrite Rabs_pos_eq; lra).
  assert (B : Rlt_b (Rabs j) eps = false) by (apply Rlt_b_false; rewrite Rabs_pos_eq; lra). rewrite A, B.
  exact (v_of_mono i j ltac:(lra) K).
Qed.
Print Assumptions C55_increasing.

Lemma v_obj_pos : forall x v, 0 < x -> v_obj x v = v_of x - v.
Proof. intros x v H. unfold v_obj, v_of. apply Rlt_b_true in H. rewrite H. reflexivity. Qed.
Lemma v_obj_zero_unique : forall x y v, 0 < x -> 0 < y -> v_obj x v = 0 -> v_obj y v = 0 -> x = y.
Proof.
  intros x y v X Y A B. rewrite v_obj_pos in A, B by assumption.
  destruct (Rtotal_order x y) as [H|[H|H]]; [|exact H|].
  - assert (K := v_of_mono x y X H). lra.
  - assert (K := v_of_mono y x Y H). lra.
Qed.

(** And exactly one exists for every voltage. *)
Lemma lnq_continuous : forall q, 0 < q -> continuity_pt (fun q => ln q + 2 * q) q.
Proof.
  intros q H. apply derivable_continuous_pt. exists (/ q + 2).
  assert (D2 : derivable_pt_lim (fun q => 2 * q) q 2).
  { eapply dlim_eq; [|eapply dlim_ext; [|exact (dlim_poly2 0 2 0 q)]]; [ring|intros; cbv beta; ring]. }
  exact (derivable_pt_lim_plus ln (fun q => 2 * q) q _ _ (derivable_pt_lim_ln q H) D2).
Qed.
Theorem C55_unique_current : forall v, exists i, 0 < i /\ v_obj i v = 0 /\ (forall j, 0 < j -> v_obj j v = 0 -> j = i).
Proof.
  intros v.
  assert (Q : exists q, 0 < q /\ ln q + 2 * q = v).
  { set (a := Rmin 1 (exp (v - 3))). set (b := Rmax 1 (v + 1)).
    assert (a0 : 0 < a) by (unfold a; apply Rmin_glb_lt; [lra|apply exp_pos]).
    assert (a1 : a <= 1) by apply Rmin_l. assert (ae : a <= exp (v - 3)) by apply Rmin_r.
    assert (b1 : 1 <= b) by apply Rmax_l. assert (bv : v + 1 <= b) by apply Rmax_r.
    assert (la : ln a <= v - 3).
    { rewrite <- (ln_exp (v - 3)). destruct ae as [ae|ae]; [left; apply ln_increasing; assumption|right; rewrite ae; reflexivity]. }
    assert (lb : 0 <= ln b).
    { rewrite <- ln_1. destruct b1 as [b1|b1]; [left; apply ln_increasing; lra|right; rewrite <- b1; reflexivity]. }
    set (f := fun q => ln q + 2 * q - v).
    assert (FA : f a < 0) by (unfold f; lra). assert (FB : 0 < f b) by (unfold f; lra).
    assert (AB : a < b).
    { destruct (Rlt_le_dec a b) as [K|K]; [exact K|exfalso]. assert (E : a = b) by lra. rewrite E in FA. lra. }
    assert (CONT : forall q, a <= q <= b -> continuity_pt f q).
    { intros q Hq. unfold f. apply continuity_pt_minus; [apply lnq_continuous; lra|apply continuity_pt_const; intros x y; reflexivity]. }
    destruct (IVT_interv f a b CONT AB FA FB) as (z & Hz & Ez). exists z. split; [lra|unfold f in Ez; lra]. }
  destruct Q as (q & q0 & Eq). exists (q2i q). assert (I0 : 0 < q2i q) by (unfold q2i; nra).
  assert (Z : v_obj (q2i q) v = 0).
  { rewrite v_obj_pos by exact I0. unfold v_of. replace (1/4 + q2i q) with ((q + 1/2) * (q + 1/2)) by (unfold q2i; field).
    rewrite sqrt_square by lra. replace (q + 1/2 - 1/2) with q by ring. lra. }
  split; [exact I0|]. split; [exact Z|]. intros j J K. exact (v_obj_zero_unique j (q2i q) v J I0 K Z).
Qed.
Print Assumptions C55_unique_current.

(** The first and second derivative handed to Newton's method are right above eps. *)
Lemma root_d : forall x, 0 < x -> derivable_pt_lim (fun x => sqrt (1/4 + x)) x (/ (2 * sqrt (1/4 + x))).
Proof.
  intros x H. assert (L : derivable_pt_lim (fun x => 1/4 + x) x 1).
  { eapply dlim_eq; [|eapply dlim_ext; [|exact (dlim_poly2 0 1 (1/4) x)]]; [ring|intros; cbv beta; ring]. }
  assert (D := derivable_pt_lim_comp _ sqrt x _ _ L (derivable_pt_lim_sqrt (1/4 + x) ltac:(lra))). unfold comp in D.
  eapply dlim_eq; [|exact D]. ring.
Qed.
Theorem C55_newton_derivatives : forall eps x v, 0 < eps -> eps <= x ->
  derivable_pt_lim (fun x => v_obj x v) x (v_obj_prime eps x) /\
  (eps < x -> derivable_pt_lim (v_obj_prime eps) x (v_obj_prime2 eps x)).
Proof.
  intros eps x v E H. assert (X : 0 < x) by lra. assert (A := root_gt x X). assert (Dr := root_d x X).
  set (s := sqrt (1/4 + x)) in *. split.
  - assert (D1 := derivable_pt_lim_minus _ _ x _ _ Dr (derivable_pt_lim_const (1/2) x)). unfold minus_fct, fct_cte in D1.
    assert (Ps : 0 < sqrt (1/4 + x) - 1/2) by (fold s; lra).
    assert (D2 := derivable_pt_lim_comp _ ln x _ _ D1 (derivable_pt_lim_ln _ Ps)). unfold comp in D2.
    assert (D3 := derivable_pt_lim_scal _ 2 x _ Dr). unfold mult_real_fct in D3.
    assert (D4 := derivable_pt_lim_minus _ _ x _ _ (derivable_pt_lim_plus _ _ x _ _ D2 D3) (derivable_pt_lim_const (1 + v) x)).
    unfold minus_fct, plus_fct, fct_cte in D4. fold s in D4.
    apply dlim_near with (f := fun x => ln (sqrt (1/4 + x) - 1/2) + 2 * sqrt (1/4 + x) - (1 + v)) (r := x); [exact X| |].
    + intros y Y. apply Rabs_def2 in Y. rewrite v_obj_pos by lra. unfold v_of. ring.
    + eapply dlim_eq; [|exact D4]. unfold v_obj_prime.
      assert (B : Rlt_b x eps = false) by (apply Rlt_b_false; exact H). rewrite B. fold s. field. split; lra.
  - intros H'.
    assert (D1 := derivable_pt_lim_minus _ _ x _ _ Dr (derivable_pt_lim_const (1/2) x)). unfold minus_fct, fct_cte in D1.
    assert (D2 := derivable_pt_lim_mult _ _ x _ _ D1 Dr). unfold mult_fct in D2. cbv beta in D2. fold s in D2.
    assert (N1 : (s - 1/2) * s <> 0) by (apply Rmult_integral_contrapositive_currified; intros Z; lra).
    assert (N2 : s <> 0) by (intros Z; lra).
    assert (D3 := derivable_pt_lim_div (fct_cte (1/2)) _ x 0 _ (derivable_pt_lim_const _ _) D2 N1).
    assert (D4 := derivable_pt_lim_div (fct_cte 1) _ x 0 _ (derivable_pt_lim_const _ _) Dr N2).
    assert (D5 := derivable_pt_lim_plus _ _ x _ _ D3 D4). unfold div_fct, plus_fct, fct_cte in D5. cbv beta in D5. fold s in D5.
    apply dlim_near with (f := fun x => 1/2 / ((sqrt (1/4 + x) - 1/2) * sqrt (1/4 + x)) + 1 / sqrt (1/4 + x)) (r := x - eps); [lra| |].
    + intros y Y. apply Rabs_def2 in Y. unfold v_obj_prime. assert (B : Rlt_b y eps = false) by (apply Rlt_b_false; lra). rewrite B.
      assert (Ay := root_gt y ltac:(lra)). field. split; lra.
    + eapply dlim_eq; [|exact D5]. unfold v_obj_prime2. assert (B : Rlt_b x eps = false) by (apply Rlt_b_false; exact H). rewrite B.
      replace (x + 1/4) with (1/4 + x) by ring. fold s. replace (1/4 + x) with (s * s) by (unfold s; apply sqrt_sqrt; lra).
      unfold Rsqr. field. split; lra.
Qed.
Print Assumptions C55_newton_derivatives.

(** * C55: exchange of drain and source *)
Definition e_exchange (b : ebias) : ebias := let '(vd, vg, vs) := b in (vs, vg, vd).
Theorem C55_exchange : forall eps ut esi newton m d g1 g2 vd vg vs, vd * e_NP m <> vs * e_NP m ->
  e_ids eps ut esi newton m d g1 g2 (e_exchange (vd, vg, vs)) = - e_ids eps ut esi newton m d g1 g2 (vd, vg, vs).
Proof.
  intros eps ut esi newton m d g1 g2 vd vg vs NE. unfold e_exchange, e_ids, e_currents, e_voltages.
  destruct (Rlt_b (vd * e_NP m) (vs * e_NP m)) eqn:A; destruct (Rlt_b (vs * e_NP m) (vd * e_NP m)) eqn:B;
    repeat match goal with K : Rlt_b _ _ = true |- _ => apply Rlt_b_true in K | K : Rlt_b _ _ = false |- _ => apply Rlt_b_false in K end.
  - lra.
  - destruct (leq_virp _ _ _ _ _ _ _ _) as [L v]. unfold Rdiv. ring.
  - destruct (leq_virp _ _ _ _ _ _ _ _) as [L v]. unfold Rdiv. ring.
  - exfalso. apply NE. lra.
Qed.
Print Assumptions C55_exchange.
(** The roles of the drain and source conductances are exchanged too, with the sign
    of the current. *)
Theorem C55_exchange_conductances : forall eps ut esi newton m d g1 g2 vd vg vs, vd * e_NP m <> vs * e_NP m ->
  e_gms eps ut esi newton m d g1 g2 (e_exchange (vd, vg, vs)) = - e_gmd eps ut esi newton m d g1 g2 (vd, vg, vs) /\
  e_gmd eps ut esi newton m d g1 g2 (e_exchange (vd, vg, vs)) = - e_gms eps ut esi newton m d g1 g2 (vd, vg, vs) /\
  e_gmg eps ut esi newton m d g1 g2 (e_exchange (vd, vg, vs)) = - e_gmg eps ut esi newton m d g1 g2 (vd, vg, vs).
Proof.
  intros eps ut esi newton m d g1 g2 vd vg vs NE. unfold e_exchange, e_gms, e_gmd, e_gmg, e_currents, e_voltages.
  destruct (Rlt_b (vd * e_NP m) (vs * e_NP m)) eqn:A; destruct (Rlt_b (vs * e_NP m) (vd * e_NP m)) eqn:B;
    repeat match goal with K : Rlt_b _ _ = true |- _ => apply Rlt_b_true in K | K : Rlt_b _ _ = false |- _ => apply Rlt_b_false in K end.
  - lra.
  - destruct (leq_virp _ _ _ _ _ _ _ _) as [L v]. unfold Rdiv. split; [ring|]. split; ring.
  - destruct (leq_virp _ _ _ _ _ _ _ _) as [L v]. unfold Rdiv. split; [ring|]. split; ring.
  - exfalso. apply NE. lra.
Qed.
Print Assumptions C55_exchange_conductances.

(** With a solver that finds the physical current there is no current at equal
    drain and source voltages. *)
Theorem C55_zero_bias : forall eps ut esi newton m d g1 g2 v vg, 0 < ut ->
  (forall v g, 0 < newton v g /\ v_obj (newton v g) v = 0) ->
  e_ids eps ut esi newton m d g1 g2 (v, vg, v) = 0.
Proof.
  intros eps ut esi newton m d g1 g2 v vg U NW. unfold e_ids, e_currents, e_voltages.
  assert (A : Rlt_b (v * e_NP m) (v * e_NP m) = false) by (apply Rlt_b_false; lra). rewrite A.
  set (VG := vg * e_NP m). set (V := v * e_NP m). unfold leq_virp.
  set (ifn := get_ismall eps newton (get_VP m VG / ut - V / ut) g1).
  match goal with |- context [get_ismall eps newton ?w g2] => replace w with (get_VP m VG / ut - V / ut) end.
  - assert (E : get_ismall eps newton (get_VP m VG / ut - V / ut) g2 = ifn).
    { unfold ifn, get_ismall. f_equal. destruct (NW (get_VP m VG / ut - V / ut) g1) as [P1 Z1]. destruct (NW (get_VP m VG / ut - V / ut) g2) as [P2 Z2].
      exact (v_obj_zero_unique _ _ _ P2 P1 Z2 Z1). }
    rewrite E. ring.
  - match goal with |- context [sqrt (?a ^ 2 + ?b ^ 2)] => set (X := a); set (Y := b) end.
    replace (((V / ut - V / ut) * (1 / 2) * ut - X) ^ 2) with (X ^ 2) by (unfold Rdiv; ring).
    field. lra.
Qed.
Print Assumptions C55_zero_bias.

(** * C92 *)

(** For every voltage below zero the equation given to Newton's method has a second,
    negative zero, besides the physical one; from there the least current is
    returned. *)
Theorem C92_spurious_refuted : forall v, v < 0 ->
  v_obj v v = 0 /\ (exists i, 0 < i /\ v_obj i v = 0) /\
  (forall eps newton g, 0 < eps -> newton v g = v -> get_ismall eps newton v g = 10 * eps).
Proof.
  intros v H. split; [|split].
  - unfold v_obj. assert (A : Rlt_b 0 v = false) by (apply Rlt_b_false; lra). rewrite A. ring.
  - destruct (C55_unique_current v) as (i & I0 & Z & _). exists i. split; assumption.
  - intros eps newton g E K. unfold get_ismall. rewrite K. apply Rmax_right. lra.
Qed.
Print Assumptions C92_spurious_refuted.

(** For voltages that are not negative there is only the physical zero. *)
Theorem C92_positive : forall v, 0 < v -> exists i, 0 < i /\ v_obj i v = 0 /\ forall x, v_obj x v = 0 -> x = i.
Proof.
  intros v H. destruct (C55_unique_current v) as (i & I0 & Z & U). exists i. split; [exact I0|]. split; [exact Z|].
  intros x X. destruct (Rlt_le_dec 0 x) as [P|N]; [exact (U x P X)|exfalso].
  unfold v_obj in X. apply Rlt_b_false in N. rewrite N in X. apply Rlt_b_false in N. lra.
Qed.
Print Assumptions C92_positive.

(** * C99: the pinch-off voltage *)
Definition wroot (m : emodel) (VG : R) : R := sqrt (VG - e_VTO m + (sqrt (e_PHI m) + e_GAMMA m / 2) ^ 2).
Definition physical (m : emodel) : Prop := 0 < e_PHI m /\ 0 < e_GAMMA m.
Definition VGeff (m : emodel) (VG : R) : R := VG - e_VTO m + e_PHI m + e_GAMMA m * sqrt (e_PHI m).

Lemma wroot_arg : forall m VG, physical m -> VG - e_VTO m + (sqrt (e_PHI m) + e_GAMMA m / 2) ^ 2 = VGeff m VG + (e_GAMMA m / 2) ^ 2.
Proof.
  intros m VG [P G]. unfold VGeff. assert (S2 := sqrt_sqrt (e_PHI m) ltac:(lra)). set (s := sqrt (e_PHI m)) in *. rewrite <- S2. field.
Qed.
Lemma VP_on : forall m VG, physical m -> 0 < VGeff m VG -> get_VP m VG = (wroot m VG - e_GAMMA m / 2) ^ 2 - e_PHI m /\ e_GAMMA m / 2 < wroot m VG.
Proof.
  intros m VG PH V. assert (AR := wroot_arg m VG PH). destruct PH as [P G].
  assert (G2 : 0 < (e_GAMMA m / 2) ^ 2) by (apply pow_lt; lra).
  assert (W2 : wroot m VG * wroot m VG = VGeff m VG + (e_GAMMA m / 2) ^ 2) by (unfold wroot; rewrite sqrt_sqrt by (rewrite AR; lra); exact AR).
  split.
  - unfold get_VP. fold (VGeff m VG). assert (A : Rlt_b 0 (VGeff m VG) = true) by (apply Rlt_b_true; exact V). rewrite A.
    assert (B : Rlt_b 0 (VG - e_VTO m + (sqrt (e_PHI m) + e_GAMMA m / 2) ^ 2) = true) by (apply Rlt_b_true; rewrite AR; lra). rewrite B. cbn [andb].
    fold (wroot m VG). replace ((wroot m VG - e_GAMMA m / 2) ^ 2) with (wroot m VG * wroot m VG - e_GAMMA m * wroot m VG + (e_GAMMA m / 2) ^ 2) by field.
    rewrite W2. unfold VGeff. field.
  - unfold wroot. rewrite AR. rewrite <- (sqrt_pow2 (e_GAMMA m / 2)) at 1 by lra. apply sqrt_lt_1_alt. split; [lra|]. lra.
Qed.

(** The pinch-off voltage is never below -PHI. *)
Theorem C99_lower_bound : forall m VG, physical m -> - e_PHI m <= get_VP m VG.
Proof.
  intros m VG PH. destruct (Rlt_le_dec 0 (VGeff m VG)) as [V|V].
  - destruct (VP_on m VG PH V) as [E _]. rewrite E. assert (K := pow2_ge_0 (wroot m VG - e_GAMMA m / 2)). lra.
  - unfold get_VP. fold (VGeff m VG). assert (A : Rlt_b 0 (VGeff m VG) = false) by (apply Rlt_b_false; exact V). rewrite A. cbn [andb]. lra.
Qed.
Print Assumptions C99_lower_bound.

(** Its slope is 1/n, with n = 1 + GAMMA/(2 sqrt(PHI + VP)); the code's nv is this
    slope factor up to the 1e-12 under the root. *)
Theorem C99_slope : forall m VG, physical m -> 0 < VGeff m VG ->
  derivable_pt_lim (get_VP m) VG (/ (1 + 1/2 * e_GAMMA m / sqrt (e_PHI m + get_VP m VG))).
Proof.
  intros m VG PH V. destruct (VP_on m VG PH V) as [E W]. assert (PH' := PH). destruct PH' as [P G].
  assert (S1 : sqrt (e_PHI m + get_VP m VG) = wroot m VG - e_GAMMA m / 2).
  { rewrite E. replace (e_PHI m + ((wroot m VG - e_GAMMA m / 2) ^ 2 - e_PHI m)) with ((wroot m VG - e_GAMMA m / 2) ^ 2) by ring. apply sqrt_pow2. lra. }
  rewrite S1.
  assert (AR : 0 < VG - e_VTO m + (sqrt (e_PHI m) + e_GAMMA m / 2) ^ 2).
  { rewrite (wroot_arg m VG PH). assert (0 < (e_GAMMA m / 2) ^ 2) by (apply pow_lt; lra). lra. }
  assert (Dw : derivable_pt_lim (wroot m) VG (/ (2 * wroot m VG))).
  { assert (L : derivable_pt_lim (fun y => y - e_VTO m + (sqrt (e_PHI m) + e_GAMMA m / 2) ^ 2) VG 1).
    { eapply dlim_eq; [|eapply dlim_ext; [|exact (dlim_poly2 0 1 (- e_VTO m + (sqrt (e_PHI m) + e_GAMMA m / 2) ^ 2) VG)]]; [ring|intros; cbv beta; ring]. }
    assert (D := derivable_pt_lim_comp _ sqrt VG _ _ L (derivable_pt_lim_sqrt _ AR)). unfold comp in D.
    eapply dlim_eq; [|exact D]. unfold wroot. ring. }
  assert (Dm := derivable_pt_lim_minus _ _ VG _ _ Dw (derivable_pt_lim_const (e_GAMMA m / 2) VG)).
  assert (D2 := derivable_pt_lim_minus _ _ VG _ _ (derivable_pt_lim_mult _ _ VG _ _ Dm Dm) (derivable_pt_lim_const (e_PHI m) VG)).
  unfold minus_fct, mult_fct, fct_cte in D2. cbv beta in D2.
  apply dlim_near with (f := fun y => (wroot m y - e_GAMMA m / 2) * (wroot m y - e_GAMMA m / 2) - e_PHI m) (r := VGeff m VG); [exact V| |].
  - intros y Y. apply Rabs_def2 in Y. destruct (VP_on m y PH ltac:(unfold VGeff in *; lra)) as [Ey _]. rewrite Ey. ring.
  - eapply dlim_eq; [|exact D2]. field. repeat split; lra.
Qed.
Print Assumptions C99_slope.

(** It is continuous where the gate voltage becomes too low, and its slope dies out. *)
Theorem C99_continuous : forall m VG, physical m -> continuity_pt (get_VP m) VG.
Proof.
  intros m VG PH. destruct (Rtotal_order (VGeff m VG) 0) as [V|[V|V]].
  - apply derivable_continuous_pt. exists 0. apply dlim_near with (f := fct_cte (- e_PHI m)) (r := - VGeff m VG); [lra| |apply derivable_pt_lim_const].
    intros y Y. apply Rabs_def2 in Y. unfold get_VP. fold (VGeff m y).
    assert (A : Rlt_b 0 (VGeff m y) = false) by (apply Rlt_b_false; unfold VGeff in *; lra). rewrite A. reflexivity.
  - set (f := fun y => (wroot m y - e_GAMMA m / 2) ^ 2 - e_PHI m).
    assert (AR : forall y, y - e_VTO m + (sqrt (e_PHI m) + e_GAMMA m / 2) ^ 2 = VGeff m y + (e_GAMMA m / 2) ^ 2) by (intros y; apply wroot_arg; exact PH).
    assert (W0 : wroot m VG = e_GAMMA m / 2) by (unfold wroot; rewrite AR, V, Rplus_0_l; apply sqrt_pow2; destruct PH; lra).
    assert (F0 : f VG = - e_PHI m) by (unfold f; rewrite W0; ring).
    assert (V0 : get_VP m VG = - e_PHI m).
    { unfold get_VP. fold (VGeff m VG). assert (A : Rlt_b 0 (VGeff m VG) = false) by (apply Rlt_b_false; lra). rewrite A. reflexivity. }
    assert (CF : continuity_pt f VG).
    { assert (G2 : 0 < (e_GAMMA m / 2) ^ 2) by (apply pow_lt; destruct PH; lra).
      assert (L : derivable_pt_lim (fun y => y - e_VTO m + (sqrt (e_PHI m) + e_GAMMA m / 2) ^ 2) VG 1).
      { eapply dlim_eq; [|eapply dlim_ext; [|exact (dlim_poly2 0 1 (- e_VTO m + (sqrt (e_PHI m) + e_GAMMA m / 2) ^ 2) VG)]]; [ring|intros; cbv beta; ring]. }
      assert (ARP : 0 < VG - e_VTO m + (sqrt (e_PHI m) + e_GAMMA m / 2) ^ 2) by (rewrite AR; lra).
      assert (D := derivable_pt_lim_comp _ sqrt VG _ _ L (derivable_pt_lim_sqrt _ ARP)). unfold comp in D.
      assert (Dm := derivable_pt_lim_minus _ _ VG _ _ D (derivable_pt_lim_const (e_GAMMA m / 2) VG)).
      assert (D2 := derivable_pt_lim_minus _ _ VG _ _ (derivable_pt_lim_mult _ _ VG _ _ Dm Dm) (derivable_pt_lim_const (e_PHI m) VG)).
      apply derivable_continuous_pt. eexists. eapply dlim_ext; [|exact D2]. intros y. unfold f, wroot, minus_fct, mult_fct, fct_cte. ring. }
    intros e E. destruct (CF e E) as (r & R0 & Cr). exists r. split; [exact R0|]. intros y Y. specialize (Cr y Y). simpl in *. unfold R_dist in *.
    rewrite V0. rewrite F0 in Cr. destruct (Rlt_le_dec 0 (VGeff m y)) as [K|K].
    + destruct (VP_on m y PH K) as [Ey _]. rewrite Ey. exact Cr.
    + unfold get_VP. fold (VGeff m y). assert (A : Rlt_b 0 (VGeff m y) = false) by (apply Rlt_b_false; exact K). rewrite A. cbn [andb].
      replace (- e_PHI m - - e_PHI m) with 0 by ring. rewrite Rabs_R0. exact E.
  - apply derivable_continuous_pt. eexists. exact (C99_slope m VG PH V).
Qed.
Print Assumptions C99_continuous.

(** * C91 *)
Definition e_complement (m : emodel) : emodel := mkE (- e_NP m) (e_VTO m) (e_GAMMA m) (e_PHI m) (e_KP m) (e_UCRIT m) (e_LAMBDA m) (e_XJ m) (e_COX m).
Definition e_negate (b : ebias) : ebias := let '(vd, vg, vs) := b in (- vd, - vg, - vs).

Lemma voltages_mirror : forall m b, e_voltages (e_complement m) (e_negate b) = e_voltages m b.
Proof.
  intros m [[vd vg] vs]. unfold e_negate, e_voltages. cbn [e_complement e_NP].
  replace (- vd * - e_NP m) with (vd * e_NP m) by ring. replace (- vg * - e_NP m) with (vg * e_NP m) by ring.
  replace (- vs * - e_NP m) with (vs * e_NP m) by ring. reflexivity.
Qed.
Lemma currents_mirror : forall eps ut esi newton m d g1 g2 b,
  e_currents eps ut esi newton (e_complement m) d g1 g2 (e_negate b) = e_currents eps ut esi newton m d g1 g2 b.
Proof. intros. unfold e_currents. rewrite voltages_mirror. reflexivity. Qed.

(** Current and the drain and source transconductances of complementary devices are
    mirror images. *)
Theorem C91_mirror : forall eps ut esi newton m d g1 g2 b,
  e_ids eps ut esi newton (e_complement m) d g1 g2 (e_negate b) = - e_ids eps ut esi newton m d g1 g2 b /\
  e_gms eps ut esi newton (e_complement m) d g1 g2 (e_negate b) = e_gms eps ut esi newton m d g1 g2 b /\
  e_gmd eps ut esi newton (e_complement m) d g1 g2 (e_negate b) = e_gmd eps ut esi newton m d g1 g2 b.
Proof.
  intros. unfold e_ids, e_gms, e_gmd. rewrite voltages_mirror, currents_mirror.
  destruct (e_voltages m b) as [[[VD VG] VS] cs]. destruct (e_currents eps ut esi newton m d g1 g2 b) as [[ifn irn] L].
  split; [|split; reflexivity]. cbn [e_complement e_NP]. unfold e_Is, get_nq, get_VP. cbn [e_complement e_VTO e_GAMMA e_PHI e_KP]. unfold Rdiv. ring.
Qed.
Print Assumptions C91_mirror.

(** The gate transconductance is not: for a p device it is computed with the slope
    factor of a gate voltage of the wrong sign.  When that voltage is below the
    threshold by more than PHI + GAMMA sqrt(PHI), the factor is 1 + GAMMA/2 10^6. *)
Theorem C91_gmg_refuted : forall eps ut esi newton m d g1 g2 vd vg vs, physical m -> e_NP m = 1 ->
  VGeff m (- vg) <= 0 -> 0 < VGeff m vg ->
  let gn := e_gmg eps ut esi newton m d g1 g2 (vd, vg, vs) in
  let gp := e_gmg eps ut esi newton (e_complement m) d g1 g2 (e_negate (vd, vg, vs)) in
  gp * (1 + e_GAMMA m / 2 * 10 ^ 6) = gn * get_nv m vg /\ get_nv m vg < 1 + e_GAMMA m / 2 * 10 ^ 6.
Proof.
  intros eps ut esi newton m d g1 g2 vd vg vs PH NP V1 V2 gn gp.
  assert (R6 : sqrt (/ 10 ^ 12) = / 10 ^ 6).
  { replace (/ 10 ^ 12) with (/ 10 ^ 6 * / 10 ^ 6) by (field; lra). apply sqrt_square. left. apply Rinv_0_lt_compat. apply pow_lt. lra. }
  assert (NVn : get_nv (e_complement m) (- vg) = 1 + e_GAMMA m / 2 * 10 ^ 6).
  { unfold get_nv, get_VP. cbn [e_complement e_VTO e_GAMMA e_PHI]. fold (VGeff m (- vg)).
    assert (A : Rlt_b 0 (VGeff m (- vg)) = false) by (apply Rlt_b_false; exact V1). rewrite A. cbn [andb].
    replace (e_PHI m + - e_PHI m + / 10 ^ 12) with (/ 10 ^ 12) by ring. rewrite R6. field. }
  assert (SP : 0 < sqrt (e_PHI m + get_VP m vg + / 10 ^ 12)).
  { apply sqrt_lt_R0. assert (K := C99_lower_bound m vg PH). assert (0 < / 10 ^ 12) by (apply Rinv_0_lt_compat; apply pow_lt; lra). lra. }
  assert (NV0 : 1 < get_nv m vg).
  { unfold get_nv. assert (0 < 1/2 * e_GAMMA m / sqrt (e_PHI m + get_VP m vg + / 10 ^ 12)) by (apply Rdiv_lt_0_compat; [destruct PH; lra|exact SP]). lra. }
  assert (BIG : 1 < 1 + e_GAMMA m / 2 * 10 ^ 6) by (destruct PH; lra).
  split.
  - unfold gp, gn, e_gmg. rewrite voltages_mirror, currents_mirror.
    destruct (e_voltages m (vd, vg, vs)) as [[[VD VG] VS] cs]. destruct (e_currents eps ut esi newton m d g1 g2 (vd, vg, vs)) as [[ifn irn] L].
    cbn [e_negate]. rewrite NVn. unfold e_Gs, get_nq, get_VP. cbn [e_complement e_VTO e_GAMMA e_PHI e_KP]. fold (get_VP m VG).
    set (Z := get_nv m vg) in *. set (B := 1 + e_GAMMA m / 2 * 10 ^ 6) in *.
    match goal with |- ?a / B * B = ?b / Z * Z => generalize a end. intros q. field. split; intros K; rewrite K in *; lra.
  - unfold get_nv. apply Rplus_lt_compat_l.
    destruct (VP_on m vg PH V2) as [E W]. assert (POS : 0 < e_PHI m + get_VP m vg).
    { rewrite E. assert (0 < (wroot m vg - e_GAMMA m / 2) ^ 2) by (apply pow_lt; lra). lra. }
    assert (L : / 10 ^ 6 < sqrt (e_PHI m + get_VP m vg + / 10 ^ 12)).
    { rewrite <- R6. apply sqrt_lt_1_alt. split; [left; apply Rinv_0_lt_compat; apply pow_lt; lra|lra]. }
    assert (L2 : / sqrt (e_PHI m + get_VP m vg + / 10 ^ 12) < 10 ^ 6).
    { replace (10 ^ 6) with (/ / 10 ^ 6) by (field; lra). apply Rinv_lt_contravar; [|exact L].
      apply Rmult_lt_0_compat; [apply Rinv_0_lt_compat; apply pow_lt; lra|exact SP]. }
    unfold Rdiv. replace (1 * / 2 * e_GAMMA m) with (e_GAMMA m * / 2) by ring.
    apply Rmult_lt_compat_l; [destruct PH; lra|exact L2].
Qed.
Print Assumptions C91_gmg_refuted.
(** PHI = 1, GAMMA = 1, VTO = 1 at a gate voltage of 3 V satisfy the conditions. *)
Definition ex_e : emodel := mkE 1 1 1 1 1 1 1 1 1.
Example C91_example : physical ex_e /\ VGeff ex_e (- 3) <= 0 /\ 0 < VGeff ex_e 3 /\ get_VP ex_e (-3) = -1.
Proof.
  assert (S1 : sqrt 1 = 1) by apply sqrt_1.
  unfold physical, VGeff, get_VP, ex_e; cbn [e_PHI e_GAMMA e_VTO]. rewrite S1. repeat split; try lra.
  assert (A : Rlt_b 0 (-3 - 1 + 1 + 1 * 1) = false) by (apply Rlt_b_false; lra). rewrite A. cbn [andb]. ring.
Qed.
Example C55_example : i2q 2 = 1 /\ q2i 1 = 2 /\ v_obj 2 2 = 0.
Proof.
  destruct C55_inverse as [_ B]. destruct (B 1 ltac:(lra)) as [Q _]. replace (q2i 1) with 2 in Q by (unfold q2i; ring).
  split; [exact Q|]. split; [unfold q2i; ring|]. rewrite v_obj_pos by lra. unfold v_of.
  replace (1/4 + 2) with ((3/2) * (3/2)) by field. rewrite sqrt_square by lra. replace (3/2 - 1/2) with 1 by field. rewrite ln_1. field.
Qed.
