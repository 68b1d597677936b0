(** Property theorems about the waveforms of the sources (C31, C32, C33, C80,
    C82). *)
From Coq Require Import Reals List Bool Lia Lra ZArith.
From Verif Require Import Base Newton NewtonFacts TimeFun.
Import ListNotations.
Open Scope R_scope.

(** * Lemmas *)
Lemma Rlt_b_dec : forall a b, (a < b /\ Rlt_b a b = true) \/ (b <= a /\ Rlt_b a b = false).
Proof.
  intros. destruct (Rlt_b a b) eqn:E; [left; apply Rlt_b_true in E|right; apply Rlt_b_false in E]; auto.
Qed.
Ltac case_lt a b := let L := fresh "L" in let E := fresh "E" in
  destruct (Rlt_b_dec a b) as [[L E]|[L E]]; rewrite E.

Ltac mm := unfold Rmax, Rmin in *;
  repeat match goal with |- context [Rle_dec ?a ?b] =>
    lazymatch a with context [Rle_dec _ _] => fail | _ =>
    lazymatch b with context [Rle_dec _ _] => fail | _ => destruct (Rle_dec a b) end end end; try lra.

Lemma abs_le_iff : forall x e, Rabs x <= e <-> - e <= x <= e.
Proof. intros x e. unfold Rabs. destruct (Rcase_abs x); lra. Qed.

Lemma Int_part_at : forall (k : nat) u, 0 <= u < 1 -> Int_part (INR k + u) = Z.of_nat k.
Proof.
  intros k u H. unfold Int_part. rewrite <- (tech_up (INR k + u) (Z.of_nat k + 1)); [lia| |];
  rewrite plus_IZR, <- INR_IZR_INZ; lra.
Qed.

Lemma trunc_at : forall (k : nat) u, 0 <= u < 1 -> trunc (INR k + u) = Z.of_nat k.
Proof.
  intros k u H. unfold trunc. pose proof (pos_INR k). case_lt (INR k + u) 0; [lra|]. apply Int_part_at. exact H.
Qed.

(** Every time from 0 on is in some period. *)
Lemma period_of : forall per t, 0 < per -> 0 <= t -> exists (k : nat) u, t = INR k * per + u /\ 0 <= u < per.
Proof.
  intros per t P T. assert (Q : 0 <= t / per) by (apply Rmult_le_pos; [lra|left; apply Rinv_0_lt_compat; lra]).
  destruct (base_Int_part (t / per)) as [B1 B2].
  assert (Z0 : (0 <= Int_part (t / per))%Z).
  { assert (IZR (Int_part (t / per)) > -1) by lra. apply lt_IZR in H. lia. }
  exists (Z.to_nat (Int_part (t / per))), (t - IZR (Int_part (t / per)) * per).
  rewrite INR_IZR_INZ, Z2Nat.id by exact Z0.
  assert (E : t = t / per * per) by (field; lra).
  split; [lra|]. split.
  - assert (IZR (Int_part (t / per)) * per <= t / per * per) by (apply Rmult_le_compat_r; lra). lra.
  - assert ((t / per - 1) * per < IZR (Int_part (t / per)) * per) by (apply Rmult_lt_compat_r; lra). lra.
Qed.

Lemma pulse_call_at : forall p (k : nat) u, 0 <= u < p_per p ->
  pulse_call p (INR k * p_per p + u) = Ok (pulse_shape p u).
Proof.
  intros p k u H. unfold pulse_call. destruct (Req_EM_T (p_per p) 0); [lra|].
  replace ((INR k * p_per p + u) / p_per p) with (INR k + u / p_per p) by (field; lra).
  rewrite trunc_at.
  - rewrite <- INR_IZR_INZ. f_equal. f_equal. ring.
  - split; [apply Rmult_le_pos; [lra|left; apply Rinv_0_lt_compat; lra]|].
    apply (Rmult_lt_reg_r (p_per p)); [lra|]. unfold Rdiv. rewrite Rmult_assoc, Rinv_l by lra. lra.
Qed.

Lemma frac01 : forall a b, 0 <= a -> a <= b -> 0 < b -> 0 <= a / b <= 1.
Proof.
  intros a b A AB B. split; [apply Rmult_le_pos; [lra|left; apply Rinv_0_lt_compat; lra]|].
  apply (Rmult_le_reg_r b); [lra|]. unfold Rdiv. rewrite Rmult_assoc, Rinv_l by lra. lra.
Qed.
Lemma div_le0 : forall a b, a <= 0 -> 0 < b -> a / b <= 0.
Proof.
  intros a b A B. apply (Rmult_le_reg_r b); [lra|]. unfold Rdiv. rewrite Rmult_assoc, Rinv_l by lra. lra.
Qed.
Lemma div_ge1 : forall a b, b <= a -> 0 < b -> 1 <= a / b.
Proof.
  intros a b A B. apply (Rmult_le_reg_r b); [lra|]. unfold Rdiv. rewrite Rmult_assoc, Rinv_l by lra. lra.
Qed.

Lemma mix_between : forall v1 v2 c, 0 <= c <= 1 -> Rmin v1 v2 <= v1 + (v2 - v1) * c <= Rmax v1 v2.
Proof.
  intros v1 v2 c H. unfold Rmin, Rmax. destruct (Rle_dec v1 v2).
  - assert (0 <= (v2 - v1) * c) by (apply Rmult_le_pos; lra).
    assert ((v2 - v1) * c <= (v2 - v1) * 1) by (apply Rmult_le_compat_l; lra). lra.
  - assert (0 <= (v1 - v2) * c) by (apply Rmult_le_pos; lra).
    assert ((v1 - v2) * c <= (v1 - v2) * 1) by (apply Rmult_le_compat_l; lra). lra.
Qed.

(** * C31 *)

(** Specification: the fraction of the step from v1 to v2, at [u] within the
    period. *)
Definition trapezoid (td tr pw tf u : R) : R :=
  Rmax 0 (Rmin 1 (Rmin ((u - td) / tr) ((td + tr + pw + tf - u) / tf))).

Definition valid (td tr pw tf per : R) : Prop :=
  0 < per /\ 0 <= td /\ 0 < tr /\ 0 <= pw /\ 0 < tf /\ td + tr + pw + tf <= per.

Lemma shape_trapezoid : forall v1 v2 td tr pw tf per u, valid td tr pw tf per ->
  pulse_shape (mkPulse v1 v2 td tr pw tf per) u = v1 + (v2 - v1) * trapezoid td tr pw tf u.
Proof.
  intros v1 v2 td tr pw tf per u (Hper & Htd & Htr & Hpw & Htf & Hsum). unfold pulse_shape, trapezoid. simpl.
  case_lt u td.
  { assert ((u - td) / tr <= 0) by (apply div_le0; lra).
    replace (Rmax 0 _) with 0 by mm. ring. }
  case_lt u (td + tr).
  { destruct (frac01 (u - td) tr) as [F1 F2]; try lra.
    assert (1 <= (td + tr + pw + tf - u) / tf) by (apply div_ge1; lra).
    replace (Rmax 0 _) with ((u - td) / tr).
    - field. lra.
    - mm. }
  assert (1 <= (u - td) / tr) by (apply div_ge1; lra).
  case_lt u (td + tr + pw).
  { assert (1 <= (td + tr + pw + tf - u) / tf) by (apply div_ge1; lra).
    replace (Rmax 0 _) with 1 by mm. ring. }
  case_lt u (td + tr + pw + tf).
  { destruct (frac01 (td + tr + pw + tf - u) tf) as [F1 F2]; try lra.
    replace (Rmax 0 _) with ((td + tr + pw + tf - u) / tf).
    - field. lra.
    - mm. }
  assert ((td + tr + pw + tf - u) / tf <= 0) by (apply div_le0; lra).
  replace (Rmax 0 _) with 0 by mm. ring.
Qed.

(** With edges of positive length, in every period the source is the trapezoid;
    the end of a period is included, where the next one begins. *)
Theorem C31_waveform : forall v1 v2 td tr pw tf per, valid td tr pw tf per ->
  forall (k : nat) u, 0 <= u <= per ->
  pulse_call (new_pulse v1 v2 td tr pw tf per) (INR k * per + u) = Ok (v1 + (v2 - v1) * trapezoid td tr pw tf u).
Proof.
  intros v1 v2 td tr pw tf per V k u H. unfold new_pulse.
  replace (Rmax td 0) with td by (destruct V as (_ & V & _); unfold Rmax; destruct Rle_dec; lra).
  destruct (Rlt_dec u per) as [L|L].
  - replace (INR k * per + u) with (INR k * p_per (mkPulse v1 v2 td tr pw tf per) + u) by reflexivity.
    rewrite pulse_call_at by (simpl; lra). f_equal. apply shape_trapezoid. exact V.
  - assert (u = per) by lra. subst u.
    replace (INR k * per + per) with (INR (S k) * p_per (mkPulse v1 v2 td tr pw tf per) + 0) by (rewrite S_INR; simpl; ring).
    destruct V as (V1 & V2 & V3 & V4 & V5 & V6).
    rewrite pulse_call_at by (simpl; lra). f_equal. rewrite shape_trapezoid by (repeat split; assumption). f_equal. f_equal.
    unfold trapezoid.
    assert ((0 - td) / tr <= 0) by (apply div_le0; lra).
    assert ((td + tr + pw + tf - per) / tf <= 0) by (apply div_le0; lra).
    mm.
Qed.
Print Assumptions C31_waveform.

(** Hence it has no jumps: it is Lipschitz on the whole time axis from 0. *)
Lemma trapezoid_lip : forall td tr pw tf s t, 0 < tr -> 0 < tf ->
  Rabs (trapezoid td tr pw tf s - trapezoid td tr pw tf t) <= Rmax (/ tr) (/ tf) * Rabs (s - t).
Proof.
  intros td tr pw tf s t Htr Htf. unfold trapezoid. set (e := Rmax (/ tr) (/ tf) * Rabs (s - t)).
  assert (Pr : 0 < / tr) by (apply Rinv_0_lt_compat; lra). assert (Pf : 0 < / tf) by (apply Rinv_0_lt_compat; lra).
  assert (A : Rabs ((s - td) / tr - (t - td) / tr) <= e).
  { replace ((s - td) / tr - (t - td) / tr) with (/ tr * (s - t)) by (field; lra).
    rewrite Rabs_mult, (Rabs_right (/ tr)) by lra. apply Rmult_le_compat_r; [apply Rabs_pos|apply Rmax_l]. }
  assert (B : Rabs ((td + tr + pw + tf - s) / tf - (td + tr + pw + tf - t) / tf) <= e).
  { replace ((td + tr + pw + tf - s) / tf - (td + tr + pw + tf - t) / tf) with (- (/ tf * (s - t))) by (field; lra).
    rewrite Rabs_Ropp, Rabs_mult, (Rabs_right (/ tf)) by lra. apply Rmult_le_compat_r; [apply Rabs_pos|apply Rmax_r]. }
  clearbody e. revert A B. generalize ((s - td) / tr) ((t - td) / tr) ((td + tr + pw + tf - s) / tf) ((td + tr + pw + tf - t) / tf).
  intros a a' b b' A B. apply abs_le_iff in A. apply abs_le_iff in B. apply abs_le_iff.
  mm.
Qed.

Theorem C31_no_jumps : forall v1 v2 td tr pw tf per, valid td tr pw tf per ->
  forall s t x y, 0 <= s -> 0 <= t ->
  pulse_call (new_pulse v1 v2 td tr pw tf per) s = Ok x -> pulse_call (new_pulse v1 v2 td tr pw tf per) t = Ok y ->
  Rabs (x - y) <= Rabs (v2 - v1) * Rmax (/ tr) (/ tf) * Rabs (s - t).
Proof.
  intros v1 v2 td tr pw tf per V. pose proof V as (P1 & P2 & P3 & P4 & P5 & P6).
  set (Lc := Rmax (/ tr) (/ tf)).
  assert (PL : 0 <= Lc) by (unfold Lc; apply Rle_trans with (/ tr); [left; apply Rinv_0_lt_compat; lra|apply Rmax_l]).
  assert (T0 : trapezoid td tr pw tf 0 = 0).
  { unfold trapezoid. assert ((0 - td) / tr <= 0) by (apply div_le0; lra). mm. }
  assert (T1 : trapezoid td tr pw tf per = 0).
  { unfold trapezoid. assert ((td + tr + pw + tf - per) / tf <= 0) by (apply div_le0; lra). mm. }
  assert (W : forall s t x y, 0 <= s -> s <= t -> pulse_call (new_pulse v1 v2 td tr pw tf per) s = Ok x ->
    pulse_call (new_pulse v1 v2 td tr pw tf per) t = Ok y -> Rabs (x - y) <= Rabs (v2 - v1) * Lc * (t - s)).
  { intros s t x y S0 ST X Y.
    destruct (period_of per s) as (k & u & Es & U); try lra. destruct (period_of per t) as (m & w & Et & Wb); try lra.
    rewrite Es, (C31_waveform v1 v2 td tr pw tf per V) in X by lra. rewrite Et, (C31_waveform v1 v2 td tr pw tf per V) in Y by lra.
    injection X as <-. injection Y as <-.
    replace (v1 + (v2 - v1) * trapezoid td tr pw tf u - (v1 + (v2 - v1) * trapezoid td tr pw tf w)) with
      ((v2 - v1) * (trapezoid td tr pw tf u - trapezoid td tr pw tf w)) by ring.
    rewrite Rabs_mult, Rmult_assoc. apply Rmult_le_compat_l; [apply Rabs_pos|].
    destruct (Nat.lt_trichotomy k m) as [KM|[KM|KM]].
    - assert (KR : INR k + 1 <= INR m) by (rewrite <- S_INR; apply le_INR; lia).
      assert (KP : (INR k + 1) * per <= INR m * per) by (apply Rmult_le_compat_r; lra).
      pose proof (trapezoid_lip td tr pw tf u per P3 P5) as A. pose proof (trapezoid_lip td tr pw tf 0 w P3 P5) as B.
      fold Lc in A, B. rewrite T1 in A. rewrite T0 in B.
      rewrite (Rabs_left1 (u - per)) in A by lra. rewrite (Rabs_left1 (0 - w)) in B by lra.
      replace (trapezoid td tr pw tf u - trapezoid td tr pw tf w) with
        ((trapezoid td tr pw tf u - 0) + (0 - trapezoid td tr pw tf w)) by ring.
      eapply Rle_trans; [apply Rabs_triang|]. eapply Rle_trans; [apply Rplus_le_compat; [exact A|exact B]|].
      rewrite <- Rmult_plus_distr_l. apply Rmult_le_compat_l; [exact PL|]. subst s t. lra.
    - subst m. pose proof (trapezoid_lip td tr pw tf u w P3 P5) as A. fold Lc in A.
      rewrite (Rabs_left1 (u - w)) in A by lra. replace (t - s) with (- (u - w)) by (subst s t; ring). exact A.
    - exfalso. assert (KR : INR m + 1 <= INR k) by (rewrite <- S_INR; apply le_INR; lia).
      assert (KP : (INR m + 1) * per <= INR k * per) by (apply Rmult_le_compat_r; lra). lra. }
  intros s t x y S0 T X Y. destruct (Rle_dec s t) as [ST|ST].
  - rewrite (Rabs_left1 (s - t)) by lra. replace (- (s - t)) with (t - s) by ring. apply W; auto.
  - rewrite (Rabs_right (s - t)) by lra. rewrite Rabs_minus_sym. apply W; auto; lra.
Qed.
Print Assumptions C31_no_jumps.

(** Also with instantaneous edges, or pulses that do not fit in the period: the
    values stay between the levels, at all times ... *)
Theorem C31_bounded : forall v1 v2 td tr pw tf per t, per <> 0 -> 0 <= tr -> 0 <= tf ->
  exists v, pulse_call (new_pulse v1 v2 td tr pw tf per) t = Ok v /\ Rmin v1 v2 <= v <= Rmax v1 v2.
Proof.
  intros v1 v2 td tr pw tf per t P1 P2 P3. unfold pulse_call. simpl. destruct (Req_EM_T per 0); [lra|].
  eexists. split; [reflexivity|]. unfold pulse_shape. simpl.
  generalize (t - per * IZR (trunc (t / per))) (Rmax td 0). intros u d.
  assert (M1 : Rmin v1 v2 <= v1 <= Rmax v1 v2) by (mm).
  assert (M2 : Rmin v1 v2 <= v2 <= Rmax v1 v2) by (mm).
  case_lt u d; [exact M1|]. case_lt u (d + tr).
  { replace ((v2 - v1) / tr * (u - d)) with ((v2 - v1) * ((u - d) / tr)) by (field; lra).
    apply mix_between. apply frac01; lra. }
  case_lt u (d + tr + pw); [exact M2|]. case_lt u (d + tr + pw + tf); [|exact M1].
  replace ((v1 - v2) / tf * (u - (d + tr + pw))) with ((v1 - v2) * ((u - (d + tr + pw)) / tf)) by (field; lra).
  rewrite Rmin_comm, Rmax_comm. apply mix_between. apply frac01; lra.
Qed.
Print Assumptions C31_bounded.

(** ... they repeat with the period from 0 on ... *)
Theorem C31_periodic : forall v1 v2 td tr pw tf per t, 0 < per -> 0 <= t ->
  pulse_call (new_pulse v1 v2 td tr pw tf per) (t + per) = pulse_call (new_pulse v1 v2 td tr pw tf per) t.
Proof.
  intros v1 v2 td tr pw tf per t P T. destruct (period_of per t P T) as (k & u & E & U).
  set (p := new_pulse v1 v2 td tr pw tf per). assert (EP : p_per p = per) by reflexivity.
  rewrite E. rewrite <- EP at 1 3.
  rewrite (pulse_call_at p k u) by (rewrite EP; lra).
  replace (INR k * p_per p + u + per) with (INR (S k) * p_per p + u) by (rewrite S_INR, EP; ring).
  apply pulse_call_at. rewrite EP. lra.
Qed.
Print Assumptions C31_periodic.

(** ... and the levels are reached: v1 before the delay and after the pulse, v2
    during the pulse width. *)
Theorem C31_levels : forall v1 v2 td tr pw tf per (k : nat) u, 0 <= tr -> 0 <= pw -> 0 <= tf -> 0 <= u < per ->
  (u < td -> pulse_call (new_pulse v1 v2 td tr pw tf per) (INR k * per + u) = Ok v1) /\
  (Rmax td 0 + tr <= u < Rmax td 0 + tr + pw ->
     pulse_call (new_pulse v1 v2 td tr pw tf per) (INR k * per + u) = Ok v2) /\
  (Rmax td 0 + tr + pw + tf <= u -> pulse_call (new_pulse v1 v2 td tr pw tf per) (INR k * per + u) = Ok v1).
Proof.
  intros v1 v2 td tr pw tf per k u P1 P2 P3 U.
  set (p := new_pulse v1 v2 td tr pw tf per). assert (EP : p_per p = per) by reflexivity.
  rewrite <- EP, pulse_call_at by (rewrite EP; lra). unfold pulse_shape. simpl.
  pose proof (Rmax_l td 0). set (d := Rmax td 0) in *.
  repeat split; intros H0.
  - case_lt u d; [reflexivity|lra].
  - case_lt u d; [lra|]. case_lt u (d + tr); [lra|]. case_lt u (d + tr + pw); [reflexivity|lra].
  - case_lt u d; [reflexivity|]. case_lt u (d + tr); [lra|]. case_lt u (d + tr + pw); [lra|].
    case_lt u (d + tr + pw + tf); [lra|reflexivity].
Qed.
Print Assumptions C31_levels.

(** 0 to 5 V, delay 1, rise 1, width 2, fall 1, period 6. *)
Example C31_example : pulse_call (new_pulse 0 5 1 1 2 1 6) (INR 2 * 6 + 3/2) = Ok (0 + (5 - 0) * trapezoid 1 1 2 1 (3/2)) /\
  trapezoid 1 1 2 1 (3/2) = 1/2.
Proof.
  split; [apply C31_waveform; [unfold valid|]; lra|].
  unfold trapezoid; mm.
Qed.

(** * C80: the delay only shifts the waveform *)

(** The reduction to the period comes before the delay: if the delay is a period
    or more, there is never a pulse. *)
Theorem C80_delay_refuted : forall v1 v2 td tr pw tf per t, 0 < per -> per <= td -> 0 <= t ->
  pulse_call (new_pulse v1 v2 td tr pw tf per) t = Ok v1.
Proof.
  intros v1 v2 td tr pw tf per t P D T. destruct (period_of per t P T) as (k & u & E & U).
  set (p := new_pulse v1 v2 td tr pw tf per). assert (EP : p_per p = per) by reflexivity.
  rewrite E, <- EP, pulse_call_at by (rewrite EP; lra). unfold pulse_shape. simpl.
  pose proof (Rmax_l td 0). case_lt u (Rmax td 0); [reflexivity|lra].
Qed.
Print Assumptions C80_delay_refuted.

(** If the delay and the pulse fit in a period together, it is a shift. *)
Theorem C80_delay_guarded : forall v1 v2 td tr pw tf per t,
  valid td tr pw tf per -> td <= t ->
  pulse_call (new_pulse v1 v2 td tr pw tf per) t = pulse_call (new_pulse v1 v2 0 tr pw tf per) (t - td).
Proof.
  intros v1 v2 td tr pw tf per t V T. pose proof V as (P1 & P2 & P3 & P4 & P5 & P6).
  assert (V0 : valid 0 tr pw tf per) by (repeat split; lra).
  destruct (period_of per t) as (k & u & E & U); try lra. rewrite E.
  rewrite (C31_waveform v1 v2 td tr pw tf per V) by lra.
  assert (SH : forall w, trapezoid 0 tr pw tf (w - td) = trapezoid td tr pw tf w).
  { intros w. unfold trapezoid. replace (w - td - 0) with (w - td) by ring.
    replace (0 + tr + pw + tf - (w - td)) with (td + tr + pw + tf - w) by ring. reflexivity. }
  destruct (Rle_dec td u) as [DU|DU].
  - replace (INR k * per + u - td) with (INR k * per + (u - td)) by ring.
    rewrite (C31_waveform v1 v2 0 tr pw tf per V0) by lra. rewrite SH. reflexivity.
  - destruct k as [|k]; [simpl in E; lra|].
    replace (INR (S k) * per + u - td) with (INR k * per + (u - td + per)) by (rewrite S_INR; ring).
    rewrite (C31_waveform v1 v2 0 tr pw tf per V0) by lra. do 3 f_equal.
    unfold trapezoid. assert ((u - td) / tr <= 0) by (apply div_le0; lra).
    assert ((0 + tr + pw + tf - (u - td + per)) / tf <= 0) by (apply div_le0; lra).
    mm.
Qed.
Print Assumptions C80_delay_guarded.

(** * C32 *)

(** Two continuous functions that meet make a continuous function. *)
Lemma glue : forall (f g h : R -> R) a, (forall t, f t = if Rlt_b t a then g t else h t) ->
  continuity_pt g a -> continuity_pt h a -> g a = h a -> continuity_pt f a.
Proof.
  intros f g h a E G H M eps He. destruct (G eps He) as (d1 & D1 & G1). destruct (H eps He) as (d2 & D2 & H1).
  exists (Rmin d1 d2). split; [apply Rmin_pos; assumption|]. intros x [X1 X2].
  assert (FA : f a = h a) by (rewrite E; unfold Rlt_b; destruct Rlt_dec; [lra|reflexivity]).
  simpl in *. unfold R_dist in *. rewrite FA, E. unfold Rlt_b. destruct (Rlt_dec x a).
  - rewrite <- M. apply G1. split; [exact X1|]. eapply Rlt_le_trans; [exact X2|apply Rmin_l].
  - apply H1. split; [exact X1|]. eapply Rlt_le_trans; [exact X2|apply Rmin_r].
Qed.

Lemma cont_of_derivable : forall f a, derivable_pt f a -> continuity_pt f a.
Proof. intros. apply derivable_continuous_pt. assumption. Qed.

Lemma cont_lin : forall a b t, continuity_pt (fun x => a * (x - b)) t.
Proof. intros. apply cont_of_derivable. reg. Qed.

(** Sinusoid: constant, then a damped sine that starts from there. *)
Theorem C32_sin : forall vo va freq td theta phi,
  (forall t, t < td -> sin_call vo va freq td theta phi t = vo + va * sin (PI * phi / 180)) /\
  sin_call vo va freq td theta phi td = vo + va * sin (PI * phi / 180) /\
  (forall t, td <= t -> sin_call vo va freq td theta phi t =
     vo + va * exp (- ((t - td) * theta)) * sin (2 * PI * freq * (t - td) + PI * phi / 180)) /\
  continuity_pt (sin_call vo va freq td theta phi) td /\
  (forall t, 0 <= theta -> Rabs (sin_call vo va freq td theta phi t - vo) <= Rabs va) /\
  (forall t, td <= t -> Rabs (sin_call vo va freq td theta phi t - vo) <= Rabs va * exp (- ((t - td) * theta))).
Proof.
  intros vo va freq td theta phi.
  assert (FM : forall t, td <= t -> sin_call vo va freq td theta phi t =
     vo + va * exp (- ((t - td) * theta)) * sin (2 * PI * freq * (t - td) + PI * phi / 180)).
  { intros t H. unfold sin_call. case_lt t td; [lra|]. do 3 f_equal. f_equal. ring. }
  assert (A0 : sin_call vo va freq td theta phi td = vo + va * sin (PI * phi / 180)).
  { rewrite FM by lra. replace ((td - td) * theta) with 0 by ring. rewrite Ropp_0, exp_0.
    replace (2 * PI * freq * (td - td) + PI * phi / 180) with (PI * phi / 180) by lra. ring. }
  assert (EV : forall t, td <= t -> Rabs (sin_call vo va freq td theta phi t - vo) <= Rabs va * exp (- ((t - td) * theta))).
  { intros t H. rewrite FM by exact H.
    match goal with |- Rabs (vo + va * ?e * ?s - vo) <= _ => replace (vo + va * e * s - vo) with (va * e * s) by ring end.
    rewrite !Rabs_mult. rewrite (Rabs_right (exp _)) by (left; apply exp_pos).
    rewrite <- (Rmult_1_r (Rabs va * _)) at 2. apply Rmult_le_compat_l.
    - apply Rmult_le_pos; [apply Rabs_pos|left; apply exp_pos].
    - apply Rabs_le. apply SIN_bound. }
  repeat split.
  - intros t H. unfold sin_call. case_lt t td; [reflexivity|lra].
  - exact A0.
  - exact FM.
  - apply glue with (g := fun _ => vo + va * sin (PI * phi / 180))
      (h := fun t => vo + va * exp ((td - t) * theta) * sin (2 * PI * freq * (t - td) + PI * phi / 180)).
    + intros t. reflexivity.
    + apply continuity_const. intros x y. reflexivity.
    + apply cont_of_derivable. reg.
    + replace ((td - td) * theta) with 0 by ring. rewrite exp_0.
      replace (2 * PI * freq * (td - td) + PI * phi / 180) with (PI * phi / 180) by lra. ring.
  - intros t TH. destruct (Rlt_dec t td) as [L|L].
    + unfold sin_call. case_lt t td; [|lra].
      replace (vo + va * sin (PI * phi / 180) - vo) with (va * sin (PI * phi / 180)) by ring.
      rewrite Rabs_mult. rewrite <- (Rmult_1_r (Rabs va)) at 2. apply Rmult_le_compat_l; [apply Rabs_pos|].
      apply Rabs_le. apply SIN_bound.
    + eapply Rle_trans; [apply EV; lra|]. rewrite <- (Rmult_1_r (Rabs va)) at 2. apply Rmult_le_compat_l; [apply Rabs_pos|].
      rewrite <- exp_0. assert (0 <= (t - td) * theta) by (apply Rmult_le_pos; lra).
      destruct (Req_dec ((t - td) * theta) 0) as [Z|Z]; [rewrite Z, Ropp_0; lra|left; apply exp_increasing; lra].
  - exact EV.
Qed.
Print Assumptions C32_sin.

Lemma exp_le1 : forall x, x <= 0 -> 0 < exp x <= 1.
Proof.
  intros x H. split; [apply exp_pos|]. rewrite <- exp_0. destruct (Req_dec x 0) as [->|N]; [lra|left; apply exp_increasing; lra].
Qed.

(** Exponential: v1 before the rise, continuous at both delays, never farther
    from v1 than v2 is, and between the two values if the decay is the slower. *)
Theorem C32_exp : forall v1 v2 td1 tau1 td2 tau2, 0 < tau1 -> 0 < tau2 -> td1 <= td2 ->
  (forall t, t <= td1 -> exp_call v1 v2 td1 tau1 td2 tau2 t = v1) /\
  continuity_pt (exp_call v1 v2 td1 tau1 td2 tau2) td1 /\
  continuity_pt (exp_call v1 v2 td1 tau1 td2 tau2) td2 /\
  (forall t, Rabs (exp_call v1 v2 td1 tau1 td2 tau2 t - v1) <= Rabs (v2 - v1)) /\
  (tau1 <= tau2 -> forall t, Rmin v1 v2 <= exp_call v1 v2 td1 tau1 td2 tau2 t <= Rmax v1 v2).
Proof.
  intros v1 v2 td1 tau1 td2 tau2 T1 T2 TT.
  set (r := fun t => v1 + (v2 - v1) * (1 - exp (-1 * (t - td1) / tau1))).
  set (d := fun t => r t + (v1 - v2) * (1 - exp (-1 * (t - td2) / tau2))).
  assert (FR : forall t, exp_call v1 v2 td1 tau1 td2 tau2 t = if Rlt_b t td1 then v1 else if Rlt_b t td2 then r t else d t) by reflexivity.
  assert (R1 : r td1 = v1).
  { unfold r. replace (-1 * (td1 - td1) / tau1) with 0 by (field; lra). rewrite exp_0. ring. }
  assert (D2 : d td2 = r td2).
  { unfold d. replace (-1 * (td2 - td2) / tau2) with 0 by (field; lra). rewrite exp_0. ring. }
  assert (CR : forall t, continuity_pt r t) by (intros t; unfold r; apply cont_of_derivable; reg).
  assert (CD : forall t, continuity_pt d t) by (intros t; unfold d, r; apply cont_of_derivable; reg).
  assert (NEG : forall t td tau, 0 < tau -> td <= t -> -1 * (t - td) / tau <= 0) by (intros; apply div_le0; lra).
  assert (MAIN : forall t, exists c, exp_call v1 v2 td1 tau1 td2 tau2 t = v1 + (v2 - v1) * c /\ -1 <= c <= 1 /\ (tau1 <= tau2 -> 0 <= c)).
  { intros t. rewrite FR. case_lt t td1; [exists 0; split; [ring|lra]|]. case_lt t td2.
    - exists (1 - exp (-1 * (t - td1) / tau1)). split; [reflexivity|].
      destruct (exp_le1 (-1 * (t - td1) / tau1)); [auto|]. lra.
    - exists (exp (-1 * (t - td2) / tau2) - exp (-1 * (t - td1) / tau1)). split; [unfold d, r; ring|].
      destruct (exp_le1 (-1 * (t - td1) / tau1)); [auto|]. destruct (exp_le1 (-1 * (t - td2) / tau2)); [auto|].
      split; [lra|]. intros TL.
      assert (Q : -1 * (t - td1) / tau1 <= -1 * (t - td2) / tau2).
      { assert ((t - td2) / tau2 <= (t - td1) / tau1); [|unfold Rdiv in *; lra].
        unfold Rdiv. apply Rmult_le_compat; try lra; [left; apply Rinv_0_lt_compat; lra|].
        apply Rinv_le_contravar; lra. }
      destruct Q as [Q|Q]; [apply exp_increasing in Q; lra|rewrite Q; lra]. }
  repeat split.
  - intros t H. rewrite FR. case_lt t td1; [reflexivity|]. assert (t = td1) by lra. subst t.
    case_lt td1 td2; [exact R1|]. assert (EQ : td2 = td1) by lra. rewrite <- EQ, D2, EQ. exact R1.
  - apply glue with (g := fun _ => v1) (h := fun t => if Rlt_b t td2 then r t else d t).
    + exact FR.
    + apply continuity_const. intros x y. reflexivity.
    + destruct (Req_dec td1 td2) as [EQ|NE].
      * rewrite EQ. apply glue with (g := r) (h := d); auto.
      * intros eps He. destruct (CR td1 eps He) as (dl & DP & HC). exists (Rmin dl (td2 - td1)).
        split; [apply Rmin_pos; lra|]. intros x [X1 X2]. simpl in *. unfold R_dist in *.
        assert (X3 : Rabs (x - td1) < td2 - td1) by (eapply Rlt_le_trans; [exact X2|apply Rmin_r]).
        apply Rabs_def2 in X3. case_lt x td2; [|lra]. case_lt td1 td2; [|lra]. apply HC. split; auto.
        eapply Rlt_le_trans; [exact X2|apply Rmin_l].
    + case_lt td1 td2; [symmetry; exact R1|]. assert (EQ : td2 = td1) by lra. rewrite <- EQ, D2, EQ. symmetry. exact R1.
  - destruct (Req_dec td1 td2) as [EQ|NE].
    + subst td2. apply glue with (g := fun _ => v1) (h := d); auto.
      * intros t. rewrite FR. case_lt t td1; reflexivity.
      * apply continuity_const. intros x y. reflexivity.
      * rewrite D2. symmetry. exact R1.
    + apply glue with (g := fun t => if Rlt_b t td1 then v1 else r t) (h := d); auto.
      * intros t. rewrite FR. case_lt t td1; case_lt t td2; auto. lra.
      * intros eps He. destruct (CR td2 eps He) as (dl & DP & HC). exists (Rmin dl (td2 - td1)).
        split; [apply Rmin_pos; lra|]. intros x [X1 X2]. simpl in *. unfold R_dist in *.
        assert (X3 : Rabs (x - td2) < td2 - td1) by (eapply Rlt_le_trans; [exact X2|apply Rmin_r]).
        apply Rabs_def2 in X3. case_lt x td1; [lra|]. case_lt td2 td1; [lra|]. apply HC. split; auto.
        eapply Rlt_le_trans; [exact X2|apply Rmin_l].
      * case_lt td2 td1; [lra|]. symmetry. exact D2.
  - intros t. destruct (MAIN t) as (c & -> & C1 & _). replace (v1 + (v2 - v1) * c - v1) with ((v2 - v1) * c) by ring.
    rewrite Rabs_mult. rewrite <- (Rmult_1_r (Rabs (v2 - v1))) at 2. apply Rmult_le_compat_l; [apply Rabs_pos|].
    apply Rabs_le. exact C1.
  - destruct (MAIN t) as (c & -> & C1 & C2). apply (mix_between v1 v2 c). split; [auto|lra].
  - destruct (MAIN t) as (c & -> & C1 & C2). apply (mix_between v1 v2 c). split; [auto|lra].
Qed.
Print Assumptions C32_exp.

(** With a decay faster than the rise it undershoots v1. *)
Example C32_exp_undershoot : exp_call 0 1 0 2 0 1 2 < 0.
Proof.
  unfold exp_call. case_lt 2 0; [lra|]. 
  replace (-1 * (2 - 0) / 2) with (-1) by field. replace (-1 * (2 - 0) / 1) with (-2) by field.
  assert (exp (-2) < exp (-1)) by (apply exp_increasing; lra). lra.
Qed.

(** FM and AM: constant up to the delay, continuous there, bounded. *)
Theorem C32_sffm_am : forall vo va fc mdi fs sa fm oc td,
  (exists f, (forall t, sffm_call vo va (Some fc) mdi fs td t = Ok (f t)) /\ continuity_pt f td /\
     (forall t, t <= td -> f t = vo) /\ (forall t, Rabs (f t - vo) <= Rabs va)) /\
  (exists f, (forall t, am_call sa fc fm oc (Some td) t = Ok (f t)) /\ continuity_pt f td /\
     (forall t, t <= td -> f t = 0) /\ (forall t, Rabs (f t) <= Rabs sa * (Rabs oc + 1))).
Proof.
  intros vo va fc mdi fs sa fm oc td. split.
  - exists (fun t => if Rlt_b td t then vo + va * sin (2 * PI * fc * (t - td) + mdi * sin (2 * PI * fs * (t - td))) else vo).
    repeat split.
    + intros t. unfold sffm_call. destruct (Rlt_b td t); reflexivity.
    + apply glue with (g := fun _ => vo) (h := fun t => vo + va * sin (2 * PI * fc * (t - td) + mdi * sin (2 * PI * fs * (t - td)))).
      * intros t. case_lt td t; case_lt t td; auto; try lra. assert (t = td) by lra. subst t.
        replace (2 * PI * fc * (td - td) + mdi * sin (2 * PI * fs * (td - td))) with (mdi * sin 0).
        -- rewrite sin_0, Rmult_0_r, sin_0. ring.
        -- replace (2 * PI * fs * (td - td)) with 0 by ring. ring.
      * apply continuity_const. intros x y. reflexivity.
      * apply cont_of_derivable. reg.
      * replace (2 * PI * fs * (td - td)) with 0 by ring. replace (2 * PI * fc * (td - td)) with 0 by ring.
        rewrite sin_0, Rmult_0_r, Rplus_0_r, sin_0. ring.
    + intros t H. case_lt td t; [lra|reflexivity].
    + intros t. case_lt td t.
      * match goal with |- Rabs (vo + va * sin ?a - vo) <= _ => replace (vo + va * sin a - vo) with (va * sin a) by ring end.
        rewrite Rabs_mult. rewrite <- (Rmult_1_r (Rabs va)) at 2. apply Rmult_le_compat_l; [apply Rabs_pos|].
        apply Rabs_le. apply SIN_bound.
      * rewrite Rminus_diag_eq by reflexivity. rewrite Rabs_R0. apply Rabs_pos.
  - exists (fun t => if Rlt_b td t then sa * (oc + sin (2 * PI * fm * (t - td))) * sin (2 * PI * fc * (t - td)) else 0).
    repeat split.
    + intros t. unfold am_call. destruct (Rlt_b td t); reflexivity.
    + apply glue with (g := fun _ => 0) (h := fun t => sa * (oc + sin (2 * PI * fm * (t - td))) * sin (2 * PI * fc * (t - td))).
      * intros t. case_lt td t; case_lt t td; auto; try lra. assert (t = td) by lra. subst t.
        replace (2 * PI * fc * (td - td)) with 0 by ring. rewrite sin_0. ring.
      * apply continuity_const. intros x y. reflexivity.
      * apply cont_of_derivable. reg.
      * replace (2 * PI * fc * (td - td)) with 0 by ring. rewrite sin_0. ring.
    + intros t H. case_lt td t; [lra|reflexivity].
    + intros t. case_lt td t.
      * rewrite !Rabs_mult, Rmult_assoc. apply Rmult_le_compat_l; [apply Rabs_pos|].
        assert (B : forall a, Rabs (sin a) <= 1) by (intros; apply Rabs_le; apply SIN_bound).
        rewrite <- (Rmult_1_r (Rabs oc + 1)). apply Rmult_le_compat; try apply Rabs_pos; [|apply B].
        eapply Rle_trans; [apply Rabs_triang|]. apply Rplus_le_compat_l. apply B.
      * rewrite Rabs_R0. pose proof (Rabs_pos oc). apply Rmult_le_pos; [apply Rabs_pos|lra].
Qed.
Print Assumptions C32_sffm_am.

(** * C33 *)

Definition increasing (pts : list (R * R)) : Prop :=
  forall i j, (i < j < length pts)%nat -> fst (nth i pts (0, 0)) < fst (nth j pts (0, 0)).

Lemma increasing_b_spec : forall pts, increasing pts -> increasing_b pts = true.
Proof.
  induction pts as [|p [|q pts] IH]; intros H; auto.
  cbn [increasing_b]. apply andb_true_intro. split.
  - apply Rlt_b_true. apply (H 0%nat 1%nat). simpl. lia.
  - apply IH. intros i j L. apply (H (S i) (S j)). simpl in *. lia.
Qed.

Lemma increasing_tl : forall p pts, increasing (p :: pts) -> increasing pts.
Proof. intros p pts H i j L. apply (H (S i) (S j)). simpl. lia. Qed.

Lemma spline_seg : forall rest p q i t, increasing (p :: q :: rest) -> (S i < length (p :: q :: rest))%nat ->
  fst (nth i (p :: q :: rest) (0, 0)) < t \/ i = 0%nat ->
  t <= fst (nth (S i) (p :: q :: rest) (0, 0)) ->
  spline_from p q rest t = line (nth i (p :: q :: rest) (0, 0)) (nth (S i) (p :: q :: rest) (0, 0)) t.
Proof.
  induction rest as [|r rest IH]; intros p q i t I L A B.
  - destruct i; [reflexivity|simpl in L; lia].
  - cbn [spline_from]. destruct i as [|i].
    + simpl in B. case_lt (fst q) t; [lra|reflexivity].
    + assert (A' : fst (nth i (q :: r :: rest) (0, 0)) < t) by (destruct A as [A|A]; [exact A|discriminate]).
      assert (Q : fst q < t).
      { destruct i as [|i]; [exact A'|]. assert (H := I 1%nat (S (S i))). simpl in H, A', L.
        assert (fst q < fst (nth i (r :: rest) (0, 0))) by (apply H; simpl; lia). simpl in *. lra. }
      case_lt (fst q) t; [|lra].
      change (nth (S i) (p :: q :: r :: rest) (0, 0)) with (nth i (q :: r :: rest) (0, 0)).
      change (nth (S (S i)) (p :: q :: r :: rest) (0, 0)) with (nth (S i) (q :: r :: rest) (0, 0)).
      apply IH; auto.
      * apply increasing_tl with p. exact I.
      * simpl in *. lia.
Qed.

Lemma rmaxl_last : forall pts, increasing pts -> pts <> [] -> rmaxl (map fst pts) = fst (last pts (0, 0)).
Proof.
  intros pts I N. destruct pts as [|p pts]; [congruence|]. simpl. clear N. revert p I.
  induction pts as [|q pts IH]; intros p I; [reflexivity|].
  cbn [map fold_left]. assert (fst p < fst q) by (apply (I 0%nat 1%nat); simpl; lia).
  rewrite Rmax_right by lra.
  rewrite (IH q (increasing_tl _ _ I)). reflexivity.
Qed.

(** The point list as the user gives it, at least two, increasing. *)
Section Pwl.
  Variables (pts : list (R * R)) (rep : bool) (rt td : R) (w : pwl).
  Hypothesis I : increasing pts.
  Hypothesis W : new_pwl pts rep rt td = Ok w.
  Let X i := fst (nth i pts (0, 0)).
  Let Y i := snd (nth i pts (0, 0)).
  Let M := X (length pts - 1).

  Lemma pwl_fields : (2 <= length pts)%nat /\ w_max w = M /\ w_repeat w = rep /\ w_td w = td /\
    w_rt w = (if Req_EM_T rt M then 0 else rt).
  Proof.
    revert W. unfold new_pwl, spline. rewrite increasing_b_spec by exact I.
    assert (NE : forall p q rest, pts = p :: q :: rest -> rmaxl (map fst pts) = M).
    { intros p q rest E. rewrite rmaxl_last by (auto; rewrite E; discriminate). unfold M, X. f_equal.
      rewrite E. generalize (q :: rest). intros l. clear. revert p. induction l as [|a l IH]; intros p; [reflexivity|].
      simpl length. replace (S (S (length l)) - 1)%nat with (S (length l)) by lia. cbn [nth].
      change (last (p :: a :: l) (0, 0)) with (last (a :: l) (0, 0)). rewrite IH.
      replace (length (a :: l) - 1)%nat with (length l) by (simpl; lia). reflexivity. }
    destruct pts as [|p [|q rest]] eqn:E; try discriminate.
    rewrite (NE p q rest eq_refl). intros H. injection H as <-. simpl. repeat split. lia.
  Qed.

  Lemma pwl_between : forall i t, (S i < length pts)%nat -> X i <= t <= X (S i) ->
    w_f w t = Y i + (Y (S i) - Y i) * ((t - X i) / (X (S i) - X i)).
  Proof.
    intros i t L H. revert W. unfold new_pwl, spline. rewrite increasing_b_spec by exact I. subst X Y.
    destruct pts as [|p [|q rest]] eqn:E; try discriminate. intros W'. injection W' as <-. simpl w_f.
    destruct H as [[H1|H1] H2].
    - rewrite (spline_seg rest p q i t); auto.
    - destruct i as [|i]; [rewrite (spline_seg rest p q 0 t); auto|].
      (* at a point: the segment on the left meets it *)
      assert (D1 : fst (nth i (p :: q :: rest) (0, 0)) < fst (nth (S i) (p :: q :: rest) (0, 0))) by (apply I; lia).
      assert (D2 : fst (nth (S i) (p :: q :: rest) (0, 0)) < fst (nth (S (S i)) (p :: q :: rest) (0, 0))) by (apply I; lia).
      rewrite (spline_seg rest p q i t); auto; try lia; try lra.
      unfold line. rewrite <- H1. field. lra.
  Qed.
End Pwl.

(** Within the span of the points the source, delayed by td, is the linear
    interpolation; it passes through every point. *)
Theorem C33_interpolates : forall pts rep rt td w, increasing pts -> new_pwl pts rep rt td = Ok w ->
  let X i := fst (nth i pts (0, 0)) in let Y i := snd (nth i pts (0, 0)) in
  (forall i t, (S i < length pts)%nat -> X i <= t <= X (S i) -> 0 <= t ->
     pwl_call w (td + t) = Y i + (Y (S i) - Y i) * ((t - X i) / (X (S i) - X i))) /\
  (forall i, (i < length pts)%nat -> 0 <= X i -> pwl_call w (td + X i) = Y i).
Proof.
  intros pts rep rt td w I W X Y. destruct (pwl_fields _ _ _ _ _ I W) as (L2 & F1 & F2 & F3 & F4).
  set (M := fst (nth (length pts - 1) pts (0, 0))) in *.
  assert (MX : forall i, (i < length pts)%nat -> X i <= M).
  { intros i L. unfold X, M. destruct (Nat.eq_dec i (length pts - 1)) as [->|N]; [lra|]. left. apply I. lia. }
  assert (NT : forall t, 0 <= t -> t <= M -> normalize_time w (td + t) = t).
  { intros t T0 TM. unfold normalize_time. rewrite F3. case_lt td (td + t).
    - replace (td + t - td) with t by ring. rewrite F1. case_lt M t; [lra|]. rewrite andb_false_r. reflexivity.
    - lra. }
  assert (A : forall i t, (S i < length pts)%nat -> X i <= t <= X (S i) -> 0 <= t ->
     pwl_call w (td + t) = Y i + (Y (S i) - Y i) * ((t - X i) / (X (S i) - X i))).
  { intros i t L H T0. unfold pwl_call. rewrite NT by (auto; pose proof (MX (S i) L); lra).
    apply (pwl_between pts rep rt td w I W i t L H). }
  split; [exact A|]. intros i L X0. destruct (Nat.eq_dec (S i) (length pts)) as [EL|NL].
  - destruct i as [|i]; [lia|]. assert (X i < X (S i)) by (apply I; lia).
    rewrite (A i) by (auto; try lia; lra). field. lra.
  - assert (X i < X (S i)) by (apply I; lia). rewrite (A i) by (try lia; lra). field. lra.
Qed.
Print Assumptions C33_interpolates.

(** With repetition: from the last point on the wave between the repeat time and
    the last point returns again and again.  (At the first return to the repeat
    time, which is the time of the last point itself, the value is the last one.) *)
Theorem C33_repeats : forall pts rt td w, increasing pts -> new_pwl pts true rt td = Ok w ->
  let M := fst (nth (length pts - 1) pts (0, 0)) in
  0 <= rt < M ->
  forall (n : nat) t, rt <= t < M -> 0 < t ->
  pwl_call w (td + (t + INR n * (M - rt))) = pwl_call w (td + t) \/ (n = 1%nat /\ t = rt).
Proof.
  intros pts rt td w I W M RT n t T T0. destruct (pwl_fields _ _ _ _ _ I W) as (L2 & F1 & F2 & F3 & F4). fold M in F1, F4.
  destruct (Req_EM_T rt M) as [|NE]; [lra|].
  assert (NT : normalize_time w (td + t) = t).
  { unfold normalize_time. rewrite F3. case_lt td (td + t); [|lra].
    replace (td + t - td) with t by ring. rewrite F1. case_lt M t; [lra|]. rewrite andb_false_r. reflexivity. }
  destruct n as [|n]; [left; simpl; do 2 f_equal; ring|].
  assert (C : t + INR (S n) * (M - rt) = M /\ n = 0%nat /\ t = rt \/ M < t + INR (S n) * (M - rt)).
  { rewrite S_INR. pose proof (pos_INR n). destruct n as [|n].
    - simpl. destruct (Req_dec t rt); [left|right]; simpl; lra || (repeat split; lra || auto).
    - right. rewrite S_INR in *. pose proof (pos_INR n). assert (0 <= INR n * (M - rt)) by (apply Rmult_le_pos; lra). lra. }
  destruct C as [(_ & -> & ->)|C]; [right; auto|left].
  unfold pwl_call. rewrite NT. f_equal. unfold normalize_time. rewrite F3.
  case_lt td (td + (t + INR (S n) * (M - rt))); [|lra].
  replace (td + (t + INR (S n) * (M - rt)) - td) with (t + INR (S n) * (M - rt)) by ring.
  rewrite F1, F2. case_lt M (t + INR (S n) * (M - rt)); [|lra]. simpl andb. cbn iota.
  rewrite F4. unfold pymod.
  replace ((t + INR (S n) * (M - rt) - M) / (M - rt)) with (INR n + (t - rt) / (M - rt)) by (rewrite S_INR; field; lra).
  rewrite Int_part_at.
  - rewrite <- INR_IZR_INZ, S_INR. ring.
  - split; [apply Rmult_le_pos; [lra|left; apply Rinv_0_lt_compat; lra]|].
    apply (Rmult_lt_reg_r (M - rt)); [lra|]. unfold Rdiv. rewrite Rmult_assoc, Rinv_l by lra. lra.
Qed.
Print Assumptions C33_repeats.

Example C33_example : exists w, new_pwl [(0, 0); (1, 5); (3, 1)] true 1 2 = Ok w /\
  pwl_call w (2 + 2) = 3 /\ pwl_call w (2 + (2 + INR 3 * (3 - 1))) = 3.
Proof.
  assert (I : increasing [(0, 0); (1, 5); (3, 1)]).
  { intros i j [L1 L2]. simpl in L2. destruct i as [|[|[|i]]]; destruct j as [|[|[|j]]]; simpl; try lia; try lra. }
  assert (E : exists w, new_pwl [(0, 0); (1, 5); (3, 1)] true 1 2 = Ok w).
  { unfold new_pwl, spline. rewrite increasing_b_spec by exact I. eexists. reflexivity. }
  destruct E as [w W]. exists w. split; [exact W|].
  assert (A : pwl_call w (2 + 2) = 3).
  { destruct (C33_interpolates _ _ _ _ _ I W) as [A _]. rewrite (A 1%nat 2) by (simpl; try lia; lra). simpl. field. }
  split; [exact A|]. assert (H := C33_repeats _ _ _ _ I W ltac:(simpl; lra) 3%nat 2 ltac:(simpl; lra) ltac:(lra)).
  destruct H as [H|[H _]]; [|discriminate].
  simpl in H. simpl. rewrite H. exact A.
Qed.

(** * C82: the PWL source holds its end values *)

(** scipy extends the last segment: 0 V at 0 s and 1 V at 1 s gives 10 V at 10 s;
    before the first point, likewise. *)
Theorem C82_extrapolates_refuted : exists w w',
  new_pwl [(0, 0); (1, 1)] false 0 0 = Ok w /\ pwl_call w 10 = 10 /\
  new_pwl [(1, 0); (2, 1)] false 0 0 = Ok w' /\ pwl_call w' 0 = -1.
Proof.
  assert (I : increasing [(0, 0); (1, 1)]).
  { intros i j [L1 L2]. simpl in L2. destruct i as [|[|i]]; destruct j as [|[|j]]; simpl; try lia; try lra. }
  assert (I' : increasing [(1, 0); (2, 1)]).
  { intros i j [L1 L2]. simpl in L2. destruct i as [|[|i]]; destruct j as [|[|j]]; simpl; try lia; try lra. }
  unfold new_pwl, spline. rewrite !increasing_b_spec by assumption. do 2 eexists. split; [reflexivity|]. split.
  { unfold pwl_call, normalize_time. simpl. case_lt 0 10; [|lra]. unfold line. simpl. field. }
  split; [reflexivity|]. unfold pwl_call, normalize_time. simpl. case_lt 0 0; [lra|]. unfold line. simpl. field.
Qed.
Print Assumptions C82_extrapolates_refuted.
