(** Property theorems about the switch (C53, C86, C87). *)
From Coq Require Import Reals List Bool Arith Lia Lra.
From Verif Require Import Base Newton NewtonFacts Diode PropsDiode Switch.
Import ListNotations.
Open Scope R_scope.

(** What is used of [math.tanh]: bounded, non-decreasing, odd.  Rounded tanh has
    these properties too. *)
Definition tanh_like (th : R -> R) : Prop :=
  (forall x, -1 <= th x <= 1) /\ (forall x y, x <= y -> th x <= th y) /\ (forall x, th (- x) = - th x).
(** In floating point tanh is exactly 1 from about 19 on. *)
Definition saturates (th : R -> R) : Prop := forall x, 20 <= x -> th x = 1.

(** * C53 *)

(** The documented thresholds: off to on only above VT+VH, on to off only below
    VT-VH, for a hysteresis that is not negative. *)
Theorem C53_thresholds : forall th m on vin, 0 <= w_VH m ->
  (on = false -> sw_update th m on vin = true -> w_VT m + w_VH m < vin) /\
  (on = true -> sw_update th m on vin = false -> vin < w_VT m - w_VH m).
Proof.
  intros th m on vin H. unfold sw_update, sw_V. split; intros ->; cbn [negb].
  - destruct (Rlt_b (w_VT m + w_VH m * 2 * 1 - w_VH m) vin) eqn:A; cbn [andb].
    + apply Rlt_b_true in A. intros _. lra.
    + rewrite andb_false_r. cbn [andb]. discriminate.
  - rewrite andb_false_r. cbn [andb].
    destruct (Rlt_b vin (w_VT m + w_VH m * 2 * 0 - w_VH m)) eqn:A; cbn [andb]; [|discriminate].
    apply Rlt_b_true in A. intros _. lra.
Qed.
Print Assumptions C53_thresholds.

(** With a saturating tanh it does switch, a fifth of a volt outside the window. *)
Theorem C53_switches : forall th m on vin, tanh_like th -> saturates th -> 0 <= w_VH m ->
  (on = false -> w_VT m + w_VH m + 1/5 <= vin -> sw_update th m on vin = true) /\
  (on = true -> vin <= w_VT m - w_VH m - 1/5 -> sw_update th m on vin = false).
Proof.
  intros th m on vin (_ & _ & OD) SA H.
  assert (LO : forall x, x <= -20 -> th x = -1) by (intros x X; replace x with (- - x) by ring; rewrite OD, SA by lra; reflexivity).
  unfold sw_update, sw_R, sw_V, SLOPE. split; intros -> V; cbn [negb].
  - rewrite !(SA _) by lra. destruct (Req_b_spec (sw_A m * 1 + sw_B m - (sw_A m * 1 + sw_B m)) 0) as [_|N]; [|exfalso; apply N; ring].
    destruct (Rlt_b (w_VT m + w_VH m * 2 * 1 - w_VH m) vin) eqn:A; cbn [andb].
    + destruct (Rlt_b vin (w_VT m + w_VH m * 2 * 0 - w_VH m)) eqn:B; cbn [andb]; [apply Rlt_b_true in B; lra|reflexivity].
    + apply Rlt_b_false in A. lra.
  - rewrite !(LO _) by lra. destruct (Req_b_spec (sw_A m * -1 + sw_B m - (sw_A m * -1 + sw_B m)) 0) as [_|N]; [|exfalso; apply N; ring].
    rewrite andb_false_r. cbn [andb].
    destruct (Rlt_b vin (w_VT m + w_VH m * 2 * 0 - w_VH m)) eqn:A; cbn [andb]; [reflexivity|]. apply Rlt_b_false in A. lra.
Qed.
Print Assumptions C53_switches.

(** Inside the window nothing changes. *)
Theorem C53_hold : forall th m on vin, 0 <= w_VH m -> w_VT m - w_VH m <= vin <= w_VT m + w_VH m -> sw_update th m on vin = on.
Proof.
  intros th m on vin H W. destruct (C53_thresholds th m on vin H) as [A B].
  destruct on; destruct (sw_update th m _ vin) eqn:E; try reflexivity; exfalso.
  - specialize (B eq_refl eq_refl). lra.
  - specialize (A eq_refl eq_refl). lra.
Qed.
Print Assumptions C53_hold.

(** A second evaluation at the same input changes nothing. *)
Theorem C53_idempotent : forall th m on vin, 0 <= w_VH m -> sw_update th m (sw_update th m on vin) vin = sw_update th m on vin.
Proof.
  intros th m on vin H.
  destruct (C53_thresholds th m on vin H) as [A B].
  remember (sw_update th m on vin) as y eqn:Y. symmetry in Y.
  destruct (C53_thresholds th m y vin H) as [A2 B2].
  remember (sw_update th m y vin) as z eqn:Z. symmetry in Z.
  destruct on, y, z; try reflexivity; try congruence; exfalso.
  - specialize (B eq_refl eq_refl). specialize (A2 eq_refl eq_refl). lra.
  - specialize (A eq_refl eq_refl). specialize (B2 eq_refl eq_refl). lra.
Qed.
Print Assumptions C53_idempotent.

(** The resistance seen by the current stays between RON and ROFF. *)
Theorem C53_bounds : forall th m on vout vin, tanh_like th -> 0 < w_RON m -> 0 < w_ROFF m ->
  exists r, Rmin (w_RON m) (w_ROFF m) <= r <= Rmax (w_RON m) (w_ROFF m) /\
    fst (sw_i th m on vout vin) = vout / r /\ fst (sw_go th m on vout vin) = / r.
Proof.
  intros th m on vout vin (BD & _) P Q. exists (sw_R th m (sw_V m (sw_update th m on vin)) vin).
  split; [|split; [reflexivity|unfold sw_go; simpl; unfold Rdiv; ring]].
  unfold sw_R, sw_A, sw_B. set (t := th ((vin - sw_V m (sw_update th m on vin)) * SLOPE)).
  assert (T : -1 <= t <= 1) by apply BD.
  assert (E : (w_RON m - w_ROFF m) / 2 * t + (w_RON m + w_ROFF m) / 2 = w_RON m * ((1 + t) / 2) + w_ROFF m * ((1 - t) / 2)) by field.
  rewrite E. set (a := (1 + t) / 2). assert (a01 : 0 <= a <= 1) by (unfold a; lra). replace ((1 - t) / 2) with (1 - a) by (unfold a; field).
  assert (L1 := Rmin_l (w_RON m) (w_ROFF m)). assert (L2 := Rmin_r (w_RON m) (w_ROFF m)).
  assert (U1 := Rmax_l (w_RON m) (w_ROFF m)). assert (U2 := Rmax_r (w_RON m) (w_ROFF m)).
  split.
  - assert (Rmin (w_RON m) (w_ROFF m) * a <= w_RON m * a) by (apply Rmult_le_compat_r; lra).
    assert (Rmin (w_RON m) (w_ROFF m) * (1 - a) <= w_ROFF m * (1 - a)) by (apply Rmult_le_compat_r; lra). lra.
  - assert (w_RON m * a <= Rmax (w_RON m) (w_ROFF m) * a) by (apply Rmult_le_compat_r; lra).
    assert (w_ROFF m * (1 - a) <= Rmax (w_RON m) (w_ROFF m) * (1 - a)) by (apply Rmult_le_compat_r; lra). lra.
Qed.
Print Assumptions C53_bounds.

(** The conductance is the derivative of the current with respect to the output
    voltage: the current is linear in it. *)
Theorem C53_go : forall th m on vout vin, fst (sw_i th m on vout vin) = fst (sw_go th m on vout vin) * vout.
Proof. intros. unfold sw_i, sw_go; simpl. unfold Rdiv. ring. Qed.
Print Assumptions C53_go.

(** Devices that share the model do not disturb each other: the state of a device
    after any history is the one after its own part of the history. *)
Definition own (d : nat) (evs : list (nat * R)) : list (nat * R) := filter (fun ev => Nat.eqb d (fst ev)) evs.
Theorem C53_shared : forall th m evs st d, sw_run th m st evs d = sw_run th m st (own d evs) d.
Proof.
  assert (EXT : forall th m evs st st' d, st d = st' d -> Forall (fun ev => fst ev = d) evs -> sw_run th m st evs d = sw_run th m st' evs d).
  { intros th m evs. induction evs as [|ev evs IH]; intros st st' d E F; [exact E|]. inversion F as [|? ? Fe Fr]; subst. simpl.
    apply IH; [|exact Fr]. unfold sw_step. rewrite Nat.eqb_refl, E. reflexivity. }
  intros th m evs. induction evs as [|ev evs IH]; intros st d; [reflexivity|].
  simpl. rewrite (IH (sw_step th m st ev) d). destruct (Nat.eqb d (fst ev)) eqn:E; [reflexivity|].
  apply EXT; [unfold sw_step; rewrite E; reflexivity|]. apply Forall_forall. intros x X. unfold own in X. apply filter_In in X.
  destruct X as [_ X]. apply Nat.eqb_eq in X. symmetry. exact X.
Qed.
Print Assumptions C53_shared.

(** With the exact hyperbolic tangent and a positive hysteresis the switch would
    never move: the test for equal resistances cannot succeed. *)
Definition strict (th : R -> R) : Prop := forall x y, x < y -> th x < th y.
Theorem C53_needs_rounding : forall th m on vin, strict th -> 0 < w_VH m -> w_RON m <> w_ROFF m -> sw_update th m on vin = on.
Proof.
  intros th m on vin ST H NE. unfold sw_update.
  assert (K : Req_b (sw_R th m (sw_V m on) vin - sw_R th m (sw_V m (negb on)) vin) 0 = false).
  { destruct (Req_b_spec (sw_R th m (sw_V m on) vin - sw_R th m (sw_V m (negb on)) vin) 0) as [E|]; [exfalso|reflexivity].
    unfold sw_R in E. assert (D : sw_A m * (th ((vin - sw_V m on) * SLOPE) - th ((vin - sw_V m (negb on)) * SLOPE)) = 0) by lra.
    apply Rmult_integral in D. destruct D as [D|D].
    - apply NE. unfold sw_A in D. lra.
    - unfold sw_V, SLOPE in D. destruct on; cbn [negb] in D.
      + assert (L := ST ((vin - (w_VT m + w_VH m * 2 * 1 - w_VH m)) * 100) ((vin - (w_VT m + w_VH m * 2 * 0 - w_VH m)) * 100)).
        assert (L' := L ltac:(lra)). lra.
      + assert (L := ST ((vin - (w_VT m + w_VH m * 2 * 1 - w_VH m)) * 100) ((vin - (w_VT m + w_VH m * 2 * 0 - w_VH m)) * 100)).
        assert (L' := L ltac:(lra)). lra. }
  rewrite K, !andb_false_r. reflexivity.
Qed.
Print Assumptions C53_needs_rounding.

(** A tanh-like function to run the examples with. *)
Definition ramp (x : R) : R := if Rlt_b x (-20) then -1 else if Rlt_b x 20 then x / 20 else 1.
Lemma ramp_ok : tanh_like ramp /\ saturates ramp.
Proof.
  assert (C : forall x, (x < -20 /\ ramp x = -1) \/ (-20 <= x < 20 /\ ramp x = x / 20) \/ (20 <= x /\ ramp x = 1)).
  { intros x. unfold ramp. destruct (Rlt_b x (-20)) eqn:A; [apply Rlt_b_true in A; left; lra|apply Rlt_b_false in A].
    destruct (Rlt_b x 20) eqn:B; [apply Rlt_b_true in B|apply Rlt_b_false in B]; right; [left|right]; lra. }
  repeat split.
  - destruct (C x) as [[? ->]|[[? ->]|[? ->]]]; lra.
  - destruct (C x) as [[? ->]|[[? ->]|[? ->]]]; lra.
  - intros x y L. destruct (C x) as [[? ->]|[[? ->]|[? ->]]]; destruct (C y) as [[? ->]|[[? ->]|[? ->]]]; lra.
  - intros x. destruct (C x) as [[? ->]|[[? ->]|[? ->]]]; destruct (C (- x)) as [[? ->]|[[? ->]|[? ->]]]; lra.
  - intros x L. destruct (C x) as [[? ->]|[[? ->]|[? ->]]]; lra.
Qed.
Example C53_example : let m := mkSw 1 (1/2) 1 1000 in
  sw_update ramp m false 2 = true /\ sw_update ramp m true 1 = true /\ sw_update ramp m true 0 = false.
Proof.
  intros m. destruct ramp_ok as [TL SA]. assert (H : 0 <= w_VH m) by (simpl; lra). repeat split.
  - apply (proj1 (C53_switches ramp m false 2 TL SA H)); [reflexivity|simpl; lra].
  - apply C53_hold; simpl; lra.
  - apply (proj2 (C53_switches ramp m true 0 TL SA H)); [reflexivity|simpl; lra].
Qed.

(** * C86 *)

(** VON and VOFF give the mean as threshold; the width of the window has nothing to
    do with their difference. *)
Theorem C86_actual : forall gmin von voff ron roff, exists m,
  make_switch gmin None None (Some von) (Some voff) ron roff = Ok m /\
  w_VT m = (von + voff) / 2 /\ w_VH m = (von + voff) / 2000.
Proof. intros. eexists. split; [reflexivity|]. simpl. split; field. Qed.
Print Assumptions C86_actual.

(** A switch with VON = 2 V and VOFF = 1 V is closed below VON and opens above VOFF;
    with VON = 1 V and VOFF = -1 V there is no hysteresis at all. *)
Theorem C86_von_refuted : forall gmin, exists m,
  make_switch gmin None None (Some 2) (Some 1) (Some 1) (Some 1000) = Ok m /\
  (forall th, tanh_like th -> saturates th -> sw_update th m false (9/5) = true /\ sw_update th m true (6/5) = false).
Proof.
  intros gmin. eexists. split; [reflexivity|]. intros th TL SA. split.
  - apply (C53_switches th _ false (9/5) TL SA); simpl; try reflexivity; lra.
  - apply (C53_switches th _ true (6/5) TL SA); simpl; try reflexivity; lra.
Qed.
Print Assumptions C86_von_refuted.

Theorem C86_negative_window_refuted : forall gmin von voff m ron roff, von + voff < 0 ->
  make_switch gmin None None (Some von) (Some voff) ron roff = Ok m -> w_VH m < 0.
Proof.
  intros gmin von voff m ron roff H E. destruct (C86_actual gmin von voff ron roff) as (m' & E' & _ & VH). rewrite E in E'.
  injection E' as <-. rewrite VH. lra.
Qed.
Print Assumptions C86_negative_window_refuted.

(** One of the two alone is an error; VT and VH are used as given. *)
Theorem C86_one_refuted : forall gmin vt vh von ron roff,
  make_switch gmin vt vh (Some von) None ron roff = Err TypeError /\ make_switch gmin vt vh None (Some von) ron roff = Err TypeError.
Proof. intros. split; reflexivity. Qed.
Print Assumptions C86_one_refuted.
Theorem C86_vt_vh : forall gmin vt vh ron roff, exists m,
  make_switch gmin (Some vt) (Some vh) None None ron roff = Ok m /\ w_VT m = vt /\ w_VH m = vh.
Proof. intros. eexists. split; [reflexivity|]. split; reflexivity. Qed.
Print Assumptions C86_vt_vh.

(** * C87 *)

(** The derivative of the current with respect to the input, for a switch that does
    not move: -vout R'/R^2, R' = A SLOPE (1 - tanh^2). *)
Definition di_dvin (th : R -> R) (m : swmodel) (V vout vin : R) : R :=
  - vout * (sw_A m * SLOPE * (1 - th ((vin - V) * SLOPE) ^ 2)) / sw_R th m V vin ^ 2.
Lemma di_dvin_is_derivative : forall m V vout vin, sw_R tanh m V vin <> 0 ->
  derivable_pt_lim (fun x => vout / sw_R tanh m V x) vin (di_dvin tanh m V vout vin).
Proof.
  intros m V vout vin NZ.
  assert (DT : forall x, derivable_pt_lim tanh x (1 - tanh x ^ 2)).
  { intros x. assert (C0 : cosh x <> 0) by (assert (K := cosh_0); unfold cosh; assert (E1 := exp_pos x); assert (E2 := exp_pos (- x)); intros Z; lra).
    assert (D := derivable_pt_lim_div sinh cosh x (cosh x) (sinh x) (derivable_pt_lim_sinh x) (derivable_pt_lim_cosh x) C0).
    unfold tanh. replace (1 - (sinh x / cosh x) ^ 2) with ((cosh x * cosh x - sinh x * sinh x) / Rsqr (cosh x)) by (unfold Rsqr; field; exact C0).
    exact D. }
  assert (DL : derivable_pt_lim (fun x => (x - V) * SLOPE) vin SLOPE).
  { assert (D := derivable_pt_lim_scal _ SLOPE _ _ (derivable_pt_lim_minus _ _ _ _ _ (derivable_pt_lim_id vin) (derivable_pt_lim_const V vin))).
    unfold mult_real_fct, minus_fct, id, fct_cte in D. intros eps E. destruct (D eps E) as [d Hd]. exists d. intros h H0 H1. specialize (Hd h H0 H1).
    replace (((vin + h - V) * SLOPE - (vin - V) * SLOPE) / h - SLOPE) with ((SLOPE * (vin + h - V) - SLOPE * (vin - V)) / h - SLOPE * (1 - 0)) by (field; exact H0).
    exact Hd. }
  assert (DC := derivable_pt_lim_comp _ _ _ _ _ DL (DT ((vin - V) * SLOPE))). unfold comp in DC.
  assert (DR : derivable_pt_lim (sw_R tanh m V) vin (sw_A m * ((1 - tanh ((vin - V) * SLOPE) ^ 2) * SLOPE) + 0)).
  { assert (D := derivable_pt_lim_plus _ _ _ _ _ (derivable_pt_lim_scal _ (sw_A m) _ _ DC) (derivable_pt_lim_const (sw_B m) vin)).
    exact D. }
  assert (DI := derivable_pt_lim_div (fct_cte vout) (sw_R tanh m V) vin 0 _ (derivable_pt_lim_const vout vin) DR NZ).
  unfold div_fct, fct_cte in DI. unfold di_dvin.
  match type of DI with derivable_pt_lim _ _ ?l => match goal with |- derivable_pt_lim _ _ ?r => replace r with l; [exact DI|] end end.
  unfold Rsqr. field. exact NZ.
Qed.

(** The reported transconductance is that derivative for vout = 1 V plus gmin,
    whatever vout is. *)
Theorem C87_actual : forall th gmin m on vout vin, tanh_like th -> 0 < w_RON m -> 0 < w_ROFF m ->
  fst (sw_gm th gmin m on vout vin) = di_dvin th m (sw_V m (sw_update th m on vin)) 1 vin + gmin.
Proof.
  intros th gmin m on vout vin TL P Q. destruct (C53_bounds th m on 1 vin TL P Q) as (r & B & _ & G).
  destruct TL as (_ & _ & OD). unfold sw_gm, di_dvin. cbn [fst]. unfold sw_R.
  set (V := sw_V m (sw_update th m on vin)) in *.
  assert (RP : 0 < sw_R th m V vin).
  { unfold sw_go in G. cbn [fst] in G. fold V in G. assert (RL : 0 < r) by (destruct B as [B _]; eapply Rlt_le_trans; [|exact B]; apply Rmin_glb_lt; assumption).
    assert (X : 0 < / r) by (apply Rinv_0_lt_compat; exact RL). rewrite <- G in X. unfold Rdiv in X. rewrite Rmult_1_l in X.
    destruct (Rlt_le_dec 0 (sw_R th m V vin)) as [K|K]; [exact K|exfalso]. destruct K as [K|K]; [apply Rinv_lt_0_compat in K; lra|].
    rewrite K in X. rewrite Rinv_0 in X. lra. }
  replace (SLOPE * (V - vin)) with (- ((vin - V) * SLOPE)) by ring. rewrite OD.
  unfold sw_R in RP. set (t := th ((vin - V) * SLOPE)) in *.
  f_equal. field. split; intros K; nra || lra.
Qed.
Print Assumptions C87_actual.

(** So it is wrong for every other output voltage while the switch is between its
    two states; without an output voltage the current does not depend on the input
    at all, but a transconductance is reported. *)
Theorem C87_vout_refuted : forall th gmin m on vin, tanh_like th -> 0 < w_RON m -> 0 < w_ROFF m ->
  (di_dvin th m (sw_V m (sw_update th m on vin)) 0 vin = 0) /\
  (forall vout, vout <> 1 -> di_dvin th m (sw_V m (sw_update th m on vin)) 1 vin <> 0 ->
   fst (sw_gm th gmin m on vout vin) - gmin <> di_dvin th m (sw_V m (sw_update th m on vin)) vout vin).
Proof.
  intros th gmin m on vin TL P Q. split.
  - unfold di_dvin, Rdiv. ring.
  - intros vout V D. rewrite (C87_actual th gmin m on vout vin TL P Q). set (d := di_dvin th m _ 1 vin) in *.
    replace (di_dvin th m (sw_V m (sw_update th m on vin)) vout vin) with (vout * d) by (unfold d, di_dvin, Rdiv; ring).
    intros K. apply V. apply Rmult_eq_reg_r with d; [lra|exact D].
Qed.
Print Assumptions C87_vout_refuted.
Example C87_example : let m := mkSw 0 0 1 3 in
  di_dvin tanh m (sw_V m (sw_update tanh m true 0)) 1 0 = 25 /\ tanh 0 = 0.
Proof.
  intros m. assert (T0 : tanh 0 = 0) by (unfold tanh; rewrite sinh_0; unfold Rdiv; ring). split; [|exact T0].
  unfold di_dvin, sw_R, sw_V, sw_A, sw_B, SLOPE; simpl. match goal with |- context [tanh ?a] => replace a with 0 by (destruct (sw_update _ _ _ _); field) end.
  rewrite T0. field.
Qed.
