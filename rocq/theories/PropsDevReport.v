(** Property theorems about the reports of the devices (C150-C155). *)
From Coq Require Import Reals List Bool Arith Lia Lra.
From Verif Require Import Base Newton NewtonFacts Diode PropsDiode Switch PropsSwitch Mosq PropsMosq Ekv PropsEkv DevReport.
Import ListNotations.
Open Scope R_scope.

(** * C150 *)

(** The Newton iteration finds the positive solution of its equation. *)
Definition solver (newton : R -> R -> R) : Prop := forall v g, 0 < g -> 0 < newton v g /\ v_obj (newton v g) v = 0.

Lemma solver_unique : forall newton v g g', solver newton -> 0 < g -> 0 < g' -> newton v g = newton v g'.
Proof.
  intros newton v g g' S G G'. destruct (C55_unique_current v) as (i & _ & _ & U).
  destruct (S v g G) as [A B]. destruct (S v g' G') as [A' B']. rewrite (U _ A B), (U _ A' B'). reflexivity.
Qed.

Section Ekv.
  Variables (eps ut esi gmin : R) (newton : R -> R -> R).
  Hypothesis S : solver newton.

  Lemma currents_same : forall m d g1 g2 g1' g2' b, 0 < g1 -> 0 < g2 -> 0 < g1' -> 0 < g2' ->
    e_currents eps ut esi newton m d g1 g2 b = e_currents eps ut esi newton m d g1' g2' b.
  Proof.
    intros m d g1 g2 g1' g2' b H1 H2 H3 H4. unfold e_currents. destruct (e_voltages m b) as [[[VD VG] VS] cs].
    unfold get_ismall. rewrite (solver_unique newton _ g1 g1') by auto.
    destruct (leq_virp ut esi m d (VD / ut) (VS / ut) (get_VP m VG) _) as [L v].
    rewrite (solver_unique newton _ g2 g2') by auto. reflexivity.
  Qed.
  Lemma guess_pos : forall s, 0 < fst (e_guess s) /\ 0 < snd (e_guess s).
  Proof.
    intros s. assert (P : 0 < / 10 ^ 10) by (apply Rinv_0_lt_compat, pow_lt; lra). unfold e_guess. cbn [fst snd].
    split; (eapply Rlt_le_trans; [exact P|apply Rmax_r]).
  Qed.
  Lemma currents_any : forall m d s s' b,
    e_currents eps ut esi newton m d (fst (e_guess s)) (snd (e_guess s)) b = e_currents eps ut esi newton m d (fst (e_guess s')) (snd (e_guess s')) b.
  Proof. intros. destruct (guess_pos s), (guess_pos s'). apply currents_same; auto. Qed.
  Lemma after_any : forall m d s s' b, e_after eps ut esi newton m d s b = e_after eps ut esi newton m d s' b.
  Proof. intros m d s s' b. unfold e_after. rewrite (currents_any m d s s'). reflexivity. Qed.
  Lemma i_any : forall m d s s' b, e_i eps ut esi newton m d s b = e_i eps ut esi newton m d s' b.
  Proof.
    intros m d s s' b. unfold e_i. rewrite (after_any m d s s'). f_equal.
    unfold e_ids. destruct (e_voltages m b) as [[[VD VG] VS] cs]. rewrite (currents_any m d s s'). reflexivity.
  Qed.
  Lemma g_any : forall m d s s' b p, e_g eps ut esi gmin newton m d s b p = e_g eps ut esi gmin newton m d s' b p.
  Proof.
    intros m d s s' b p. unfold e_g. rewrite (after_any m d s s'). f_equal.
    destruct p as [|[|p]]; unfold e_gmd, e_gmg, e_gms; destruct (e_voltages m b) as [[[VD VG] VS] cs]; rewrite (currents_any m d s s'); reflexivity.
  Qed.
End Ekv.

(** The report shows what the methods return for the bias asked for, whatever
    was evaluated before. *)
Theorem C150_fresh : forall eps ut esi gmin newton m d evs b, solver newton ->
  let s := e_history eps ut esi gmin newton m d evs in
  let r := fst (e_report eps ut esi gmin newton m d s b) in
  (forall evs', r = fst (e_report eps ut esi gmin newton m d (e_history eps ut esi gmin newton m d evs') b)) /\
  er_Ids r = fst (e_i eps ut esi newton m d s b) /\
  er_gmd r = fst (e_g eps ut esi gmin newton m d s b 0) /\
  er_gmg r = fst (e_g eps ut esi gmin newton m d s b 1) /\
  er_gms r = fst (e_g eps ut esi gmin newton m d s b 2).
Proof.
  intros eps ut esi gmin newton m d evs b S s r.
  assert (V : forall s', fst (e_report eps ut esi gmin newton m d s' b) =
              fst (e_report eps ut esi gmin newton m d e_new b)).
  { intros s'. unfold e_report. rewrite (g_any eps ut esi gmin newton S m d s' e_new b 0).
    reflexivity. }
  split; [intros evs'; unfold r; rewrite V, (V (e_history eps ut esi gmin newton m d evs')); reflexivity|].
  unfold r, e_report.
  rewrite (surjective_pairing (e_g eps ut esi gmin newton m d s b 0)).
  set (s1 := snd (e_g eps ut esi gmin newton m d s b 0)).
  rewrite (g_any eps ut esi gmin newton S m d s1 s b 1).
  rewrite (surjective_pairing (e_g eps ut esi gmin newton m d s b 1)).
  set (s2 := snd (e_g eps ut esi gmin newton m d s b 1)).
  rewrite (g_any eps ut esi gmin newton S m d s2 s b 2).
  rewrite (surjective_pairing (e_g eps ut esi gmin newton m d s b 2)).
  set (s3 := snd (e_g eps ut esi gmin newton m d s b 2)).
  rewrite (i_any eps ut esi newton S m d s3 s b).
  destruct (e_currents eps ut esi newton m d (fst (e_guess s3)) (snd (e_guess s3)) b) as [[f rr] leff].
  rewrite (surjective_pairing (e_i eps ut esi newton m d s b)).
  destruct (e_voltages m b) as [[[VD VG] VS] cs]. cbn [fst snd er_Ids er_gmd er_gmg er_gms]. repeat split.
Qed.
Print Assumptions C150_fresh.

(** The entries of the report: a conductance that is zero is replaced, the charges are
    those that make the normalised currents, the overdrive counts from the source of a
    device that conducts forward. *)
Theorem C150_values : forall eps ut esi gmin newton m d s b g1 g2, solver newton -> 0 < g1 -> 0 < g2 -> e_NP m * e_NP m = 1 ->
  let r := fst (e_report eps ut esi gmin newton m d s b) in
  let shown shown_g g zero := (g <> 0 -> shown_g = g) /\ (g = 0 -> shown_g = zero) in
  let '(vd, vg, vs) := b in
  (er_if r, er_ir r, er_Leff r) = e_currents eps ut esi newton m d g1 g2 b /\
  shown (er_gmd r) (e_gmd eps ut esi newton m d g1 g2 b) (2 * gmin) /\
  shown (er_gmg r) (e_gmg eps ut esi newton m d g1 g2 b) (2 * gmin) /\
  shown (er_gms r) (e_gms eps ut esi newton m d g1 g2 b) (- 2 * gmin) /\
  (0 <= er_if r -> er_nq r * ut * e_COX m <> 0 -> q2i (er_qf r / (2 * er_nq r * ut * e_COX m)) = er_if r) /\
  (0 <= er_ir r -> er_nq r * ut * e_COX m <> 0 -> q2i (er_qr r / (2 * er_nq r * ut * e_COX m)) = er_ir r) /\
  er_VOD r * e_NP m = er_nv r * (er_VP r - Rmin (vd * e_NP m) (vs * e_NP m)) /\
  (forall tef, er_TEF r = Some tef -> tef * Rabs (er_Ids r) = Rabs (er_gms r * ut)).
Proof.
  intros eps ut esi gmin newton m d s [[vd vg] vs] g1 g2 S G1 G2 NP r shown. unfold r, e_report.
  assert (CU : forall s', e_currents eps ut esi newton m d (fst (e_guess s')) (snd (e_guess s')) (vd, vg, vs) = e_currents eps ut esi newton m d g1 g2 (vd, vg, vs)).
  { intros s'. destruct (guess_pos s'). apply (currents_same eps ut esi newton S); auto. }
  assert (SH : forall p, fst (e_g eps ut esi gmin newton m d p (vd, vg, vs) 0) = nz (e_gmd eps ut esi newton m d g1 g2 (vd, vg, vs)) (gmin * 2) /\
    fst (e_g eps ut esi gmin newton m d p (vd, vg, vs) 1) = nz (e_gmg eps ut esi newton m d g1 g2 (vd, vg, vs)) (gmin * 2) /\
    fst (e_g eps ut esi gmin newton m d p (vd, vg, vs) 2) = nz (e_gms eps ut esi newton m d g1 g2 (vd, vg, vs)) (- (1) * gmin * 2)).
  { intros p. unfold e_g. cbn [fst]. unfold e_gmd, e_gmg, e_gms. rewrite CU. repeat split. }
  destruct (e_g eps ut esi gmin newton m d s (vd, vg, vs) 0) as [gmd s1] eqn:E0. destruct (SH s) as (H0 & _). rewrite E0 in H0. cbn [fst] in H0.
  destruct (e_g eps ut esi gmin newton m d s1 (vd, vg, vs) 1) as [gmg s2] eqn:E1. destruct (SH s1) as (_ & H1 & _). rewrite E1 in H1. cbn [fst] in H1.
  destruct (e_g eps ut esi gmin newton m d s2 (vd, vg, vs) 2) as [gms s3] eqn:E2. destruct (SH s2) as (_ & _ & H2). rewrite E2 in H2. cbn [fst] in H2.
  rewrite CU. destruct (e_currents eps ut esi newton m d g1 g2 (vd, vg, vs)) as [[f rr] leff] eqn:EC. clear CU SH EC.
  destruct (e_i eps ut esi newton m d s3 (vd, vg, vs)) as [ids s4].
  assert (NZ : forall g z, shown (nz g z) g z) by (intros g z; unfold shown, nz; destruct (Req_b_spec g 0); split; intros; [contradiction|reflexivity|reflexivity|contradiction]).
  destruct (e_voltages m (vd, vg, vs)) as [[[VD VG] VS] cs] eqn:EV.
  cbn [fst er_if er_ir er_Leff er_gmd er_gmg er_gms er_nq er_qf er_qr er_VOD er_nv er_VP er_TEF er_Ids].
  split; [reflexivity|]. split; [rewrite H0; replace (2 * gmin) with (gmin * 2) by ring; apply NZ|].
  split; [rewrite H1; replace (2 * gmin) with (gmin * 2) by ring; apply NZ|].
  split; [rewrite H2; replace (- 2 * gmin) with (- (1) * gmin * 2) by ring; apply NZ|].
  assert (QQ : forall i, 0 <= i -> get_nq m VG * ut * e_COX m <> 0 -> q2i (i2q i * (2 * get_nq m VG * ut * e_COX m) / (2 * get_nq m VG * ut * e_COX m)) = i).
  { intros i I0 N. replace (i2q i * (2 * get_nq m VG * ut * e_COX m) / (2 * get_nq m VG * ut * e_COX m)) with (i2q i).
    - apply (proj1 C55_inverse i I0).
    - field. repeat split; intros Z; apply N; rewrite Z; ring. }
  split; [intros I0; apply QQ; exact I0|]. split; [intros I0; apply QQ; exact I0|]. split.
  - assert (VSM : VS = Rmin (vd * e_NP m) (vs * e_NP m)).
    { unfold e_voltages in EV. destruct (Rlt_b (vd * e_NP m) (vs * e_NP m)) eqn:L; injection EV as _ _ <- _.
      - apply Rlt_b_true in L. rewrite Rmin_left; [reflexivity|lra].
      - apply Rlt_b_false in L. rewrite Rmin_right; [reflexivity|lra]. }
    rewrite <- VSM. replace (e_NP m * get_nv m VG * (get_VP m VG - VS) * e_NP m) with (e_NP m * e_NP m * (get_nv m VG * (get_VP m VG - VS))) by ring. rewrite NP. ring.
  - intros tef T. destruct (Req_b_spec ids 0) as [Z|Z]; [discriminate T|]. injection T as <-. rewrite <- Rabs_mult. f_equal. field. exact Z.
Qed.
Print Assumptions C150_values.

Lemma nz_nonzero : forall g x, x <> 0 -> nz g x <> 0.
Proof. intros g x X. unfold nz. destruct (Req_b_spec g 0); assumption. Qed.

(** What follows from those values: no division by zero, the output resistance and
    the Early voltage, the current from the normalised ones, the regions. *)
Theorem C150_derived : forall eps ut esi gmin newton m d s b, 0 < gmin ->
  let r := fst (e_report eps ut esi gmin newton m d s b) in
  er_gmd r <> 0 /\ er_rob r * er_gmd r = 1 /\ er_VA r * er_gmd r = er_Ids r /\
  Rabs (er_Ids r) = Rabs (e_NP m * x_L d / er_Leff r * x_M d * er_Is r * (er_if r - er_ir r)) /\
  (er_SAT r = true <-> er_if r > exp 4 * er_ir r) /\
  (er_WMSI r = 2%nat <-> 10 < Rmax (er_if r) (er_ir r)) /\
  (er_WMSI r = 1%nat <-> 1/10 <= Rmax (er_if r) (er_ir r) <= 10) /\
  (er_WMSI r = 0%nat <-> Rmax (er_if r) (er_ir r) < 1/10).
Proof.
  intros eps ut esi gmin newton m d s b G. unfold e_report.
  destruct (e_g eps ut esi gmin newton m d s b 0) as [gmd s1] eqn:G0.
  assert (N : gmd <> 0) by (injection G0 as <- _; apply nz_nonzero; lra).
  destruct (e_g eps ut esi gmin newton m d s1 b 1) as [gmg s2].
  destruct (e_g eps ut esi gmin newton m d s2 b 2) as [gms s3].
  destruct (e_currents eps ut esi newton m d (fst (e_guess s3)) (snd (e_guess s3)) b) as [[f r] leff] eqn:EC.
  unfold e_i, e_ids. rewrite EC. destruct (e_voltages m b) as [[[VD VG] VS] cs].
  cbv zeta. cbn [fst snd er_Ids er_gmd er_rob er_VA er_Leff er_Is er_if er_ir er_SAT er_WMSI].
  split; [exact N|]. split; [field; exact N|]. split; [unfold Rdiv at 1; rewrite Rmult_assoc, Rinv_l, Rmult_1_r by exact N; reflexivity|]. split.
  { destruct cs; [|f_equal; unfold Rdiv; ring].
    rewrite <- Rabs_Ropp. f_equal. unfold Rdiv. ring. }
  split. { unfold e_sat. rewrite Rlt_b_true. rewrite Rmult_comm. split; intros; lra. }
  unfold e_wmsi. destruct (Rlt_b 10 (Rmax f r)) eqn:A; [apply Rlt_b_true in A|apply Rlt_b_false in A; destruct (Rlt_b (Rmax f r) (1/10)) eqn:B; [apply Rlt_b_true in B|apply Rlt_b_false in B]];
    repeat split; intros; try discriminate; try reflexivity; try lra.
Qed.
Print Assumptions C150_derived.

Lemma exp_4_large : 35 < exp 4.
Proof.
  assert (Q : 1 + 1/4 < exp (1/4)) by (apply exp_ineq1; lra).
  assert (E : exp 4 = exp (1/4) ^ 16).
  { rewrite <- (Rpower_pow 16 (exp (1/4))) by apply exp_pos. unfold Rpower. rewrite ln_exp. f_equal. simpl. lra. }
  rewrite E. eapply Rlt_le_trans; [|apply (pow_incr (1 + 1/4)); lra]. lra.
Qed.
(** In saturation the current is that of the source end, up to 3 percent. *)
Theorem C150_saturation : forall eps ut esi gmin newton m d s b, 0 < eps ->
  let r := fst (e_report eps ut esi gmin newton m d s b) in
  er_SAT r = true -> 0 < er_if r /\ 97/100 * er_if r < er_if r - er_ir r < er_if r.
Proof.
  intros eps ut esi gmin newton m d s b EP. unfold e_report.
  destruct (e_g eps ut esi gmin newton m d s b 0) as [gmd s1].
  destruct (e_g eps ut esi gmin newton m d s1 b 1) as [gmg s2].
  destruct (e_g eps ut esi gmin newton m d s2 b 2) as [gms s3].
  destruct (e_currents eps ut esi newton m d (fst (e_guess s3)) (snd (e_guess s3)) b) as [[f r] leff] eqn:EC.
  destruct (e_i eps ut esi newton m d s3 b) as [ids s4].
  assert (P : 0 < r).
  { unfold e_currents in EC. destruct (e_voltages m b) as [[[VD VG] VS] cs].
    destruct (leq_virp ut esi m d (VD / ut) (VS / ut) (get_VP m VG) _) as [L v]. injection EC as _ <- _.
    unfold get_ismall. eapply Rlt_le_trans; [|apply Rmax_r]. lra. }
  destruct (e_voltages m b) as [[[VD VG] VS] cs].
  cbv zeta. cbn [fst er_if er_ir er_SAT]. unfold e_sat. rewrite Rlt_b_true. intros H.
  assert (35 * r < f) by (assert (E := exp_4_large); nra). split; lra.
Qed.
Print Assumptions C150_saturation.

(** A Newton iteration that finds the solution exists, so the premise is not void. *)
Example C150_solver_example : forall v0, exists i, 0 < i /\ v_obj i v0 = 0.
Proof. intros v0. destruct (C55_unique_current v0) as (i & A & B & _). exists i. auto. Qed.
Example C150_regions_example : e_sat 100 1 = true /\ e_sat 20 1 = false /\ e_wmsi 100 1 = 2%nat /\ e_wmsi 1 1 = 1%nat /\ e_wmsi (1/20) (1/30) = 0%nat.
Proof.
  assert (U : exp 4 < 100).
  { assert (E : exp 4 = exp 1 ^ 4) by (rewrite <- (Rpower_pow 4 (exp 1)) by apply exp_pos; unfold Rpower; rewrite ln_exp; f_equal; simpl; lra).
    rewrite E. eapply Rle_lt_trans; [apply (pow_incr (exp 1) 3); split; [left; apply exp_pos|apply exp_le_3]|]. lra. }
  assert (L := exp_4_large). unfold e_sat, e_wmsi.
  repeat split.
  - apply Rlt_b_true. lra.
  - apply Rlt_b_false. lra.
  - rewrite (proj2 (Rlt_b_true _ _)); [reflexivity|]. rewrite Rmax_left; lra.
  - rewrite (proj2 (Rlt_b_false _ _)); [|rewrite Rmax_left; lra]. rewrite (proj2 (Rlt_b_false _ _)); [reflexivity|]. rewrite Rmax_left; lra.
  - rewrite (proj2 (Rlt_b_false _ _)); [|rewrite Rmax_left; lra]. rewrite (proj2 (Rlt_b_true _ _)); [reflexivity|]. rewrite Rmax_left; lra.
Qed.

(** * C151 *)

(** The threshold: the gate voltage, as applied to the device, at which the channel
    is pinched off at the bulk potential.  The report shows it for n devices. *)
Definition pinched_at (m : emodel) (vg : R) : Prop := get_VP m (vg * e_NP m) = 0.

Lemma root_of_a : forall m, physical m -> 0 < sqrt (e_PHI m) + e_GAMMA m / 2.
Proof. intros m (P & G). assert (0 < sqrt (e_PHI m)) by (apply sqrt_lt_R0; exact P). lra. Qed.

Lemma VP_at_VTO : forall m, physical m -> get_VP m (e_VTO m) = 0.
Proof.
  intros m PH. assert (A := root_of_a m PH). destruct PH as (P & G). assert (0 < sqrt (e_PHI m)) by (apply sqrt_lt_R0; exact P).
  unfold get_VP. set (a := sqrt (e_PHI m) + e_GAMMA m / 2) in *.
  rewrite (proj2 (Rlt_b_true 0 (e_VTO m - e_VTO m + e_PHI m + e_GAMMA m * sqrt (e_PHI m)))) by nra.
  rewrite (proj2 (Rlt_b_true 0 (e_VTO m - e_VTO m + a ^ 2))) by nra. cbn [andb].
  replace (e_VTO m - e_VTO m + a ^ 2) with (a * a) by ring. rewrite sqrt_square by lra. ring.
Qed.
Lemma VP_below : forall m VG, physical m -> VG < e_VTO m -> get_VP m VG < 0.
Proof.
  intros m VG PH L. assert (A := root_of_a m PH). destruct PH as (P & G).
  assert (SP : 0 < sqrt (e_PHI m)) by (apply sqrt_lt_R0; exact P). assert (SS := sqrt_sqrt (e_PHI m) (Rlt_le _ _ P)).
  unfold get_VP. destruct (Rlt_b 0 (VG - e_VTO m + e_PHI m + e_GAMMA m * sqrt (e_PHI m))) eqn:B1; cbn [andb]; [|lra].
  destruct (Rlt_b 0 (VG - e_VTO m + (sqrt (e_PHI m) + e_GAMMA m / 2) ^ 2)) eqn:B2; [|lra].
  apply Rlt_b_true in B1, B2. set (a := sqrt (e_PHI m) + e_GAMMA m / 2) in *.
  assert (W := sqrt_sqrt _ (Rlt_le _ _ B2)). assert (W0 : 0 < sqrt (VG - e_VTO m + a ^ 2)) by (apply sqrt_lt_R0; exact B2).
  set (w := sqrt (VG - e_VTO m + a ^ 2)) in *.
  assert (E : VG - e_VTO m = w * w - a * a) by (rewrite W; ring).
  assert (H1 : w < a) by nra.
  assert (H2 : e_GAMMA m / 2 < w).
  { assert ((e_GAMMA m / 2) * (e_GAMMA m / 2) < w * w); [|nra].
    rewrite W. unfold a. nra. }
  rewrite E. replace (w * w - a * a - e_GAMMA m * (w - a)) with ((w - a) * (w + a - e_GAMMA m)) by ring.
  assert (0 < w + a - e_GAMMA m) by (unfold a in *; lra). nra.
Qed.

Theorem C151_n : forall eps ut esi gmin newton m d s b, physical m -> e_NP m = 1 ->
  pinched_at m (er_VTH (fst (e_report eps ut esi gmin newton m d s b))).
Proof.
  intros eps ut esi gmin newton m d s b PH N.
  assert (V : er_VTH (fst (e_report eps ut esi gmin newton m d s b)) = e_VTO m).
  { unfold e_report. destruct (e_g eps ut esi gmin newton m d s b 0) as [gmd s1].
    destruct (e_g eps ut esi gmin newton m d s1 b 1) as [gmg s2]. destruct (e_g eps ut esi gmin newton m d s2 b 2) as [gms s3].
    destruct (e_currents eps ut esi newton m d (fst (e_guess s3)) (snd (e_guess s3)) b) as [[f r] leff].
    destruct (e_i eps ut esi newton m d s3 b) as [ids s4]. destruct (e_voltages m b) as [[[VD VG] VS] cs]. reflexivity. }
  rewrite V. unfold pinched_at. rewrite N, Rmult_1_r. apply VP_at_VTO. exact PH.
Qed.
Print Assumptions C151_n.
(** For p devices it has the wrong sign. *)
Theorem C151_p_refuted : forall eps ut esi gmin newton m d s b, physical m -> e_NP m = -1 -> 0 < e_VTO m ->
  let vth := er_VTH (fst (e_report eps ut esi gmin newton m d s b)) in
  0 < vth /\ ~ pinched_at m vth /\ pinched_at m (- vth).
Proof.
  intros eps ut esi gmin newton m d s b PH N P.
  assert (V : er_VTH (fst (e_report eps ut esi gmin newton m d s b)) = e_VTO m).
  { unfold e_report. destruct (e_g eps ut esi gmin newton m d s b 0) as [gmd s1].
    destruct (e_g eps ut esi gmin newton m d s1 b 1) as [gmg s2]. destruct (e_g eps ut esi gmin newton m d s2 b 2) as [gms s3].
    destruct (e_currents eps ut esi newton m d (fst (e_guess s3)) (snd (e_guess s3)) b) as [[f r] leff].
    destruct (e_i eps ut esi newton m d s3 b) as [ids s4]. destruct (e_voltages m b) as [[[VD VG] VS] cs]. reflexivity. }
  cbv zeta. rewrite V. unfold pinched_at. rewrite N. split; [exact P|]. split.
  - assert (K := VP_below m (e_VTO m * -1) PH ltac:(lra)). lra.
  - replace (- e_VTO m * -1) with (e_VTO m) by ring. apply VP_at_VTO. exact PH.
Qed.
Print Assumptions C151_p_refuted.
Example C151_example : physical (mkE (-1) 1 1 1 1 1 1 1 1) /\ physical ex_e.
Proof. unfold physical, ex_e. simpl. lra. Qed.

(** * C152 *)

(** The resistance, current and status of the device at these voltages. *)
Definition w_truth (th : R -> R) (m : swmodel) (on : bool) (vo vs : R) : wrep :=
  mkWrep vo vs (1 / fst (sw_go th m on vo vs)) (fst (sw_i th m on vo vs)) (snd (sw_i th m on vo vs)).

Definition w_ok (th : R -> R) (m : swmodel) (s : wstate) : Prop :=
  match ws_rep s with
  | None => True
  | Some r => wr_R r = 1 / (1 / sw_R th m (sw_V m (wr_on r)) (wr_vs r)) /\ wr_I r = wr_vo r / sw_R th m (sw_V m (wr_on r)) (wr_vs r)
  end.
Lemma w_ok_run : forall th m ic evs, 0 <= w_VH m -> w_ok th m (w_run th m ic evs).
Proof.
  intros th m ic evs H. unfold w_run.
  assert (G : forall evs s, w_ok th m s -> w_ok th m (fold_left (w_step th m) evs s)); [|apply G; exact I].
  induction evs0 as [|e evs0 IH]; intros s O; [exact O|]. cbn [fold_left]. apply IH.
  destruct e as [vin|vo vs]; cbn [w_step]; [exact O|].
  unfold w_report. destruct (ws_rep s) as [r|] eqn:E.
  - destruct (Req_b (wr_vo r) vo && Req_b (wr_vs r) vs); [exact O|].
    unfold sw_go, sw_i, w_ok. cbn [snd ws_rep wr_R wr_I wr_on wr_vo wr_vs]. rewrite C53_idempotent by exact H. split; reflexivity.
  - unfold sw_go, sw_i, w_ok. cbn [snd ws_rep wr_R wr_I wr_on wr_vo wr_vs]. rewrite C53_idempotent by exact H. split; reflexivity.
Qed.

(** Right unless the last report was for the same voltages and the other status. *)
Theorem C152_right : forall th m ic evs vo vs, 0 <= w_VH m ->
  let s := w_run th m ic evs in
  (forall r, ws_rep s = Some r -> wr_vo r = vo -> wr_vs r = vs -> wr_on r = sw_update th m (ws_on s) vs) ->
  fst (w_report th m s vo vs) = w_truth th m (ws_on s) vo vs.
Proof.
  intros th m ic evs vo vs H s G. assert (O : w_ok th m s) by (apply w_ok_run; exact H).
  unfold w_report, w_truth, w_ok in *.
  assert (AG : fst (let '(go, on) := sw_go th m (ws_on s) vo vs in let '(i, on) := sw_i th m on vo vs in
                    let r := mkWrep vo vs (1 / go) i on in (r, mkWst on (Some r))) =
               mkWrep vo vs (1 / fst (sw_go th m (ws_on s) vo vs)) (fst (sw_i th m (ws_on s) vo vs)) (snd (sw_i th m (ws_on s) vo vs))).
  { unfold sw_go, sw_i. cbn [fst snd]. rewrite C53_idempotent by exact H. reflexivity. }
  destruct (ws_rep s) as [r|] eqn:E; [|exact AG].
  destruct (Req_b (wr_vo r) vo && Req_b (wr_vs r) vs) eqn:B; [|exact AG].
  apply andb_true_iff in B. destruct B as [B1 B2].
  assert (V1 : wr_vo r = vo) by (destruct (Req_b_spec (wr_vo r) vo); congruence).
  assert (V2 : wr_vs r = vs) by (destruct (Req_b_spec (wr_vs r) vs); congruence).
  specialize (G r eq_refl V1 V2). destruct O as [O1 O2]. rewrite G, V2 in O1, O2. rewrite V1 in O2.
  cbn [fst]. destruct r as [a1 a2 a3 a4 a5]. cbn [wr_vo wr_vs wr_R wr_I wr_on] in *. subst.
  unfold sw_go, sw_i. cbn [fst snd]. reflexivity.
Qed.
Print Assumptions C152_right.
(** A report on the switch when off; the input goes up and comes back into the
    window: the switch is on, the report still says off. *)
Theorem C152_stale_refuted : forall th m vo, tanh_like th -> saturates th -> 1/5 <= w_VH m -> w_RON m <> w_ROFF m -> vo <> 0 ->
  0 < w_RON m -> 0 < w_ROFF m ->
  let s := w_run th m false [WReport vo (w_VT m); WEval (w_VT m + w_VH m + 1); WEval (w_VT m)] in
  let r := fst (w_report th m s vo (w_VT m)) in
  ws_on s = true /\ wr_on r = false /\ wr_R r = w_ROFF m /\ wr_I r = vo / w_ROFF m /\
  fst (sw_i th m (ws_on s) vo (w_VT m)) = vo / w_RON m.
Proof.
  intros th m vo TL SA H NE V RN RF.
  assert (LO : forall x, x <= -20 -> th x = -1) by (intros x X; destruct TL as (_ & _ & OD); replace x with (- - x) by ring; rewrite OD, SA by lra; reflexivity).
  assert (HH : 0 <= w_VH m) by lra.
  assert (OFF : sw_update th m false (w_VT m) = false) by (apply C53_hold; lra).
  assert (ON : sw_update th m true (w_VT m) = true) by (apply C53_hold; lra).
  assert (UP : sw_update th m false (w_VT m + w_VH m + 1) = true) by (apply (proj1 (C53_switches th m false _ TL SA HH)); [reflexivity|lra]).
  assert (R0 : sw_R th m (sw_V m false) (w_VT m) = w_ROFF m).
  { unfold sw_R, sw_V, SLOPE. rewrite LO by lra. unfold sw_A, sw_B. field. }
  assert (R1 : sw_R th m (sw_V m true) (w_VT m) = w_RON m).
  { unfold sw_R, sw_V, SLOPE. rewrite SA by lra. unfold sw_A, sw_B. field. }
  assert (E : w_run th m false [WReport vo (w_VT m); WEval (w_VT m + w_VH m + 1); WEval (w_VT m)] =
              mkWst true (Some (mkWrep vo (w_VT m) (1 / (1 / w_ROFF m)) (vo / w_ROFF m) false))).
  { unfold w_run. cbn [fold_left w_step]. unfold w_report, sw_go, sw_i, w_eval. cbn [ws_rep ws_on snd]. rewrite !OFF, UP, ON, R0. reflexivity. }
  cbv zeta. rewrite E. unfold w_report. cbn [ws_rep ws_on wr_vo wr_vs].
  destruct (Req_b_spec vo vo) as [_|K]; [|contradiction]. destruct (Req_b_spec (w_VT m) (w_VT m)) as [_|K]; [|contradiction].
  cbn [andb fst wr_on wr_R wr_I]. split; [reflexivity|]. split; [reflexivity|]. split; [field; lra|]. split; [reflexivity|].
  unfold sw_i. rewrite ON. cbn [fst]. rewrite R1. reflexivity.
Qed.
Print Assumptions C152_stale_refuted.
Example C152_example : let m := mkSw 1 (1/2) 1 1000 in tanh_like ramp /\ saturates ramp /\ 1/5 <= w_VH m /\ w_RON m <> w_ROFF m /\
  fst (w_report ramp m (w_run ramp m false []) 3 1) = w_truth ramp m false 3 1.
Proof.
  intros m. destruct ramp_ok as [TL SA]. split; [exact TL|]. split; [exact SA|]. split; [simpl; lra|]. split; [simpl; lra|].
  apply (C152_right ramp m false []); [simpl; lra|]. intros r E. discriminate E.
Qed.

(** * C153 *)

Definition uniform (b : bias) : Prop := let '(vds, vgs, vbs) := b in vgs = vds /\ vbs = vds.
Definition evaluates (iea : R) (m : qmodel) (d : qdev) (b : bias) : Prop := exists i, ids_call iea m d (fst (get_voltages m b)) = Ok i.
(** Conductances, current, threshold and regions at the bias. *)
Definition q_truth (iea gmin : R) (m : qmodel) (d : qdev) (b : bias) : R * R * R * qrest :=
  let g := gstamp iea gmin m d b in
  (g 0%nat 0%nat, g 0%nat 1%nat, g 0%nat 3%nat,
   mkQrest (terminal_i iea m d b) (op_VTH m d b) (op_ON m d b) (op_VOD m d b) (op_SAT m d b)).

Lemma eq3_uniform : forall b v, eq3 b v = true -> uniform b.
Proof.
  intros [[x y] z] v H. unfold eq3 in H. apply andb_true_iff in H. destruct H as [H H3]. apply andb_true_iff in H. destruct H as [H1 H2].
  unfold uniform. destruct (Req_b_spec x v), (Req_b_spec y v), (Req_b_spec z v); subst; try discriminate. auto.
Qed.
Lemma eq3_not : forall b v, ~ uniform b -> eq3 b v = false.
Proof. intros b v H. destruct (eq3 b v) eqn:E; [|reflexivity]. exfalso. apply H. exact (eq3_uniform b v E). Qed.

Lemma report_recomputes : forall iea gmin m d o v b, qo_state o = SNum v -> ~ uniform b \/ qo_rest o = None -> evaluates iea m d b ->
  exists o', q_report iea gmin m d o b = Ok (q_truth iea gmin m d b, o') /\
    (~ uniform b -> qo_state o' = SNum (fst (fst b))).
Proof.
  intros iea gmin m d o v b ST NU (i & EV). unfold q_report, q_update. rewrite ST. cbn [bindr].
  set (o1 := q_gstamp iea gmin m d (mkQop (SList b) (qo_g o) (qo_rest o)) b).
  assert (G1 : qo_g o1 = Some (gstamp iea gmin m d b 0%nat 0%nat, gstamp iea gmin m d b 0%nat 1%nat, gstamp iea gmin m d b 0%nat 3%nat)) by reflexivity.
  assert (S1 : ~ uniform b -> qo_state o1 = SNum (fst (fst b))).
  { intros N. unfold o1, q_gstamp. cbn [qo_state]. rewrite (eq3_not b _ N). reflexivity. }
  rewrite EV. cbn [bindr].
  assert (K : (match eq3 b v, qo_g o, qo_rest o with
               | true, Some _, Some _ => Ok o
               | _, _, _ => Ok (mkQop (qo_state o1) (qo_g o1) (Some (mkQrest (terminal_i iea m d b) (op_VTH m d b) (op_ON m d b) (op_VOD m d b) (op_SAT m d b))))
               end) = Ok (mkQop (qo_state o1) (qo_g o1) (Some (mkQrest (terminal_i iea m d b) (op_VTH m d b) (op_ON m d b) (op_VOD m d b) (op_SAT m d b))))).
  { destruct NU as [N|N]; [rewrite (eq3_not b v N); reflexivity|]. rewrite N. destruct (eq3 b v); [destruct (qo_g o)|]; reflexivity. }
  rewrite K. cbn [bindr qo_g qo_rest]. rewrite G1. eexists. split; [reflexivity|]. cbn [qo_state]. exact S1.
Qed.

Definition fine (iea : R) (m : qmodel) (d : qdev) (e : q_event) : Prop :=
  match e with QReport b => ~ uniform b /\ evaluates iea m d b | QStamp _ => True end.
Lemma history_state : forall iea gmin m d evs o v, Forall (fine iea m d) evs -> qo_state o = SNum v ->
  exists o' v', q_run iea gmin m d o evs = Ok o' /\ qo_state o' = SNum v'.
Proof.
  intros iea gmin m d evs. induction evs as [|e evs IH]; intros o v F ST; [exists o, v; split; [reflexivity|exact ST]|].
  inversion F as [|? ? Fe Fs]; subst. cbn [q_run].
  destruct e as [b|b]; cbn [q_step].
  - cbn [bindr]. assert (X : exists v', qo_state (q_gstamp iea gmin m d o b) = SNum v').
    { unfold q_gstamp. rewrite ST. destruct (negb (Req_b v (fst (fst b)))); cbn [qo_state]; [eexists; reflexivity|exists v; exact ST]. }
    destruct X as [v' X]. exact (IH _ _ Fs X).
  - destruct Fe as [NU EV]. destruct (report_recomputes iea gmin m d o v b ST (or_introl NU) EV) as (o' & R & S'). rewrite R. cbn [bindr snd].
    exact (IH _ _ Fs (S' NU)).
Qed.
Lemma start_state : forall iea gmin m d b0, qo_state (q_gstamp iea gmin m d q_new b0) = SNum (fst (fst b0)).
Proof. reflexivity. Qed.

(** After an analysis, and any further evaluations and reports, the report shows the
    values at the bias asked for, if its three voltages are not all equal. *)
Theorem C153_right : forall iea gmin m d b0 evs b, Forall (fine iea m d) evs -> ~ uniform b -> evaluates iea m d b ->
  exists o o', q_run iea gmin m d q_new (QStamp b0 :: evs) = Ok o /\ q_report iea gmin m d o b = Ok (q_truth iea gmin m d b, o').
Proof.
  intros iea gmin m d b0 evs b F NU EV. cbn [q_run q_step bindr].
  destruct (history_state iea gmin m d evs _ _ F (start_state iea gmin m d b0)) as (o & v & R & ST). rewrite R. exists o.
  destruct (report_recomputes iea gmin m d o v b ST (or_introl NU) EV) as (o' & Q & _). exists o'. split; [reflexivity|exact Q].
Qed.
Print Assumptions C153_right.
(** With three equal voltages too, if the analysis came from another drain-source
    voltage. *)
Theorem C153_equal_voltages : forall iea gmin m d b0 evs b1 b, Forall (fine iea m d) evs -> fst (fst b1) <> fst (fst b) -> evaluates iea m d b ->
  exists o o', q_run iea gmin m d q_new (QStamp b0 :: evs ++ [QStamp b1; QStamp b]) = Ok o /\ q_report iea gmin m d o b = Ok (q_truth iea gmin m d b, o').
Proof.
  intros iea gmin m d b0 evs b1 b F NE EV. cbn [q_run q_step bindr].
  destruct (history_state iea gmin m d evs _ _ F (start_state iea gmin m d b0)) as (o & v & R & ST).
  assert (AP : forall evs o o' evs', q_run iea gmin m d o evs = Ok o' -> q_run iea gmin m d o (evs ++ evs') = q_run iea gmin m d o' evs').
  { clear. induction evs as [|e evs IH]; intros o o' evs' H; [injection H as ->; reflexivity|].
    cbn [q_run app] in *. destruct (q_step iea gmin m d o e) as [o1|]; [|discriminate H]. cbn [bindr] in *. apply IH. exact H. }
  rewrite (AP _ _ _ _ R). cbn [q_run q_step bindr].
  set (o1 := q_gstamp iea gmin m d o b1). set (o2 := q_gstamp iea gmin m d o1 b).
  assert (S1 : qo_state o1 = SNum (fst (fst b1))).
  { unfold o1, q_gstamp. rewrite ST. destruct (Req_b_spec v (fst (fst b1))) as [E|E]; cbn [negb qo_state]; [rewrite ST, E; reflexivity|reflexivity]. }
  assert (S2 : qo_state o2 = SNum (fst (fst b)) /\ qo_rest o2 = None).
  { unfold o2, q_gstamp. rewrite S1. destruct (Req_b_spec (fst (fst b1)) (fst (fst b))) as [E|E]; [contradiction|]. cbn [negb qo_state qo_rest]. split; reflexivity. }
  exists o2. destruct (report_recomputes iea gmin m d o2 _ b (proj1 S2) (or_intror (proj2 S2)) EV) as (o' & Q & _). exists o'. split; [reflexivity|exact Q].
Qed.
Print Assumptions C153_equal_voltages.

(** A device that was never evaluated cannot be reported. *)
Theorem C153_new_refuted : forall iea gmin m d b, q_report iea gmin m d q_new b = Err AttributeError.
Proof. reflexivity. Qed.
Print Assumptions C153_new_refuted.

Lemma eq3_same : forall v, eq3 (v, v, v) v = true.
Proof. intros v. unfold eq3. destruct (Req_b_spec v v) as [_|N]; [reflexivity|contradiction]. Qed.
(** The report at equal voltages works once; the second one, with nothing or the same
    analysis in between, fails. *)
Theorem C153_twice_refuted : forall iea gmin m d v, evaluates iea m d (v, v, v) ->
  exists o, q_run iea gmin m d q_new [QStamp (v, v, v); QReport (v, v, v); QStamp (v, v, v)] = Ok o /\
    q_report iea gmin m d o (v, v, v) = Err AttributeError.
Proof.
  intros iea gmin m d v (i & EV). cbn [q_run q_step bindr]. set (o := q_gstamp iea gmin m d q_new (v, v, v)).
  assert (ST : qo_state o = SNum v /\ qo_rest o = None) by (split; reflexivity). destruct ST as [ST RT].
  assert (R : exists p o1, q_report iea gmin m d o (v, v, v) = Ok (p, o1) /\ qo_state o1 = SList (v, v, v)).
  { unfold q_report, q_update. rewrite ST, RT. cbn [bindr]. rewrite eq3_same, EV.
    set (o1 := q_gstamp iea gmin m d (mkQop (SList (v, v, v)) (qo_g o) None) (v, v, v)).
    assert (G1 : exists g, qo_g o1 = Some g) by (eexists; reflexivity). destruct G1 as [g G1].
    assert (S1 : qo_state o1 = SList (v, v, v)) by (unfold o1, q_gstamp; cbn [qo_state fst]; rewrite eq3_same; reflexivity).
    destruct (qo_g o); cbn [bindr qo_g qo_rest]; rewrite G1; do 2 eexists; (split; [reflexivity|exact S1]). }
  destruct R as (p & o1 & R & S1). rewrite R. cbn [bindr snd]. exists (q_gstamp iea gmin m d o1 (v, v, v)). split; [reflexivity|].
  assert (S2 : qo_state (q_gstamp iea gmin m d o1 (v, v, v)) = SList (v, v, v)) by (unfold q_gstamp; cbn [fst]; rewrite S1, eq3_same; cbn [negb qo_state]; exact S1).
  unfold q_report, q_update. rewrite S2. reflexivity.
Qed.
Print Assumptions C153_twice_refuted.

(** Drain and source on one node: the first analysis has the gate at a voltage above
    threshold, the second at the source; the second report still says ON. *)
Theorem C153_stale_refuted : forall iea gmin m d vg, q_NP m = 1 -> 0 < get_VT m d 0 -> get_VT m d 0 < vg ->
  exists o g r o', q_run iea gmin m d q_new [QStamp (0, vg, 0); QReport (0, vg, 0); QStamp (0, 0, 0)] = Ok o /\
    q_report iea gmin m d o (0, 0, 0) = Ok (g, r, o') /\
    qr_ON r = true /\ qr_VOD r = vg - get_VT m d 0 /\ op_ON m d (0, 0, 0) = false.
Proof.
  intros iea gmin m d vg N V0 V1.
  assert (NU : ~ uniform (0, vg, 0)) by (unfold uniform; intros [? _]; lra).
  assert (EV : evaluates iea m d (0, vg, 0)).
  { unfold evaluates, get_voltages. rewrite N. replace (0 * 1) with 0 by ring. replace (vg * 1) with vg by ring.
    rewrite (proj2 (Rlt_b_false 0 0)) by lra. cbn [fst]. unfold ids_call. rewrite (proj2 (Rlt_b_false vg _)) by lra. eexists. reflexivity. }
  cbn [q_run q_step bindr].
  destruct (report_recomputes iea gmin m d (q_gstamp iea gmin m d q_new (0, vg, 0)) 0 (0, vg, 0) eq_refl (or_introl NU) EV) as (o1 & R & S1).
  specialize (S1 NU). cbn [fst] in S1.
  assert (RT : exists g, qo_g o1 = Some g /\ qo_rest o1 = Some (snd (q_truth iea gmin m d (0, vg, 0)))).
  { unfold q_report in R. destruct (q_update iea gmin m d (q_gstamp iea gmin m d q_new (0, vg, 0)) (0, vg, 0)) as [o2|]; [|discriminate R].
    cbn [bindr] in R. destruct (qo_g o2) eqn:E1; [|discriminate R]. destruct (qo_rest o2) eqn:E2; [|discriminate R].
    injection R as _ R2 <-. exists p. split; [exact E1|]. rewrite E2, R2. reflexivity. }
  destruct RT as (g1 & G1 & RT). rewrite R. cbn [bindr snd].
  set (o2 := q_gstamp iea gmin m d o1 (0, 0, 0)).
  assert (S2 : qo_state o2 = SNum 0 /\ qo_rest o2 = qo_rest o1).
  { unfold o2, q_gstamp. cbn [fst]. rewrite S1. destruct (Req_b_spec 0 0) as [_|K]; [|contradiction]. cbn [negb qo_state qo_rest]. split; [exact S1|reflexivity]. }
  destruct S2 as [S2 R2]. rewrite RT in R2.
  exists o2. unfold q_report, q_update. rewrite S2, R2. cbn [bindr]. rewrite eq3_same.
  assert (G2 : exists g2, qo_g o2 = Some g2) by (unfold o2, q_gstamp; cbn [qo_g]; eexists; reflexivity).
  destruct G2 as [g2 G2]. rewrite G2. cbn [bindr]. rewrite G2, R2. exists g2, (snd (q_truth iea gmin m d (0, vg, 0))), o2.
  split; [reflexivity|]. split; [reflexivity|]. unfold q_truth. cbn [snd qr_ON qr_VOD]. unfold op_ON, op_VOD, op_VTH.
  rewrite (proj2 (Rlt_b_false vg _)) by lra. rewrite (proj2 (Rlt_b_true 0 _)) by lra. rewrite N. split; [reflexivity|]. split; [ring|reflexivity].
Qed.
Print Assumptions C153_stale_refuted.
Example C153_example : q_NP ex_n = 1 /\ 0 < get_VT ex_n ex_d 0 /\ get_VT ex_n ex_d 0 < 2 /\ ~ uniform (3, 2, 0) /\ evaluates (1/1000) ex_n ex_d (3, 2, 0).
Proof.
  assert (V : get_VT ex_n ex_d 0 = 1).
  { unfold get_VT, svt, sq1, sq2, ex_n, ex_d. cbn [q_VTO t_mc q_GAMMA q_PHI]. replace (- 0 + 2 * 1) with (2 * 1) by ring. ring. }
  rewrite V. split; [reflexivity|]. split; [lra|]. split; [lra|]. split; [unfold uniform; lra|].
  unfold evaluates, get_voltages, ex_n. cbn [q_NP]. rewrite (proj2 (Rlt_b_false (3 * 1) 0)) by lra. cbn [fst].
  replace (0 * 1) with 0 by ring. unfold ids_call. fold ex_n. rewrite V. rewrite (proj2 (Rlt_b_false (2 * 1) 1)) by lra. eexists. reflexivity.
Qed.

(** * C154 *)

(** The conductances in the report are those of the device in the forward direction. *)
Theorem C154_forward : forall iea gmin m d o v b, qo_state o = SNum v -> ~ uniform b -> evaluates iea m d b ->
  snd (get_voltages m b) = false -> get_gmd iea m d (fst (get_voltages m b)) <> 0 ->
  get_gm iea m d (fst (get_voltages m b)) <> 0 -> get_gmb m d (fst (get_voltages m b)) <> 0 ->
  exists r o', q_report iea gmin m d o b =
    Ok (get_gmd iea m d (fst (get_voltages m b)), get_gm iea m d (fst (get_voltages m b)), get_gmb m d (fst (get_voltages m b)), r, o').
Proof.
  intros iea gmin m d o v b ST NU EV CS N1 N2 N3.
  destruct (report_recomputes iea gmin m d o v b ST (or_introl NU) EV) as (o' & R & _). rewrite R.
  unfold q_truth. unfold gstamp. destruct (get_voltages m b) as [sw cs]. cbn [fst snd] in *. rewrite CS.
  unfold forward_stamp, nz. destruct (Req_b_spec (get_gmd iea m d sw) 0) as [E|_]; [contradiction|].
  destruct (Req_b_spec (get_gm iea m d sw) 0) as [E|_]; [contradiction|]. destruct (Req_b_spec (get_gmb m d sw) 0) as [E|_]; [contradiction|].
  do 2 eexists. reflexivity.
Qed.
Print Assumptions C154_forward.
(** With drain and source exchanged all three are reported as zero, and with them an
    infinite output resistance, though the device conducts. *)
Theorem C154_reverse_refuted : forall iea gmin m d o v b, qo_state o = SNum v -> ~ uniform b -> evaluates iea m d b ->
  fst (fst b) * q_NP m < 0 ->
  exists r o', q_report iea gmin m d o b = Ok (0, 0, 0, r, o').
Proof.
  intros iea gmin m d o v b ST NU EV NEG.
  destruct (report_recomputes iea gmin m d o v b ST (or_introl NU) EV) as (o' & R & _). rewrite R.
  destruct b as [[vds vgs] vbs]. cbn [fst] in NEG. unfold q_truth, gstamp, get_voltages.
  rewrite (proj2 (Rlt_b_true (vds * q_NP m) 0)) by exact NEG. cbn [T12].
  match goal with |- exists _ _, Ok (0 * ?x * 0, 0 * ?y * 0, 0 * ?z * 0, _, _) = _ =>
    replace (0 * x * 0) with 0 by ring; replace (0 * y * 0) with 0 by ring; replace (0 * z * 0) with 0 by ring end.
  do 2 eexists. reflexivity.
Qed.
Print Assumptions C154_reverse_refuted.
Example C154_example : fst (fst (-3, 2, 0)) * q_NP ex_n < 0 /\ 0 < - terminal_i (1/1000) ex_n ex_d (-3, -1, -3).
Proof.
  split; [simpl; lra|].
  assert (V : get_VT ex_n ex_d 0 = 1).
  { unfold get_VT, svt, sq1, sq2, ex_n, ex_d. cbn [q_VTO t_mc q_GAMMA q_PHI]. replace (- 0 + 2 * 1) with (2 * 1) by ring. ring. }
  unfold terminal_i, get_voltages. cbn [q_NP ex_n]. rewrite (proj2 (Rlt_b_true (-3 * 1) 0)) by lra.
  replace (- (-3 * 1)) with 3 by ring. replace (-1 * 1 - -3 * 1) with 2 by ring. replace (-3 * 1 - -3 * 1) with 0 by ring.
  unfold get_ids. rewrite V. rewrite (proj2 (Rlt_b_false 2 1)) by lra.
  unfold skp, ex_n, ex_d. cbn [q_LAMBDA q_KP t_W t_L t_M t_N t_mc q_NP].
  rewrite (proj2 (Rlt_b_false 3 _)) by lra. lra.
Qed.

(** * C155 *)

(** Every device that works in the operating point analysis works in the periodic
    ones, if it is not a square-law transistor. *)
Theorem C155_dc : forall A by_stamp by_ig (es : list nldev) (a : A),
  (forall e x, exists y, by_stamp e x = Ok y) -> (forall e x, exists y, by_ig e x = Ok y) ->
  (exists y, eval_all A (dc_elem A by_stamp by_ig) es a = Ok y) /\
  (Forall (fun e => nl_class e <> Mosq_) es -> exists y, eval_all A (pss_elem A by_ig) es a = Ok y).
Proof.
  intros A by_stamp by_ig es a S I. split.
  - revert a. induction es as [|e es IH]; intros a; [exists a; reflexivity|]. cbn [eval_all].
    assert (X : exists y, dc_elem A by_stamp by_ig e a = Ok y) by (unfold dc_elem; destruct (nl_class e); cbn [has_stamps has_ig]; auto).
    destruct X as [y X]. rewrite X. exact (IH y).
  - revert a. induction es as [|e es IH]; intros a F; [exists a; reflexivity|]. inversion F as [|? ? Fe Fs]; subst. cbn [eval_all].
    assert (X : exists y, pss_elem A by_ig e a = Ok y).
    { unfold pss_elem. destruct ((nl_n1 e =? 0)%nat && (nl_n2 e =? 0)%nat); [exists a; reflexivity|]. destruct (nl_class e); cbn [has_ig]; auto. contradiction. }
    destruct X as [y X]. rewrite X. exact (IH y Fs).
Qed.
Print Assumptions C155_dc.
(** A circuit with one of them has an operating point but no periodic analysis. *)
Theorem C155_mosq_refuted : forall A by_ig (es : list nldev) (a : A) e,
  (forall e x, exists y, by_ig e x = Ok y) -> In e es -> nl_class e = Mosq_ -> (nl_n1 e <> 0 \/ nl_n2 e <> 0)%nat ->
  eval_all A (pss_elem A by_ig) es a = Err AttributeError.
Proof.
  intros A by_ig es a e I IN C N. revert a. induction es as [|e0 es IH]; intros a; [destruct IN|]. cbn [eval_all].
  destruct IN as [->|IN].
  - unfold pss_elem. rewrite C. cbn [has_ig].
    destruct (nl_n1 e =? 0)%nat eqn:E1, (nl_n2 e =? 0)%nat eqn:E2; cbn [andb]; try reflexivity.
    apply Nat.eqb_eq in E1, E2. destruct N; contradiction.
  - assert (X : (exists y, pss_elem A by_ig e0 a = Ok y) \/ pss_elem A by_ig e0 a = Err AttributeError).
    { unfold pss_elem. destruct ((nl_n1 e0 =? 0)%nat && (nl_n2 e0 =? 0)%nat); [left; exists a; reflexivity|].
      destruct (has_ig (nl_class e0)); [left; apply I|right; reflexivity]. }
    destruct X as [[y X]|X]; rewrite X; [exact (IH IN y)|reflexivity].
Qed.
Print Assumptions C155_mosq_refuted.
Example C155_example : let es := [mkNl Diode_ 1 0; mkNl Mosq_ 2 0; mkNl Ekv_ 3 1] in
  eval_all nat (dc_elem nat (fun _ x => Ok (S x)) (fun _ x => Ok (S x))) es 0%nat = Ok 3%nat /\
  eval_all nat (pss_elem nat (fun _ x => Ok (S x))) es 0%nat = Err AttributeError.
Proof. split; reflexivity. Qed.
