(** Property theorems about the diode (C25, C49, C50, C88, C89, C93). *)
From Coq Require Import Reals List Bool Arith Lia Lra.
From Verif Require Import Base BaseFacts Newton NewtonFacts Memo Diode.
Import ListNotations.
Open Scope R_scope.

Lemma Req_b_spec : forall a b, reflect (a = b) (Req_b a b).
Proof. intros a b. unfold Req_b. destruct (Req_EM_T a b); constructor; assumption. Qed.

(** Sensible parameters. *)
Definition positive (m : dmodel) : Prop :=
  0 < d_IS m /\ 0 < d_N m /\ 0 < d_NBV m /\ 0 <= d_ISR m /\ 0 < d_NR m /\ 0 < d_VT m /\ 0 < d_T m.

(** * Monotonicity *)
Lemma safe_exp_mono : forall x y, x <= y -> safe_exp x <= safe_exp y.
Proof.
  intros x y H. unfold safe_exp.
  assert (E : forall z, z < 70 -> exp z <= exp 70) by (intros z Hz; left; apply exp_increasing; exact Hz).
  destruct (Rlt_b x 70) eqn:A; destruct (Rlt_b y 70) eqn:B;
    [apply Rlt_b_true in A; apply Rlt_b_true in B|apply Rlt_b_true in A; apply Rlt_b_false in B|
     apply Rlt_b_false in A; apply Rlt_b_true in B|apply Rlt_b_false in A; apply Rlt_b_false in B].
  - destruct H as [H|H]; [left; apply exp_increasing; exact H|right; rewrite H; reflexivity].
  - specialize (E x A). lra.
  - lra.
  - lra.
Qed.
Lemma safe_exp_pos : forall x, 0 < safe_exp x.
Proof.
  intros x. unfold safe_exp. destruct (Rlt_b x 70) eqn:A; [apply exp_pos|]. apply Rlt_b_false in A. assert (H := exp_pos 70). lra.
Qed.
Lemma safe_exp_neg : forall x, x < 70 -> safe_exp x = exp x.
Proof. intros x H. unfold safe_exp. apply Rlt_b_true in H. rewrite H. reflexivity. Qed.

Lemma knee_mono : forall k f g, 0 < k -> 0 < f -> f <= g -> sqrt (k / (k + f)) * f <= sqrt (k / (k + g)) * g.
Proof.
  intros k f g K F G.
  assert (Sq : forall z, 0 < z -> 0 <= sqrt (k / (k + z)) * z).
  { intros z Z. apply Rmult_le_pos; [apply sqrt_pos|lra]. }
  apply Rsqr_incr_0; [|apply Sq; lra|apply Sq; lra]. unfold Rsqr.
  assert (E : forall z, 0 < z -> sqrt (k / (k + z)) * z * (sqrt (k / (k + z)) * z) = k * z * z / (k + z)).
  { intros z Z. assert (P : 0 <= k / (k + z)) by (left; apply Rdiv_lt_0_compat; lra).
    replace (sqrt (k / (k + z)) * z * (sqrt (k / (k + z)) * z)) with (sqrt (k / (k + z)) * sqrt (k / (k + z)) * z * z) by ring.
    rewrite sqrt_sqrt by exact P. field. lra. }
  rewrite !E by lra.
  apply Rmult_le_reg_r with ((k + f) * (k + g)); [apply Rmult_lt_0_compat; lra|].
  replace (k * f * f / (k + f) * ((k + f) * (k + g))) with (k * (f * f * (k + g))) by (field; lra).
  replace (k * g * g / (k + g) * ((k + f) * (k + g))) with (k * (g * g * (k + f))) by (field; lra).
  apply Rmult_le_compat_l; [lra|].
  assert (D : g * g * (k + f) - f * f * (k + g) = (g - f) * (k * (g + f) + f * g)) by ring.
  assert (P : 0 <= (g - f) * (k * (g + f) + f * g)).
  { apply Rmult_le_pos; [lra|]. assert (0 <= k * (g + f)) by (apply Rmult_le_pos; lra). assert (0 <= f * g) by (apply Rmult_le_pos; lra). lra. }
  lra.
Qed.

Lemma div_mono : forall a b c, 0 < c -> a <= b -> a / c <= b / c.
Proof. intros a b c C H. unfold Rdiv. apply Rmult_le_compat_r; [left; apply Rinv_0_lt_compat; exact C|exact H]. Qed.

Lemma rev_exp_anti : forall m nf v w, 0 < nf -> v <= w -> rev_exp m nf w <= rev_exp m nf v.
Proof.
  intros m nf v w P H. unfold rev_exp. destruct (d_BV m) as [bv|]; [|lra]. apply safe_exp_mono. apply div_mono; lra.
Qed.

(** The current never decreases when the voltage grows. *)
Theorem C49_monotone : forall m v w, positive m -> v <= w -> junction_i m v <= junction_i m w.
Proof.
  intros m v w (IS0 & N0 & NB0 & ISR0 & NR0 & VT0 & _) H. unfold junction_i.
  assert (NV : 0 < d_N m * d_VT m) by (apply Rmult_lt_0_compat; assumption).
  assert (NRV : 0 < d_NR m * d_VT m) by (apply Rmult_lt_0_compat; assumption).
  assert (NBV : 0 < d_NBV m * d_VT m) by (apply Rmult_lt_0_compat; assumption).
  set (f := d_IS m * (safe_exp (v / (d_N m * d_VT m)) - 1)). set (g := d_IS m * (safe_exp (w / (d_N m * d_VT m)) - 1)).
  assert (FG : f <= g).
  { unfold f, g. apply Rmult_le_compat_l; [lra|]. assert (K := safe_exp_mono _ _ (div_mono v w _ NV H)). lra. }
  assert (RR : d_ISR m * (safe_exp (v / (d_NR m * d_VT m)) - 1) <= d_ISR m * (safe_exp (w / (d_NR m * d_VT m)) - 1)).
  { apply Rmult_le_compat_l; [lra|]. assert (K := safe_exp_mono _ _ (div_mono v w _ NRV H)). lra. }
  assert (RV : - d_IS m * (rev_exp m (d_NBV m * d_VT m) v - 1) <= - d_IS m * (rev_exp m (d_NBV m * d_VT m) w - 1)).
  { assert (K := rev_exp_anti m _ v w NBV H). assert (d_IS m * rev_exp m (d_NBV m * d_VT m) w <= d_IS m * rev_exp m (d_NBV m * d_VT m) v) by (apply Rmult_le_compat_l; lra). lra. }
  cut (match d_IKF m with None => 1 | Some ikf => if Rlt_b 0 ikf && Rlt_b 0 f then sqrt (ikf / (ikf + f)) else 1 end * f <=
       match d_IKF m with None => 1 | Some ikf => if Rlt_b 0 ikf && Rlt_b 0 g then sqrt (ikf / (ikf + g)) else 1 end * g); [lra|].
  destruct (d_IKF m) as [k|]; [|lra].
  destruct (Rlt_b 0 k) eqn:K; simpl; [|lra]. apply Rlt_b_true in K.
  destruct (Rlt_b 0 f) eqn:F; destruct (Rlt_b 0 g) eqn:G;
    [apply Rlt_b_true in F; apply Rlt_b_true in G|apply Rlt_b_true in F; apply Rlt_b_false in G|
     apply Rlt_b_false in F; apply Rlt_b_true in G|]; [apply knee_mono; lra|lra| |lra].
  assert (0 <= sqrt (k / (k + g)) * g) by (apply Rmult_le_pos; [apply sqrt_pos|lra]). lra.
Qed.
Print Assumptions C49_monotone.

(** * C49: the conductance *)
Lemma safe_exp_derivable : forall x, x < 70 -> derivable_pt_lim safe_exp x (exp x).
Proof.
  intros x H. assert (D := derivable_pt_lim_exp x). intros eps E. destruct (D eps E) as [d Hd].
  assert (M : 0 < Rmin d (70 - x)) by (apply Rmin_glb_lt; [apply cond_pos|lra]).
  exists (mkposreal _ M). intros h H0 H1. simpl in H1.
  assert (H2 : Rabs h < d) by (eapply Rlt_le_trans; [exact H1|apply Rmin_l]).
  assert (H3 : Rabs h < 70 - x) by (eapply Rlt_le_trans; [exact H1|apply Rmin_r]).
  assert (x + h < 70) by (assert (K := Rle_abs h); lra).
  rewrite !safe_exp_neg by lra. apply Hd; assumption.
Qed.

Lemma scaled_derivable : forall c s v, 0 < s -> v / s < 70 ->
  derivable_pt_lim (fun v => c * (safe_exp (v / s) - 1)) v (c / s * safe_exp (v / s)).
Proof.
  intros c s v Hs H. rewrite safe_exp_neg by exact H.
  assert (D1 : derivable_pt_lim (fun v => v / s) v (/ s)).
  { assert (K := derivable_pt_lim_scal id (/ s) v 1 (derivable_pt_lim_id v)). unfold mult_real_fct, id in K.
    intros eps E. destruct (K eps E) as [d Hd]. exists d. intros h H0 H1. specialize (Hd h H0 H1).
    replace ((v + h) / s - v / s) with (/ s * (v + h) - / s * v) by (unfold Rdiv; ring).
    rewrite Rmult_1_r in Hd. exact Hd. }
  assert (D2 := derivable_pt_lim_comp (fun v => v / s) safe_exp v (/ s) (exp (v / s)) D1 (safe_exp_derivable _ H)).
  unfold comp in D2.
  assert (D3 := derivable_pt_lim_minus _ _ _ _ _ D2 (derivable_pt_lim_const 1 v)). unfold minus_fct, fct_cte in D3.
  assert (D4 := derivable_pt_lim_scal _ c _ _ D3). unfold mult_real_fct in D4.
  replace (c / s * exp (v / s)) with (c * (exp (v / s) * / s - 0)) by (unfold Rdiv; ring). exact D4.
Qed.

(** Without breakdown, knee current and series resistance, and below the voltage at
    which the exponential is cut, the reported conductance is the derivative of the
    reported current. *)
Theorem C49_gm_derivative_guarded : forall gmin m dev v, positive m -> d_BV m = None -> d_IKF m = None -> d_RS m = 0 ->
  v / (d_N m * d_VT m) < 70 -> v / (d_NR m * d_VT m) < 70 ->
  derivable_pt_lim (fun v => junction_i m v * v_AREA dev) v (raw_gm gmin m dev v).
Proof.
  intros gmin m dev v (IS0 & N0 & NB0 & ISR0 & NR0 & VT0 & _) BV IKF RS0 H1 H2.
  assert (NV : 0 < d_N m * d_VT m) by (apply Rmult_lt_0_compat; assumption).
  assert (NRV : 0 < d_NR m * d_VT m) by (apply Rmult_lt_0_compat; assumption).
  assert (A := scaled_derivable (d_IS m) _ v NV H1). assert (B := scaled_derivable (d_ISR m) _ v NRV H2).
  assert (C := derivable_pt_lim_plus _ _ _ _ _ (derivable_pt_lim_plus _ _ _ _ _ A B) (derivable_pt_lim_const (d_IS m) v)).
  assert (D := derivable_pt_lim_scal _ (v_AREA dev) _ _ C). unfold plus_fct, mult_real_fct, fct_cte in D.
  unfold raw_gm, junction_gm, junction_i, rev_exp. rewrite BV, IKF.
  destruct (Req_b_spec (d_RS m) 0) as [_|N]; [|contradiction].
  intros eps E. destruct (D eps E) as [d Hd]. exists d. intros h H0 H3. specialize (Hd h H0 H3).
  match type of Hd with Rabs ?a < _ => match goal with |- Rabs ?b < _ => replace b with a; [exact Hd|] end end.
  field. repeat split; try exact H0; lra.
Qed.
Print Assumptions C49_gm_derivative_guarded.

(** With a finite breakdown voltage the conductance has the wrong sign there: it is
    negative although the current grows. *)
Theorem C49_breakdown_refuted : forall gmin m dev bv, positive m -> d_BV m = Some bv -> 0 < bv -> d_N m = 1 -> d_ISR m = 0 -> d_RS m = 0 ->
  0 < v_AREA dev -> raw_gm gmin m dev (- bv) < 0.
Proof.
  intros gmin m dev bv (IS0 & N0 & NB0 & ISR0 & NR0 & VT0 & _) BV P N1 I0 RS0 A0. unfold raw_gm.
  destruct (Req_b_spec (d_RS m) 0) as [_|N]; [|contradiction].
  assert (G : junction_gm m (- bv) < 0).
  { unfold junction_gm, rev_exp. rewrite BV, N1, I0.
    replace (- (- bv + bv) / d_VT m) with 0 by (field; lra). rewrite (safe_exp_neg 0) by lra. rewrite exp_0.
    assert (NEG : - bv / (1 * d_VT m) < 0).
    { unfold Rdiv. assert (0 < / (1 * d_VT m)) by (apply Rinv_0_lt_compat; lra).
      assert (0 < bv * / (1 * d_VT m)) by (apply Rmult_lt_0_compat; assumption). lra. }
    rewrite safe_exp_neg by lra.
    assert (E1 := exp_increasing _ _ NEG). rewrite exp_0 in E1.
    assert (Q : 0 < d_IS m / d_VT m) by (apply Rdiv_lt_0_compat; assumption).
    replace (d_IS m / (1 * d_VT m)) with (d_IS m / d_VT m) by (field; lra).
    replace (- d_IS m / d_VT m) with (- (d_IS m / d_VT m)) by (field; lra).
    assert (d_IS m / d_VT m * exp (- bv / (1 * d_VT m)) < d_IS m / d_VT m * 1) by (apply Rmult_lt_compat_l; assumption).
    unfold Rdiv at 3. lra. }
  assert (v_AREA dev * junction_gm m (- bv) < v_AREA dev * 0) by (apply Rmult_lt_compat_l; assumption). lra.
Qed.
Print Assumptions C49_breakdown_refuted.

(** Above the cut the slope of the current is 10 IS/(N VT), the reported
    conductance is larger without bound. *)
Theorem C49_cut_refuted : forall m, positive m -> d_BV m = None -> d_IKF m = None -> d_ISR m = 0 ->
  forall v w, 70 <= v / (d_N m * d_VT m) -> v < w ->
  (junction_i m w - junction_i m v) / (w - v) = 10 * (d_IS m / (d_N m * d_VT m)) /\
  700 * (d_IS m / (d_N m * d_VT m)) < junction_gm m v.
Proof.
  intros m (IS0 & N0 & NB0 & ISR0 & NR0 & VT0 & _) BV IKF I0 v w H W.
  assert (NV : 0 < d_N m * d_VT m) by (apply Rmult_lt_0_compat; assumption).
  assert (WV : v / (d_N m * d_VT m) <= w / (d_N m * d_VT m)) by (apply div_mono; lra).
  assert (Sv : forall z, 70 <= z -> safe_exp z = exp 70 + 10 * z).
  { intros z Z. unfold safe_exp. apply Rlt_b_false in Z. rewrite Z. reflexivity. }
  split.
  - unfold junction_i, rev_exp. rewrite BV, IKF, I0, !(Sv _ H), (Sv (w / _)) by lra. field. repeat split; lra.
  - unfold junction_gm, rev_exp. rewrite BV, I0, (Sv _ H). assert (E := exp_pos 70).
    assert (Q : 0 < d_IS m / (d_N m * d_VT m)) by (apply Rdiv_lt_0_compat; assumption).
    assert (d_IS m / (d_N m * d_VT m) * 700 < d_IS m / (d_N m * d_VT m) * (exp 70 + 10 * (v / (d_N m * d_VT m)))) by (apply Rmult_lt_compat_l; lra).
    replace (0 / (d_NR m * d_VT m)) with 0 by (unfold Rdiv; ring). lra.
Qed.
Print Assumptions C49_cut_refuted.

(** What enters the Jacobian: the conductance itself, and a small positive one in its
    place when it is zero, so that a diode never leaves its nodes unconnected. *)
Theorem C49_stamp : forall gmin gm, 0 < gmin ->
  stamp_gm gmin gm <> 0 /\ (gm <> 0 -> stamp_gm gmin gm = gm) /\ (0 <= gm -> 0 < stamp_gm gmin gm /\ Rabs (stamp_gm gmin gm - gm) <= 2 * gmin).
Proof.
  intros gmin gm G. unfold stamp_gm. destruct (Req_b_spec gm 0) as [E|N].
  - subst gm. split; [lra|]. split; [intros K; contradiction|]. intros _. split; [lra|].
    replace (gmin * 2 - 0) with (2 * gmin) by ring. rewrite Rabs_pos_eq; lra.
  - split; [exact N|]. split; [reflexivity|]. intros P. split; [lra|]. replace (gm - gm) with 0 by ring. rewrite Rabs_R0. lra.
Qed.
Print Assumptions C49_stamp.

(** * C50 *)

(** A diode with the default breakdown voltage delivers power at every reverse
    voltage, and carries its saturation current at zero. *)
Theorem C50_passive_refuted : forall m v, positive m -> d_BV m = None -> d_IKF m = None -> d_ISR m = 0 ->
  junction_i m 0 = d_IS m /\ (v < 0 -> v * junction_i m v < 0).
Proof.
  intros m v (IS0 & N0 & NB0 & ISR0 & NR0 & VT0 & _) BV IKF I0.
  assert (NV : 0 < d_N m * d_VT m) by (apply Rmult_lt_0_compat; assumption).
  unfold junction_i, rev_exp. rewrite BV, IKF, I0. split.
  - replace (0 / (d_N m * d_VT m)) with 0 by (unfold Rdiv; ring). rewrite safe_exp_neg by lra. rewrite exp_0. ring.
  - intros H. assert (P := safe_exp_pos (v / (d_N m * d_VT m))).
    replace (1 * (d_IS m * (safe_exp (v / (d_N m * d_VT m)) - 1)) + 0 * (safe_exp (v / (d_NR m * d_VT m)) - 1) + - d_IS m * (0 - 1))
      with (d_IS m * safe_exp (v / (d_N m * d_VT m))) by ring.
    assert (Q : 0 < d_IS m * safe_exp (v / (d_N m * d_VT m))) by (apply Rmult_lt_0_compat; assumption).
    assert (0 < - v * (d_IS m * safe_exp (v / (d_N m * d_VT m)))) by (apply Rmult_lt_0_compat; lra). lra.
Qed.
Print Assumptions C50_passive_refuted.

(** Up to that offset the diode is passive, whatever the parameters. *)
Theorem C50_passive_up_to_offset : forall m v, positive m -> 0 <= v * (junction_i m v - junction_i m 0).
Proof.
  intros m v P. destruct (Rle_lt_dec 0 v) as [H|H].
  - assert (K := C49_monotone m 0 v P H). apply Rmult_le_pos; lra.
  - assert (K := C49_monotone m v 0 P (Rlt_le _ _ H)).
    replace (v * (junction_i m v - junction_i m 0)) with (- v * (junction_i m 0 - junction_i m v)) by ring. apply Rmult_le_pos; lra.
Qed.
Print Assumptions C50_passive_up_to_offset.

(** At a bias that is not negative it is passive: the offset is not negative. *)
Theorem C50_forward : forall m v, positive m -> (forall bv, d_BV m = Some bv -> 0 <= bv) -> 0 <= v -> 0 <= v * junction_i m v.
Proof.
  intros m v P B H. assert (K := C49_monotone m 0 v P H).
  assert (Z : 0 <= junction_i m 0).
  { destruct P as (IS0 & N0 & NB0 & ISR0 & NR0 & VT0 & _). unfold junction_i.
    replace (0 / (d_N m * d_VT m)) with 0 by (unfold Rdiv; ring). replace (0 / (d_NR m * d_VT m)) with 0 by (unfold Rdiv; ring).
    rewrite (safe_exp_neg 0) by lra. rewrite exp_0.
    assert (R1 : rev_exp m (d_NBV m * d_VT m) 0 <= 1).
    { unfold rev_exp. destruct (d_BV m) as [bv|]; [|lra]. specialize (B bv eq_refl).
      assert (Q : 0 < d_NBV m * d_VT m) by (apply Rmult_lt_0_compat; assumption).
      assert (L : - (0 + bv) / (d_NBV m * d_VT m) <= 0).
      { apply Rmult_le_reg_r with (d_NBV m * d_VT m); [exact Q|]. unfold Rdiv. rewrite Rmult_assoc, Rinv_l, Rmult_0_l by lra. lra. }
      rewrite safe_exp_neg by lra. rewrite <- exp_0. destruct L as [L|L]; [left; apply exp_increasing; exact L|right; rewrite L; reflexivity]. }
    assert (0 <= d_IS m * (1 - rev_exp m (d_NBV m * d_VT m) 0)) by (apply Rmult_le_pos; lra).
    replace (1 - 1) with 0 by ring. rewrite !Rmult_0_r. lra. }
  apply Rmult_le_pos; lra.
Qed.
Print Assumptions C50_forward.

Definition ex_model : dmodel := mkDm 1 1 1 0 2 0 None None 3 0 0 300 1.
Example ex_positive : positive ex_model.
Proof. unfold positive, ex_model; simpl. lra. Qed.
Example C50_example : junction_i ex_model (-1) = exp (-1).
Proof.
  unfold junction_i, rev_exp, ex_model; simpl. replace (-1 / (1 * 1)) with (-1) by lra. replace (-1 / (2 * 1)) with (-(1/2)) by lra.
  rewrite !safe_exp_neg by lra. ring.
Qed.

(** * C88: series resistance *)

(** With a series resistance the reported current is the voltage across it divided
    by RS and by the area. *)
Theorem C88_series_actual : forall newton m dev v i dev',
  (forall f x0 x, newton f x0 = Ok x -> f x = 0) -> d_RS m <> 0 ->
  raw_i newton m dev v = Ok (i, dev') ->
  exists vd, v_last dev' = Some vd /\ vd / d_RS m = i * v_AREA dev /\ i = junction_i m (v - vd).
Proof.
  intros newton m dev v i dev' NW RS0 H. unfold raw_i in H. destruct (Req_b_spec (d_RS m) 0) as [N|_]; [contradiction|].
  destruct (newton _ _) as [vd|] eqn:E; [|discriminate]. simpl in H. injection H as <- <-. exists vd.
  apply NW in E. simpl. repeat split. lra.
Qed.
Print Assumptions C88_series_actual.

(** So the reported current is not the one that flows through RS unless the area is
    1. *)
Theorem C88_area_refuted : forall newton m dev v i dev',
  (forall f x0 x, newton f x0 = Ok x -> f x = 0) -> d_RS m <> 0 -> v_AREA dev <> 1 -> i <> 0 ->
  raw_i newton m dev v = Ok (i, dev') ->
  exists vd, v_last dev' = Some vd /\ vd / d_RS m <> i.
Proof.
  intros newton m dev v i dev' NW RS0 A I H. destruct (C88_series_actual newton m dev v i dev' NW RS0 H) as (vd & L & E & _).
  exists vd. split; [exact L|]. rewrite E. intros K. apply A. apply Rmult_eq_reg_l with i; [lra|exact I].
Qed.
Print Assumptions C88_area_refuted.

Theorem C88_unit_area : forall newton m dev v i dev',
  (forall f x0 x, newton f x0 = Ok x -> f x = 0) -> d_RS m <> 0 -> v_AREA dev = 1 ->
  raw_i newton m dev v = Ok (i, dev') -> i = junction_i m (v - d_RS m * i).
Proof.
  intros newton m dev v i dev' NW RS0 A H. destruct (C88_series_actual newton m dev v i dev' NW RS0 H) as (vd & _ & E & I).
  rewrite A, Rmult_1_r in E. assert (vd = d_RS m * i) by (rewrite <- E; field; exact RS0). subst vd. exact I.
Qed.
Print Assumptions C88_unit_area.

(** * C25 *)
Lemma memo_second : forall (f g : R -> res R) c v r c1 b, memo_call Req_b f None c v = (Ok r, c1, b) ->
  memo_call Req_b g None c1 v = (Ok r, c1, false).
Proof.
  intros f g c v r c1 b H. unfold memo_call in *. destruct (dget Req_b c v) as [w|] eqn:D.
  - injection H as <- <- _. rewrite D. reflexivity.
  - destruct (f v) as [w|]; [|discriminate]. injection H as <- <- _.
    rewrite (dget_dset Req_b Req_b_spec). destruct (Req_b_spec v v); [reflexivity|contradiction].
Qed.

(** After any temperature change, a voltage that was evaluated before gets the same
    current as before. *)
Theorem C25_stale_refuted : forall qk eg newton s v i s1 t,
  call_i qk eg newton None s v = (Ok i, s1) ->
  fst (call_i qk eg newton None (dev_set_temperature s1 t) v) = Ok i.
Proof.
  intros qk eg newton s v i s1 t H. unfold call_i in *.
  destruct (memo_call Req_b _ None (s_icache s) v) as [[r c] called] eqn:M. injection H as -> H.
  assert (C : s_icache s1 = c) by (rewrite <- H; destruct called; reflexivity).
  replace (s_icache (dev_set_temperature s1 t)) with c by (symmetry; exact C).
  rewrite (memo_second _ _ _ _ _ _ _ M). reflexivity.
Qed.
Print Assumptions C25_stale_refuted.

(** The currents at the two temperatures do differ: for a diode with the default
    breakdown and any energy gap, at every voltage. *)
Theorem C25_differ : forall qk eg m v t, positive m -> d_BV m = None -> d_IKF m = None -> d_ISR m = 0 -> d_XTI m = 0 ->
  0 < qk -> 0 < eg -> 0 < t -> t <> d_T m -> junction_i (set_temperature qk eg m t) v <> junction_i m v.
Proof.
  intros qk eg m v t (IS0 & N0 & NB0 & ISR0 & NR0 & VT0 & T0) BV IKF I0 X0 Q E T NE.
  assert (F : forall m', d_BV m' = None -> d_IKF m' = None -> d_ISR m' = 0 -> junction_i m' v = d_IS m' * safe_exp (v / (d_N m' * d_VT m'))).
  { intros m' B K I. unfold junction_i, rev_exp. rewrite B, K, I. ring. }
  rewrite (F m) by assumption. rewrite F; [|simpl; rewrite BV; reflexivity|exact IKF|exact I0]. simpl.
  assert (P := safe_exp_pos (v / (d_N m * d_VT m))). intros K.
  apply Rmult_eq_reg_r in K; [|intros Z0; lra]. rewrite X0 in K. replace (0 / d_N m) with 0 in K by (unfold Rdiv; ring).
  rewrite Rpower_O in K by (apply Rdiv_lt_0_compat; assumption). rewrite Rmult_1_r in K.
  assert (EX : exp (- qk * eg / (d_N m * t) * (1 - t / d_T m)) = exp 0) by (rewrite exp_0; apply Rmult_eq_reg_l with (d_IS m); [lra|intros Z0; lra]).
  apply exp_inv in EX. apply Rmult_integral in EX. destruct EX as [EX|EX].
  - assert (0 < qk * eg / (d_N m * t)) by (apply Rdiv_lt_0_compat; apply Rmult_lt_0_compat; assumption).
    replace (- qk * eg / (d_N m * t)) with (- (qk * eg / (d_N m * t))) in EX by (field; lra). lra.
  - apply NE. assert (t / d_T m = 1) by lra. apply Rmult_eq_reg_r with (/ d_T m); [|apply Rinv_neq_0_compat; intros Z0; lra].
    rewrite Rinv_r by (intros Z0; lra). exact H.
Qed.
Print Assumptions C25_differ.

(** A voltage that was not evaluated before gets a current for the temperature of
    the device, except that the thermal voltage is the one of the model when it was
    created. *)
Theorem C25_fresh_guarded : forall qk eg newton limit s v,
  dget Req_b (s_icache s) v = None ->
  exists m, d_T m = v_T (s_dev s) /\ d_VT m = d_VT (s_model s) /\
    fst (call_i qk eg newton limit s v) = bindr (raw_i newton m (s_dev s) v) (fun p => Ok (fst p)).
Proof.
  intros qk eg newton limit s v D. exists (sync qk eg (s_model s) (s_dev s)). split; [|split].
  - unfold sync. destruct (Req_b_spec (v_T (s_dev s)) (d_T (s_model s))) as [K|K]; [symmetry; exact K|reflexivity].
  - unfold sync. destruct (Req_b_spec (v_T (s_dev s)) (d_T (s_model s))) as [K|K]; reflexivity.
  - unfold call_i, memo_call. rewrite D.
    destruct (raw_i newton (sync qk eg (s_model s) (s_dev s)) (s_dev s) v) as [[i d]|e]; reflexivity.
Qed.
Print Assumptions C25_fresh_guarded.

(** * C89 *)

(** Once Newton's method for the series resistance has visited the junction voltage
    [w], the conductance reported for the port voltage [w] is the one without the
    series resistance. *)
Theorem C89_pollution_refuted : forall qk eg gmin s x vext,
  s_gcache s = [] -> v_T (s_dev s) = d_T (s_model s) -> d_RS (s_model s) <> 0 ->
  let w := vext - x in
  let s1 := snd (obj_irs_prime qk eg gmin None s x vext) in
  fst (call_gm qk eg gmin None s1 w) = Ok (v_AREA (s_dev s) * junction_gm (s_model s) w) /\
  fst (call_gm qk eg gmin None s w) = Ok (v_AREA (s_dev s) * (1 / (d_RS (s_model s) + 1 / (junction_gm (s_model s) w + 1 / 1000 * gmin)))).
Proof.
  intros qk eg gmin s x vext GC T RS0 w s1.
  assert (SY : forall m, d_T m = v_T (s_dev s) -> sync qk eg m (s_dev s) = m).
  { intros m E. unfold sync. destruct (Req_b_spec (v_T (s_dev s)) (d_T m)); congruence. }
  split.
  - unfold s1, obj_irs_prime, call_gm at 2. cbn [s_model s_dev s_gcache s_icache]. rewrite GC.
    rewrite SY by (simpl; symmetry; exact T). fold w. unfold memo_call. cbn [dget].
    cbn [snd s_dev s_model s_gcache s_icache fst]. unfold call_gm. cbn [s_gcache s_model s_dev s_icache dset].
    unfold memo_call. cbn [dget]. destruct (Req_b_spec w w) as [_|N]; [|contradiction]. cbn [fst].
    unfold raw_gm. cbn [d_RS without_RS]. destruct (Req_b_spec 0 0) as [_|N]; [|contradiction]. reflexivity.
  - unfold call_gm. rewrite GC, SY by (symmetry; exact T). unfold memo_call. cbn [dget fst]. unfold raw_gm.
    destruct (Req_b_spec (d_RS (s_model s)) 0) as [N|_]; [contradiction|]. reflexivity.
Qed.
Print Assumptions C89_pollution_refuted.

(** The parameters of the model are the same afterwards. *)
Theorem C89_parameters_kept : forall qk eg gmin limit s x vext,
  s_model (snd (obj_irs_prime qk eg gmin limit s x vext)) = s_model s /\
  s_dev (snd (obj_irs_prime qk eg gmin limit s x vext)) = s_dev s.
Proof.
  intros. unfold obj_irs_prime, call_gm. destruct (memo_call _ _ _ _ _) as [[r c] called]. split; reflexivity.
Qed.
Print Assumptions C89_parameters_kept.

(** Without a series resistance every reported conductance is the junction
    conductance, whatever was evaluated before at that temperature. *)
Definition clean (gmin : R) (s : dstate) : Prop := forall v g, dget Req_b (s_gcache s) v = Some g -> g = raw_gm gmin (s_model s) (s_dev s) v.
Theorem C89_no_series : forall qk eg gmin limit s v, v_T (s_dev s) = d_T (s_model s) -> clean gmin s ->
  fst (call_gm qk eg gmin limit s v) = Ok (raw_gm gmin (s_model s) (s_dev s) v).
Proof.
  intros qk eg gmin limit s v T C. unfold call_gm.
  assert (SY : sync qk eg (s_model s) (s_dev s) = s_model s).
  { unfold sync. destruct (Req_b_spec (v_T (s_dev s)) (d_T (s_model s))); congruence. }
  rewrite SY. unfold memo_call. destruct (dget Req_b (s_gcache s) v) as [g|] eqn:D; [|reflexivity].
  simpl. rewrite (C v g D). reflexivity.
Qed.
Print Assumptions C89_no_series.

(** * C93 *)

(** Saturation current and breakdown voltage depend on the temperature only, not on
    the temperatures visited in between; the same holds for the way back. *)
Theorem C93_path_independent : forall qk eg m t1 t2, positive m -> 0 < t1 -> 0 < t2 ->
  d_IS (set_temperature qk eg (set_temperature qk eg m t1) t2) = d_IS (set_temperature qk eg m t2) /\
  d_BV (set_temperature qk eg (set_temperature qk eg m t1) t2) = d_BV (set_temperature qk eg m t2).
Proof.
  intros qk eg m t1 t2 (IS0 & N0 & NB0 & ISR0 & NR0 & VT0 & T0) P1 P2. simpl. split.
  - set (e := d_XTI m / d_N m).
    replace (d_IS m * Rpower (t1 / d_T m) e * exp (- qk * eg / (d_N m * t1) * (1 - t1 / d_T m)) * Rpower (t2 / t1) e *
             exp (- qk * eg / (d_N m * t2) * (1 - t2 / t1)))
      with (d_IS m * (Rpower (t1 / d_T m) e * Rpower (t2 / t1) e) *
            (exp (- qk * eg / (d_N m * t1) * (1 - t1 / d_T m)) * exp (- qk * eg / (d_N m * t2) * (1 - t2 / t1)))) by ring.
    rewrite <- exp_plus, Rpower_mult_distr by (apply Rdiv_lt_0_compat; assumption).
    replace (t1 / d_T m * (t2 / t1)) with (t2 / d_T m) by (field; lra).
    f_equal. f_equal. field. repeat split; lra.
  - destruct (d_BV m) as [bv|]; [|reflexivity]. f_equal. ring.
Qed.
Print Assumptions C93_path_independent.

(** The series resistance does depend on the way: going away and coming back
    changes it. *)
Theorem C93_RS_refuted : forall qk eg m t, d_RS m <> 0 -> d_TRS m <> 0 -> t <> d_T m ->
  d_RS (set_temperature qk eg (set_temperature qk eg m t) (d_T m)) <> d_RS m.
Proof.
  intros qk eg m t RS0 TR NE. simpl. intros K.
  replace (d_RS m * (1 + d_TRS m * (t - d_T m)) * (1 + d_TRS m * (d_T m - t)))
    with (d_RS m - d_RS m * ((d_TRS m * (t - d_T m)) * (d_TRS m * (t - d_T m)))) in K by ring.
  assert (Z : d_RS m * ((d_TRS m * (t - d_T m)) * (d_TRS m * (t - d_T m))) = 0) by lra.
  apply Rmult_integral in Z. destruct Z as [Z|Z]; [contradiction|]. apply Rmult_integral in Z.
  assert (Y : d_TRS m * (t - d_T m) = 0) by (destruct Z; assumption). apply Rmult_integral in Y. destruct Y as [Y|Y]; [contradiction|].
  apply NE. lra.
Qed.
Print Assumptions C93_RS_refuted.

(** The thermal voltage never changes. *)
Theorem C93_VT_refuted : forall qk eg m t, d_VT (set_temperature qk eg m t) = d_VT m /\ d_T (set_temperature qk eg m t) = t.
Proof. intros. split; reflexivity. Qed.
Print Assumptions C93_VT_refuted.

(** * Concrete cases *)
Definition ex_rs : dmodel := mkDm 1 1 1 0 2 1 None None 0 0 (1/100) 300 1.
Lemma ex_rs_i0 : junction_i ex_rs 0 = 1.
Proof.
  unfold junction_i, rev_exp, ex_rs; simpl. replace (0 / (1 * 1)) with 0 by lra. replace (0 / (2 * 1)) with 0 by lra.
  rewrite !safe_exp_neg by lra. rewrite exp_0. ring.
Qed.
(** Two diodes in parallel (AREA = 2) behind 1 ohm at 2 V: 2 A flow through the
    resistance, 1 A is reported. *)
Example C88_example : raw_i (fun _ _ => Ok 2) ex_rs (mkDev 2 300 None) 2 = Ok (1, mkDev 2 300 (Some 2)) /\
  2 / d_RS ex_rs - junction_i ex_rs (2 - 2) * 2 = 0.
Proof.
  replace (2 - 2) with 0 by ring. rewrite ex_rs_i0. split; [|unfold ex_rs; simpl; lra].
  unfold raw_i. destruct (Req_b_spec (d_RS ex_rs) 0) as [K|_]; [unfold ex_rs in K; simpl in K; lra|].
  simpl. replace (2 - 2) with 0 by ring. rewrite ex_rs_i0. reflexivity.
Qed.
Example C89_example :
  let s := mkSt ex_rs (mkDev 1 300 None) [] [] in
  fst (call_gm 1 1 0 None (snd (obj_irs_prime 1 1 0 None s 1 1)) (1 - 1)) = Ok 1 /\
  fst (call_gm 1 1 0 None s (1 - 1)) = Ok (1 / 2).
Proof.
  intros s. assert (N : d_RS (s_model s) <> 0) by (unfold s, ex_rs; simpl; lra).
  destruct (C89_pollution_refuted 1 1 0 s 1 1 eq_refl eq_refl N) as [A B]. rewrite A, B.
  assert (G : junction_gm (s_model s) (1 - 1) = 1).
  { unfold s, junction_gm, rev_exp, ex_rs; simpl. replace ((1 - 1) / (1 * 1)) with 0 by lra. replace ((1 - 1) / (2 * 1)) with 0 by lra.
    rewrite safe_exp_neg by lra. rewrite exp_0. field. }
  rewrite G. unfold s, ex_rs; simpl. split; f_equal; field.
Qed.
Example C25_example : forall t newton,
  let s := mkSt ex_model (mkDev 1 300 None) [] [] in
  let s1 := snd (call_i 1 1 newton None s 0) in
  fst (call_i 1 1 newton None (dev_set_temperature s1 t) 0) = Ok 1.
Proof.
  intros t newton s s1. destruct (call_i 1 1 newton None s 0) as [r s2] eqn:E.
  assert (r = Ok 1).
  { unfold call_i, memo_call in E. cbn [s_icache s dget] in E. unfold sync in E. cbn [s_dev s_model s v_T ex_model d_T] in E.
    destruct (Req_b_spec 300 300) as [_|K]; [|contradiction]. unfold raw_i in E. cbn [d_RS ex_model] in E.
    destruct (Req_b_spec 0 0) as [_|K]; [|contradiction]. cbn [bindr fst v_AREA] in E. injection E as <- _. f_equal.
    destruct (C50_passive_refuted ex_model 0 ex_positive eq_refl eq_refl eq_refl) as [K _]. unfold ex_model in *. rewrite K. simpl. ring. }
  subst r. unfold s1. exact (C25_stale_refuted 1 1 newton s 0 1 s2 t E).
Qed.
Example C93_example : d_RS (set_temperature 1 1 (set_temperature 1 1 ex_rs 310) 300) = 99 / 100.
Proof. unfold ex_rs; simpl. field. Qed.
