(** Property theorems about the square-law MOS transistor (C51, C52, C90, C96, C97). *)
From Coq Require Import Reals List Bool Arith Lia Lra.
From Verif Require Import Base Newton NewtonFacts Diode PropsDiode Deriv Mosq.
Import ListNotations.
Open Scope R_scope.

Definition is_type (m : qmodel) : Prop := q_NP m = 1 \/ q_NP m = -1.
Definition sized (d : qdev) : Prop := 0 < t_W d /\ 0 < t_L d /\ 0 < t_M d /\ 0 < t_N d.

(** * C51: symmetry *)

(** The same device seen with drain and source exchanged. *)
Definition exchange (b : bias) : bias := let '(vds, vgs, vbs) := b in (- vds, vgs - vds, vbs - vds).
Definition negate (b : bias) : bias := let '(vds, vgs, vbs) := b in (- vds, - vgs, - vbs).

Theorem C51_symmetric : forall iea m d vds vgs vbs, is_type m -> vds <> 0 ->
  terminal_i iea m d (exchange (vds, vgs, vbs)) = - terminal_i iea m d (vds, vgs, vbs).
Proof.
  intros iea m d vds vgs vbs TY NZ. unfold terminal_i, exchange, get_voltages.
  destruct TY as [T|T]; rewrite T.
  - destruct (Rlt_b (vds * 1) 0) eqn:A; destruct (Rlt_b (- vds * 1) 0) eqn:B;
      repeat match goal with K : Rlt_b _ _ = true |- _ => apply Rlt_b_true in K | K : Rlt_b _ _ = false |- _ => apply Rlt_b_false in K end; try lra.
    + replace (- vds * 1) with (- (vds * 1)) by ring. replace ((vgs - vds) * 1) with (vgs * 1 - vds * 1) by ring.
      replace ((vbs - vds) * 1) with (vbs * 1 - vds * 1) by ring. ring.
    + replace (- (- vds * 1)) with (vds * 1) by ring. replace ((vgs - vds) * 1 - - vds * 1) with (vgs * 1) by ring.
      replace ((vbs - vds) * 1 - - vds * 1) with (vbs * 1) by ring. ring.
  - destruct (Rlt_b (vds * -1) 0) eqn:A; destruct (Rlt_b (- vds * -1) 0) eqn:B;
      repeat match goal with K : Rlt_b _ _ = true |- _ => apply Rlt_b_true in K | K : Rlt_b _ _ = false |- _ => apply Rlt_b_false in K end; try lra.
    + replace (- vds * -1) with (- (vds * -1)) by ring. replace ((vgs - vds) * -1) with (vgs * -1 - vds * -1) by ring.
      replace ((vbs - vds) * -1) with (vbs * -1 - vds * -1) by ring. ring.
    + replace (- (- vds * -1)) with (vds * -1) by ring. replace ((vgs - vds) * -1 - - vds * -1) with (vgs * -1) by ring.
      replace ((vbs - vds) * -1 - - vds * -1) with (vbs * -1) by ring. ring.
Qed.
Print Assumptions C51_symmetric.

(** At vds = 0 it fails in cutoff: a current flows between two nodes of equal
    voltage, in the same direction whatever their names. *)
Theorem C51_zero_bias_refuted : forall iea m d vgs vbs, is_type m -> sized d -> 0 < iea ->
  let VT := get_VT m d (vbs * q_NP m) in
  vgs * q_NP m < VT -> VT <> 0 -> vgs <> 0 ->
  terminal_i iea m d (0, vgs, vbs) <> 0 /\
  terminal_i iea m d (exchange (0, vgs, vbs)) = terminal_i iea m d (0, vgs, vbs).
Proof.
  intros iea m d vgs vbs TY (W & L & M & N) I VT OFF V0 G0.
  assert (E : exchange (0, vgs, vbs) = (0, vgs, vbs)).
  { unfold exchange. replace (-0) with 0 by ring. rewrite !Rminus_0_r. reflexivity. }
  split; [|rewrite E; reflexivity].
  unfold terminal_i, get_voltages. replace (0 * q_NP m) with 0 by ring.
  assert (Z : Rlt_b 0 0 = false) by (apply Rlt_b_false; lra). rewrite Z. unfold get_ids. fold VT.
  apply Rlt_b_true in OFF. rewrite OFF.
  assert (NP : q_NP m <> 0) by (destruct TY as [K|K]; rewrite K; lra).
  replace (1 * (q_NP m * t_M d / t_N d * (iea * (vgs * q_NP m / VT + 0 / VT) / 100)))
    with (q_NP m * q_NP m * (t_M d / t_N d) * iea * vgs * / VT * / 100) by (unfold Rdiv; ring).
  assert (MN : t_M d / t_N d <> 0) by (intros K; assert (0 < t_M d / t_N d) by (apply Rdiv_lt_0_compat; assumption); lra).
  repeat apply Rmult_integral_contrapositive_currified; try assumption; try (apply Rinv_neq_0_compat; assumption); try (apply Rinv_neq_0_compat; lra); intros K; lra.
Qed.
Print Assumptions C51_zero_bias_refuted.

(** In conduction no current flows at vds = 0. *)
Theorem C51_zero_bias_on : forall iea m d vgs vbs, 0 <= q_LAMBDA m ->
  let u := vgs * q_NP m - get_VT m d (vbs * q_NP m) in
  0 < u -> q_LAMBDA m * u < 2 -> terminal_i iea m d (0, vgs, vbs) = 0.
Proof.
  intros iea m d vgs vbs L0 u U LU. unfold terminal_i, get_voltages. replace (0 * q_NP m) with 0 by ring.
  assert (Z : Rlt_b 0 0 = false) by (apply Rlt_b_false; lra). rewrite Z. unfold get_ids. set (VT := get_VT m d (vbs * q_NP m)) in *.
  assert (A : Rlt_b (vgs * q_NP m) VT = false) by (apply Rlt_b_false; unfold u in U; lra). rewrite A.
  assert (B : Rlt_b 0 (vgs * q_NP m - VT - 1 / 2 * q_LAMBDA m * (VT - vgs * q_NP m) ^ 2) = true).
  { apply Rlt_b_true. fold u. replace ((VT - vgs * q_NP m) ^ 2) with (u * u) by (unfold u; ring).
    assert (q_LAMBDA m * u * u < 2 * u) by (apply Rmult_lt_compat_r; lra). lra. }
  rewrite B. ring.
Qed.
Print Assumptions C51_zero_bias_on.

(** n and p devices with the same internal parameters are mirror images. *)
Definition complement (m : qmodel) : qmodel := mkQ (- q_NP m) (q_VTO m) (q_GAMMA m) (q_PHI m) (q_KP m) (q_LAMBDA m) (q_AVT m) (q_AKP m).
Theorem C51_mirror : forall iea m d b, terminal_i iea (complement m) d (negate b) = - terminal_i iea m d b.
Proof.
  intros iea m d [[vds vgs] vbs]. unfold terminal_i, negate, get_voltages. cbn [complement q_NP].
  replace (- vds * - q_NP m) with (vds * q_NP m) by ring. replace (- vgs * - q_NP m) with (vgs * q_NP m) by ring.
  replace (- vbs * - q_NP m) with (vbs * q_NP m) by ring.
  assert (E : forall b, get_ids iea (complement m) d b = - get_ids iea m d b).
  { intros [[a b] c]. unfold get_ids, get_VT, svt, skp, sq1, sq2. cbn [complement q_NP q_VTO q_GAMMA q_PHI q_KP q_LAMBDA q_AVT q_AKP].
    set (X := if Rlt_b b _ then _ else _). unfold Rdiv. ring. }
  destruct (Rlt_b (vds * q_NP m) 0); rewrite E; ring.
Qed.
Print Assumptions C51_mirror.

(** * C51: smoothness and gmd *)
Definition beta (m : qmodel) (d : qdev) : R := (skp m d + 1) * q_KP m * t_W d / t_L d.

(** The current above threshold as a function of vds: two polynomials. *)
Definition ohmic (k u x : R) : R := k * (u * x - 1/2 * x ^ 2).
Definition satur (k lam u x : R) : R := k * (1/2) * u ^ 2 * (1 + lam * (x - u + 1/4 * lam * u ^ 2)).
Lemma ids_on : forall iea m d vds vgs vbs, let u := vgs - get_VT m d vbs in 0 <= u ->
  get_ids iea m d (vds, vgs, vbs) = q_NP m * t_M d / t_N d *
    (if Rlt_b vds (u - 1/2 * q_LAMBDA m * u ^ 2) then ohmic (beta m d) u vds else satur (beta m d) (q_LAMBDA m) u vds).
Proof.
  intros iea m d vds vgs vbs u U. unfold get_ids. set (VT := get_VT m d vbs) in *.
  assert (A : Rlt_b vgs VT = false) by (apply Rlt_b_false; unfold u in U; lra). rewrite A.
  replace (vgs - VT - 1 / 2 * q_LAMBDA m * (VT - vgs) ^ 2) with (u - 1 / 2 * q_LAMBDA m * u ^ 2) by (unfold u; ring).
  destruct (Rlt_b vds (u - 1 / 2 * q_LAMBDA m * u ^ 2)); f_equal; unfold ohmic, satur, beta, u, Rdiv; ring.
Qed.

Lemma ohmic_d : forall k u x, derivable_pt_lim (ohmic k u) x (k * (u - x)).
Proof.
  intros k u x. eapply dlim_eq; [|eapply dlim_ext; [|exact (dlim_poly2 (- (1/2) * k) (k * u) 0 x)]].
  - field.
  - intros y. unfold ohmic. field.
Qed.
Lemma satur_d : forall k lam u x, derivable_pt_lim (satur k lam u) x (1/2 * k * lam * u ^ 2).
Proof.
  intros k lam u x. eapply dlim_eq; [|eapply dlim_ext; [|exact (dlim_poly2 0 (1/2 * k * lam * u ^ 2) (k * (1/2) * u ^ 2 * (1 + lam * (- u + 1/4 * lam * u ^ 2))) x)]].
  - ring.
  - intros y. unfold satur. ring.
Qed.
Lemma branches_d : forall k lam u x, let b := u - 1/2 * lam * u ^ 2 in
  derivable_pt_lim (fun y => if Rlt_b y b then ohmic k u y else satur k lam u y) x (if Rlt_b x b then k * (u - x) else 1/2 * k * lam * u ^ 2).
Proof.
  intros k lam u x b. destruct (Rtotal_order x b) as [H|[H|H]].
  - assert (A : Rlt_b x b = true) by (apply Rlt_b_true; exact H). rewrite A.
    apply dlim_near with (f := ohmic k u) (r := b - x); [lra| |apply ohmic_d].
    intros y Y. assert (B : Rlt_b y b = true) by (apply Rlt_b_true; assert (K := Rle_abs (y - x)); lra). rewrite B. reflexivity.
  - subst x. assert (A : Rlt_b b b = false) by (apply Rlt_b_false; lra). rewrite A.
    apply dlim_glue; [|eapply dlim_eq; [|apply ohmic_d]; unfold b; field|apply satur_d].
    unfold ohmic, satur, b. field.
  - assert (A : Rlt_b x b = false) by (apply Rlt_b_false; lra). rewrite A.
    apply dlim_near with (f := satur k lam u) (r := x - b); [lra| |apply satur_d].
    intros y Y. assert (B : Rlt_b y b = false) by (apply Rlt_b_false; assert (K := Rle_abs (- (y - x))); rewrite Rabs_Ropp in K; lra). rewrite B. reflexivity.
Qed.

(** Above threshold the reported gmd is the derivative of the terminal current with
    respect to the drain-source voltage, in the ohmic region, in saturation and at
    the boundary: the current and its slope are continuous there. *)
Theorem C51_gmd_derivative : forall iea m d vds vgs vbs, is_type m -> 0 < vds * q_NP m ->
  get_VT m d (vbs * q_NP m) <= vgs * q_NP m ->
  derivable_pt_lim (fun x => terminal_i iea m d (x, vgs, vbs)) vds (get_gmd iea m d (fst (get_voltages m (vds, vgs, vbs)))).
Proof.
  intros iea m d vds vgs vbs TY P ON.
  assert (NP2 : q_NP m * q_NP m = 1) by (destruct TY as [K|K]; rewrite K; ring).
  set (NP := q_NP m) in *. set (u := vgs * NP - get_VT m d (vbs * NP)).
  set (b := u - 1/2 * q_LAMBDA m * u ^ 2).
  set (f := fun y => if Rlt_b y b then ohmic (beta m d) u y else satur (beta m d) (q_LAMBDA m) u y).
  assert (D := branches_d (beta m d) (q_LAMBDA m) u (NP * vds)). fold b in D. fold f in D.
  apply dlim_scale_arg in D. apply (dlim_mult_const _ (NP * t_M d / t_N d)) in D.
  apply dlim_near with (f := fun y => NP * t_M d / t_N d * f (NP * y)) (r := Rabs vds).
  - apply Rabs_pos_lt. intros K. rewrite K in P. lra.
  - intros y Y. assert (PY : 0 < y * NP).
    { unfold NP in *. destruct TY as [K|K]; rewrite K in *.
      - rewrite (Rabs_pos_eq vds) in Y by lra. apply Rabs_def2 in Y. lra.
      - rewrite (Rabs_left vds) in Y by lra. apply Rabs_def2 in Y. lra. }
    unfold terminal_i, get_voltages. fold NP. assert (A : Rlt_b (y * NP) 0 = false) by (apply Rlt_b_false; lra). rewrite A.
    rewrite ids_on by (unfold u; lra). fold u. fold b. fold NP. unfold f. rewrite (Rmult_comm y NP). ring.
  - eapply dlim_eq; [|exact D]. unfold get_voltages. fold NP. assert (A : Rlt_b (vds * NP) 0 = false) by (apply Rlt_b_false; lra). rewrite A.
    cbn [fst]. unfold get_gmd. set (VT := get_VT m d (vbs * NP)) in *.
    assert (B : Rlt_b (vgs * NP) VT = false) by (apply Rlt_b_false; lra). rewrite B.
    replace (vgs * NP - VT - 1 / 2 * q_LAMBDA m * (VT - vgs * NP) ^ 2) with b by (unfold b, u; ring). rewrite (Rmult_comm vds NP).
    match goal with |- ?c * (NP * ?x) = _ => replace (c * (NP * x)) with ((NP * NP) * (t_M d / t_N d * x)) by (unfold Rdiv; ring) end.
    rewrite NP2. destruct (Rlt_b (NP * vds) b); unfold beta, u, Rdiv; ring.
Qed.
Print Assumptions C51_gmd_derivative.

(** In cutoff too, without Monte Carlo variations. *)
Theorem C51_gmd_cutoff : forall iea m d vds vgs vbs, is_type m -> t_mc d = None -> 0 < vds * q_NP m ->
  vgs * q_NP m < get_VT m d (vbs * q_NP m) -> get_VT m d (vbs * q_NP m) <> 0 ->
  derivable_pt_lim (fun x => terminal_i iea m d (x, vgs, vbs)) vds (get_gmd iea m d (fst (get_voltages m (vds, vgs, vbs)))).
Proof.
  intros iea m d vds vgs vbs TY MC P OFF VT0.
  assert (NP2 : q_NP m * q_NP m = 1) by (destruct TY as [K|K]; rewrite K; ring).
  set (NP := q_NP m) in *. set (VT := get_VT m d (vbs * NP)) in *. assert (OFF2 := OFF). apply Rlt_b_true in OFF2.
  apply dlim_near with (f := fun y => 0 * (y * y) + (NP * NP * (t_M d / t_N d) * (iea / VT / 100)) * y + NP * t_M d / t_N d * (iea * (vgs * NP / VT) / 100)) (r := Rabs vds).
  - apply Rabs_pos_lt. intros K. rewrite K in P. lra.
  - intros y Y. assert (PY : 0 < y * NP).
    { unfold NP in *. destruct TY as [K|K]; rewrite K in *.
      - rewrite (Rabs_pos_eq vds) in Y by lra. apply Rabs_def2 in Y. lra.
      - rewrite (Rabs_left vds) in Y by lra. apply Rabs_def2 in Y. lra. }
    unfold terminal_i, get_voltages. fold NP. assert (A : Rlt_b (y * NP) 0 = false) by (apply Rlt_b_false; lra). rewrite A.
    unfold get_ids. fold VT. rewrite OFF2. fold NP. unfold Rdiv. ring.
  - eapply dlim_eq; [|apply dlim_poly2]. unfold get_voltages. fold NP. assert (A : Rlt_b (vds * NP) 0 = false) by (apply Rlt_b_false; lra). rewrite A.
    cbn [fst]. unfold get_gmd. fold VT. rewrite OFF2. unfold skp. rewrite MC. rewrite NP2. unfold Rdiv. ring.
Qed.
Print Assumptions C51_gmd_cutoff.

(** Across the threshold the current is not continuous: it drops to zero when the
    device turns on. *)
Theorem C51_threshold_jump_refuted : forall iea m d vds vbs, q_NP m = 1 -> sized d -> 0 < iea -> 0 < vds -> 0 <= q_LAMBDA m -> 0 < q_KP m -> t_mc d = None ->
  let VT := get_VT m d vbs in 0 < VT ->
  get_ids iea m d (vds, VT, vbs) = 0 /\
  forall vgs, 0 <= vgs < VT -> t_M d / t_N d * (iea * (vds / VT) / 100) <= get_ids iea m d (vds, vgs, vbs).
Proof.
  intros iea m d vds vbs NP (W & L & M & N) I V LA K MC VT P. split.
  - unfold VT. rewrite ids_on by lra. replace (get_VT m d vbs - get_VT m d vbs) with 0 by ring.
    replace (0 - 1 / 2 * q_LAMBDA m * 0 ^ 2) with 0 by ring. assert (A : Rlt_b vds 0 = false) by (apply Rlt_b_false; lra). rewrite A.
    unfold satur. ring.
  - intros vgs G. unfold get_ids. fold VT. destruct G as [G0 G]. apply Rlt_b_true in G. rewrite G, NP.
    replace (1 * t_M d / t_N d * (iea * (vgs / VT + vds / VT) / 100)) with (t_M d / t_N d * (iea * (vds / VT) / 100) + t_M d / t_N d * (iea * vgs * / VT * / 100)) by (unfold Rdiv; ring).
    assert (0 <= t_M d / t_N d * (iea * vgs * / VT * / 100)); [|lra].
    apply Rmult_le_pos; [left; apply Rdiv_lt_0_compat; assumption|].
    apply Rmult_le_pos; [apply Rmult_le_pos; [apply Rmult_le_pos; lra|left; apply Rinv_0_lt_compat; exact P]|lra].
Qed.
Print Assumptions C51_threshold_jump_refuted.

(** * C52 *)
Definition sigma (i : nat) : nat := match i with 0 => 2 | 2 => 0 | _ => i end%nat.

(** In forward operation the stamp is the normal one; its rows and columns sum to
    zero. *)
Theorem C52_forward : forall iea gmin m d vds vgs vbs, 0 <= vds * q_NP m ->
  let s := gstamp iea gmin m d (vds, vgs, vbs) in
  (forall i, s i 0%nat + s i 1%nat + s i 2%nat + s i 3%nat = 0) /\ (forall j, s 0%nat j + s 1%nat j + s 2%nat j + s 3%nat j = 0).
Proof.
  intros iea gmin m d vds vgs vbs P s. unfold s, gstamp, get_voltages.
  assert (A : Rlt_b (vds * q_NP m) 0 = false) by (apply Rlt_b_false; exact P). rewrite A.
  set (g1 := nz _ _). set (g2 := nz _ _). set (g3 := nz _ _). split.
  - intros [|[|[|i]]]; cbn; ring.
  - intros [|[|[|[|j]]]]; cbn; ring.
Qed.
Print Assumptions C52_forward.

(** In reverse operation it is never the normal stamp with rows and columns
    exchanged: the gate entries vanish. *)
Theorem C52_reverse_refuted : forall iea gmin m d vds vgs vbs, 0 < gmin -> vds * q_NP m < 0 ->
  let sw := fst (get_voltages m (vds, vgs, vbs)) in
  let normal := forward_stamp (nz (get_gmd iea m d sw) (gmin * 2)) (nz (get_gm iea m d sw) (gmin * 2)) (nz (get_gmb m d sw) (-2 * gmin)) in
  gstamp iea gmin m d (vds, vgs, vbs) 0%nat 1%nat = 0 /\ normal (sigma 0) (sigma 1) <> 0 /\
  gstamp iea gmin m d (vds, vgs, vbs) 0%nat 0%nat = 0.
Proof.
  intros iea gmin m d vds vgs vbs G P sw normal. unfold gstamp, sw, get_voltages in *.
  assert (A : Rlt_b (vds * q_NP m) 0 = true) by (apply Rlt_b_true; exact P). unfold normal, sw, get_voltages. rewrite A. cbn [T12 fst sigma forward_stamp].
  split; [ring|]. split; [|ring]. set (g := get_gm iea m d _). unfold nz. destruct (Req_b_spec g 0) as [E|E]; lra.
Qed.
Print Assumptions C52_reverse_refuted.

(** The columns do not even sum to zero: charge is created. *)
Theorem C52_reverse_columns_refuted : forall iea gmin m d vds vgs vbs, 0 < gmin -> vds * q_NP m < 0 ->
  let s := gstamp iea gmin m d (vds, vgs, vbs) in
  s 0%nat 0%nat + s 1%nat 0%nat + s 2%nat 0%nat + s 3%nat 0%nat <> 0.
Proof.
  intros iea gmin m d vds vgs vbs G P s. unfold s, gstamp, get_voltages.
  assert (A : Rlt_b (vds * q_NP m) 0 = true) by (apply Rlt_b_true; exact P). rewrite A. cbn [T12 forward_stamp].
  set (g := get_gmd iea m d _). unfold nz. destruct (Req_b_spec g 0) as [E|E]; lra.
Qed.
Print Assumptions C52_reverse_columns_refuted.

(** * C90 *)
Lemma cube_d : forall a b c e x, derivable_pt_lim (fun y => a * (y * y * y * y) + b * (y * y * y) + c * (y * y) + e * y) x (4 * a * (x * x * x) + 3 * b * (x * x) + 2 * c * x + e).
Proof.
  intros a b c e x.
  assert (I := derivable_pt_lim_id x).
  assert (I2 := derivable_pt_lim_mult id id x 1 1 I I).
  assert (I3 := derivable_pt_lim_mult _ id x _ 1 I2 I).
  assert (I4 := derivable_pt_lim_mult _ id x _ 1 I3 I).
  assert (D := derivable_pt_lim_plus _ _ x _ _ (derivable_pt_lim_plus _ _ x _ _ (derivable_pt_lim_plus _ _ x _ _
     (derivable_pt_lim_scal _ a x _ I4) (derivable_pt_lim_scal _ b x _ I3)) (derivable_pt_lim_scal _ c x _ I2)) (derivable_pt_lim_scal id e x 1 I)).
  unfold plus_fct, mult_real_fct, mult_fct, id in D. eapply dlim_eq; [|exact D]. ring.
Qed.
Lemma dlim_shift : forall f k x l, derivable_pt_lim f (x - k) l -> derivable_pt_lim (fun y => f (y - k)) x l.
Proof.
  intros f k x l D eps E. destruct (D eps E) as [d Hd]. exists d. intros h H0 H1. replace (x + h - k) with (x - k + h) by ring. apply Hd; assumption.
Qed.

(** In the ohmic region of an n device gm is the derivative with respect to the gate
    voltage. *)
Theorem C90_gm_ohmic : forall iea m d vds vgs vbs, q_NP m = 1 -> 0 <= q_LAMBDA m ->
  let u := vgs - get_VT m d vbs in
  0 < u -> vds < u - 1/2 * q_LAMBDA m * u ^ 2 ->
  derivable_pt_lim (fun x => get_ids iea m d (vds, x, vbs)) vgs (get_gm iea m d (vds, vgs, vbs)).
Proof.
  intros iea m d vds vgs vbs NP LA u U V. set (VT := get_VT m d vbs) in *.
  set (F := fun y => (y - VT) - 1/2 * q_LAMBDA m * (y - VT) ^ 2 - vds).
  assert (CF : continuity_pt F vgs).
  { apply derivable_continuous_pt. exists (-q_LAMBDA m * vgs + (1 + q_LAMBDA m * VT)).
    eapply dlim_eq; [|eapply dlim_ext; [|exact (dlim_poly2 (- (1/2) * q_LAMBDA m) (1 + q_LAMBDA m * VT) (- VT - 1/2 * q_LAMBDA m * VT * VT - vds) vgs)]].
    - field.
    - intros y. unfold F. field. }
  assert (F0 : 0 < F vgs) by (unfold F; fold u; lra).
  destruct (CF (F vgs) F0) as (r & Hr & Cr). 
  apply dlim_near with (f := fun y => 0 * (y * y) + (t_M d / t_N d * beta m d * vds) * y + t_M d / t_N d * beta m d * (- VT * vds - 1/2 * vds ^ 2)) (r := Rmin r u).
  - apply Rmin_glb_lt; assumption.
  - intros y Y. assert (Y1 : Rabs (y - vgs) < r) by (eapply Rlt_le_trans; [exact Y|apply Rmin_l]).
    assert (Y2 : Rabs (y - vgs) < u) by (eapply Rlt_le_trans; [exact Y|apply Rmin_r]). apply Rabs_def2 in Y2.
    assert (FY : 0 < F y).
    { destruct (Req_dec y vgs) as [->|NE]; [exact F0|].
      assert (K := Cr y). simpl in K. unfold R_dist in K. specialize (K (conj (conj I (not_eq_sym NE)) Y1)). apply Rabs_def2 in K. lra. }
    rewrite ids_on by (fold VT; unfold u in Y2; lra). fold VT.
    assert (B : Rlt_b vds (y - VT - 1 / 2 * q_LAMBDA m * (y - VT) ^ 2) = true) by (apply Rlt_b_true; unfold F in FY; lra).
    rewrite B, NP. unfold ohmic, Rdiv. ring.
  - eapply dlim_eq; [|apply dlim_poly2]. unfold get_gm. fold VT.
    assert (A : Rlt_b vgs VT = false) by (apply Rlt_b_false; unfold u in U; lra). rewrite A.
    assert (B : Rlt_b vds (vgs - VT) = true).
    { apply Rlt_b_true. fold u. assert (0 <= q_LAMBDA m * u ^ 2) by (apply Rmult_le_pos; [exact LA|apply pow2_ge_0]). lra. }
    rewrite B. unfold beta, Rdiv. ring.
Qed.
Print Assumptions C90_gm_ohmic.

(** In saturation the derivative is larger than gm by beta lambda^2 u^3 / 2. *)
Theorem C90_gm_saturation : forall iea m d vds vgs vbs, q_NP m = 1 -> t_mc d = None -> 0 < q_LAMBDA m ->
  let u := vgs - get_VT m d vbs in
  0 < u -> u <= vds ->
  derivable_pt_lim (fun x => get_ids iea m d (vds, x, vbs)) vgs
    (get_gm iea m d (vds, vgs, vbs) + t_M d / t_N d * beta m d * (1/2 * q_LAMBDA m ^ 2 * u ^ 3)).
Proof.
  intros iea m d vds vgs vbs NP MC LA u U V. set (VT := get_VT m d vbs) in *.
  assert (U2 : 0 < 1 / 2 * q_LAMBDA m * u ^ 2) by (apply Rmult_lt_0_compat; [lra|apply pow_lt; exact U]).
  set (F := fun y => vds - (y - VT) + 1/2 * q_LAMBDA m * (y - VT) ^ 2).
  assert (CF : continuity_pt F vgs).
  { apply derivable_continuous_pt. exists (q_LAMBDA m * vgs + (-1 - q_LAMBDA m * VT)).
    eapply dlim_eq; [|eapply dlim_ext; [|exact (dlim_poly2 (1/2 * q_LAMBDA m) (-1 - q_LAMBDA m * VT) (vds + VT + 1/2 * q_LAMBDA m * VT * VT) vgs)]].
    - field.
    - intros y. unfold F. field. }
  assert (F0 : 0 < F vgs) by (unfold F; fold u; lra).
  destruct (CF (F vgs) F0) as (r & Hr & Cr).
  set (c := t_M d / t_N d * beta m d). set (l := q_LAMBDA m) in *.
  apply dlim_near with (f := fun y => c * (l * l / 8) * ((y - VT) * (y - VT) * (y - VT) * (y - VT)) + c * (- l / 2) * ((y - VT) * (y - VT) * (y - VT)) + c * ((1 + l * vds) / 2) * ((y - VT) * (y - VT)) + 0 * (y - VT)) (r := Rmin r u).
  - apply Rmin_glb_lt; assumption.
  - intros y Y. assert (Y1 : Rabs (y - vgs) < r) by (eapply Rlt_le_trans; [exact Y|apply Rmin_l]).
    assert (Y2 : Rabs (y - vgs) < u) by (eapply Rlt_le_trans; [exact Y|apply Rmin_r]). apply Rabs_def2 in Y2.
    assert (FY : 0 < F y).
    { destruct (Req_dec y vgs) as [->|NE]; [exact F0|].
      assert (K := Cr y). simpl in K. unfold R_dist in K. specialize (K (conj (conj I (not_eq_sym NE)) Y1)). apply Rabs_def2 in K. lra. }
    rewrite ids_on by (fold VT; unfold u in Y2; lra). fold VT. fold l.
    assert (B : Rlt_b vds (y - VT - 1 / 2 * l * (y - VT) ^ 2) = false) by (apply Rlt_b_false; unfold F in FY; lra).
    rewrite B, NP. unfold satur, c, Rdiv. generalize (/ t_N d). intros iN. field.
  - assert (D := dlim_shift _ VT vgs _ (cube_d (c * (l * l / 8)) (c * (- l / 2)) (c * ((1 + l * vds) / 2)) 0 (vgs - VT))). cbv beta in D.
    eapply dlim_eq; [|exact D]. fold u. unfold get_gm. fold VT.
    assert (A : Rlt_b vgs VT = false) by (apply Rlt_b_false; unfold u in U; lra). rewrite A.
    assert (B : Rlt_b vds (vgs - VT) = false) by (apply Rlt_b_false; fold u; exact V). rewrite B.
    assert (W : q_GAMMA m * (- sq2 m + sq1 m vbs) = VT - q_VTO m) by (unfold VT, get_VT, svt; rewrite MC; ring). rewrite W.
    replace vgs with (u + VT) by (unfold u; ring). unfold c, beta, Rdiv. fold l. generalize (/ t_N d) (/ t_L d). intros iN iL. field.
Qed.
Print Assumptions C90_gm_saturation.

(** So gm is not the derivative in saturation, for every positive lambda. *)
Theorem C90_gm_refuted : forall iea m d vds vgs vbs, q_NP m = 1 -> t_mc d = None -> 0 < q_LAMBDA m -> sized d -> 0 < q_KP m ->
  let u := vgs - get_VT m d vbs in
  0 < u -> u <= vds -> ~ derivable_pt_lim (fun x => get_ids iea m d (vds, x, vbs)) vgs (get_gm iea m d (vds, vgs, vbs)).
Proof.
  intros iea m d vds vgs vbs NP MC LA (W & L & M & N) K u U V D.
  assert (D2 := C90_gm_saturation iea m d vds vgs vbs NP MC LA U V). cbv zeta in D2. fold u in D2.
  assert (E := uniqueness_limite _ _ _ _ D D2).
  assert (P : 0 < t_M d / t_N d * beta m d * (1 / 2 * q_LAMBDA m ^ 2 * u ^ 3)); [|lra].
  assert (B : 0 < beta m d).
  { unfold beta, skp. rewrite MC. apply Rdiv_lt_0_compat; [|exact L]. apply Rmult_lt_0_compat; [|exact W]. apply Rmult_lt_0_compat; lra. }
  apply Rmult_lt_0_compat; [apply Rmult_lt_0_compat; [apply Rdiv_lt_0_compat; assumption|exact B]|].
  apply Rmult_lt_0_compat; [apply Rmult_lt_0_compat; [lra|apply pow_lt; exact LA]|apply pow_lt; exact U].
Qed.
Print Assumptions C90_gm_refuted.

(** Complementary devices have the same conductances at mirrored biases, except that
    the bulk transconductance changes its sign. *)
Theorem C90_gmb_p_refuted : forall iea m d vds vgs vbs,
  let sw := fst (get_voltages m (vds, vgs, vbs)) in
  fst (get_voltages (complement m) (negate (vds, vgs, vbs))) = sw /\
  get_gmd iea (complement m) d sw = get_gmd iea m d sw /\ get_gm iea (complement m) d sw = get_gm iea m d sw /\
  get_gmb (complement m) d sw = - get_gmb m d sw.
Proof.
  intros iea m d vds vgs vbs sw. split; [|split; [|split]].
  - unfold sw, negate, get_voltages. cbn [complement q_NP].
    replace (- vds * - q_NP m) with (vds * q_NP m) by ring. replace (- vgs * - q_NP m) with (vgs * q_NP m) by ring.
    replace (- vbs * - q_NP m) with (vbs * q_NP m) by ring. destruct (Rlt_b (vds * q_NP m) 0); reflexivity.
  - destruct sw as [[a b] c]. reflexivity.
  - destruct sw as [[a b] c]. reflexivity.
  - destruct sw as [[a b] c]. unfold get_gmb, get_VT, svt, skp, sq1, sq2. cbn [complement q_NP q_VTO q_GAMMA q_PHI q_KP q_LAMBDA q_AVT q_AKP].
    set (X := if Rlt_b b _ then _ else _). unfold Rdiv. ring.
Qed.
Print Assumptions C90_gmb_p_refuted.

(** In saturation the bulk transconductance of an n device is too small by
    KP gamma^2 sq2/sq1, already without channel length modulation: the correct value
    is u gamma KP W/(2 L sq1). *)
Theorem C90_gmb_saturation_refuted : forall m d vds vgs vbs, q_NP m = 1 -> t_mc d = None -> q_LAMBDA m = 0 -> sized d ->
  let u := vgs - get_VT m d vbs in
  0 <= u -> u <= vds -> 0 < - vbs + 2 * q_PHI m ->
  get_gmb m d (vds, vgs, vbs) =
    t_M d / t_N d * (q_KP m * t_W d / t_L d) * (q_GAMMA m * u / (2 * sq1 m vbs) - q_GAMMA m ^ 2 * sq2 m / sq1 m vbs).
Proof.
  intros m d vds vgs vbs NP MC LA (W & L & M & N) u U V PH. unfold get_gmb. set (VT := get_VT m d vbs) in *.
  assert (A : Rlt_b vgs VT = false) by (apply Rlt_b_false; unfold u in U; lra). rewrite A.
  assert (MX : Rmax (- vbs + 2 * q_PHI m) 0 = - vbs + 2 * q_PHI m) by (apply Rmax_left; lra).
  assert (C : Rlt_b 0 (Rmax (- vbs + 2 * q_PHI m) 0) = true) by (apply Rlt_b_true; rewrite MX; exact PH). rewrite C. cbn [negb].
  assert (B : Rlt_b vds (vgs - VT) = false) by (apply Rlt_b_false; fold u; exact V). rewrite B.
  assert (S1 : 0 < sq1 m vbs) by (unfold sq1; rewrite MX; apply sqrt_lt_R0; exact PH).
  assert (E : vgs = u + q_VTO m + q_GAMMA m * (sq1 m vbs - sq2 m)) by (unfold u, VT, get_VT, svt; rewrite MC; ring).
  rewrite NP, LA. unfold skp. rewrite MC. rewrite E. field. repeat split; lra.
Qed.
Print Assumptions C90_gmb_saturation_refuted.

(** * C96 *)

(** A conducting p device is reported as off, its overdrive as negative, unless the
    gate is above the (positive) threshold. *)
Theorem C96_p_report_refuted : forall m d vds vgs vbs, q_NP m = -1 -> 0 < get_VT m d vbs -> vgs < 0 ->
  op_ON m d (vds, vgs, vbs) = false.
Proof.
  intros m d vds vgs vbs NP VT G. unfold op_ON, op_VTH. apply negb_false_iff, Rlt_b_true. lra.
Qed.
Print Assumptions C96_p_report_refuted.
(** For n devices the report says what the current equation uses. *)
Theorem C96_n_report : forall m d vds vgs vbs, q_NP m = 1 -> 0 <= vds ->
  let sw := fst (get_voltages m (vds, vgs, vbs)) in sw = (vds, vgs, vbs) /\
  (op_ON m d (vds, vgs, vbs) = true <-> get_VT m d vbs <= vgs) /\ op_VOD m d (vds, vgs, vbs) = vgs - get_VT m d vbs.
Proof.
  intros m d vds vgs vbs NP V sw. unfold sw, get_voltages. rewrite NP, !Rmult_1_r.
  assert (A : Rlt_b vds 0 = false) by (apply Rlt_b_false; exact V). rewrite A. split; [reflexivity|]. split.
  - unfold op_ON, op_VTH. rewrite negb_true_iff. split; intros K; [apply Rlt_b_false in K; exact K|apply Rlt_b_false; exact K].
  - unfold op_VOD, op_VTH. rewrite NP. ring.
Qed.
Print Assumptions C96_n_report.

(** A conducting n device reported as saturated is computed with the saturation
    current.  The converse holds without channel length modulation. *)
Definition saturation_current (m : qmodel) (d : qdev) (vds u : R) : R :=
  q_NP m * t_M d / t_N d * ((skp m d + 1) * (1/2) * q_KP m * t_W d / t_L d * u ^ 2 * (1 + q_LAMBDA m * (vds - vdsat m u - 1/4 * q_LAMBDA m * u ^ 2))).
Definition ohmic_current (m : qmodel) (d : qdev) (vds u : R) : R :=
  q_NP m * t_M d / t_N d * ((skp m d + 1) * q_KP m * t_W d / t_L d * (u * vds - 1/2 * vds ^ 2)).
Theorem C96_saturation : forall iea m d vds vgs vbs, q_NP m = 1 -> 0 <= vds -> op_ON m d (vds, vgs, vbs) = true ->
  let u := vgs - get_VT m d vbs in
  (0 <= q_LAMBDA m -> op_SAT m d (vds, vgs, vbs) = true ->
   terminal_i iea m d (vds, vgs, vbs) = saturation_current m d vds u) /\
  (q_LAMBDA m = 0 -> op_SAT m d (vds, vgs, vbs) = false ->
   terminal_i iea m d (vds, vgs, vbs) = ohmic_current m d vds u).
Proof.
  intros iea m d vds vgs vbs NP V ON u. unfold op_ON, op_VTH in ON. apply negb_true_iff in ON.
  unfold terminal_i, get_voltages. rewrite NP, !Rmult_1_r.
  assert (A : Rlt_b vds 0 = false) by (apply Rlt_b_false; exact V). rewrite A.
  unfold get_ids. rewrite ON. unfold op_SAT, op_VTH, saturation_current, ohmic_current, vdsat. rewrite NP.
  set (VT := get_VT m d vbs) in *. split.
  - intros L S. apply Rlt_b_true in S.
    assert (B : Rlt_b vds (vgs - VT - 1 / 2 * q_LAMBDA m * (VT - vgs) ^ 2) = false).
    { apply Rlt_b_false. assert (0 <= q_LAMBDA m * (VT - vgs) ^ 2) by (apply Rmult_le_pos; [exact L|apply pow2_ge_0]). lra. }
    rewrite B. replace (vds - (u - 1 / 2 * q_LAMBDA m * (- u) ^ 2) - 1 / 4 * q_LAMBDA m * u ^ 2)
      with (vds - vgs + VT + 1 / 4 * q_LAMBDA m * (VT - vgs) ^ 2) by (unfold u; field).
    replace (u ^ 2) with ((vgs - VT) ^ 2) by reflexivity. unfold Rdiv. ring.
  - intros L S. apply Rlt_b_false in S. rewrite L.
    destruct (Rlt_b vds (vgs - VT - 1 / 2 * 0 * (VT - vgs) ^ 2)) eqn:B.
    + unfold u, Rdiv. ring.
    + apply Rlt_b_false in B. assert (E : vds = vgs - VT) by lra. rewrite E. unfold u.
      replace ((vgs - VT) * (vgs - VT) - 1 / 2 * (vgs - VT) ^ 2) with (1 / 2 * (vgs - VT) ^ 2) by field.
      unfold Rdiv. ring.
Qed.
Print Assumptions C96_saturation.
(** With channel length modulation there is a gap below the overdrive where the
    report says linear and the saturation current is used. *)
Theorem C96_linear_refuted : forall iea m d vgs vbs, q_NP m = 1 -> 0 < q_LAMBDA m -> get_VT m d vbs < vgs ->
  let u := vgs - get_VT m d vbs in
  0 <= vdsat m u -> let vds := vdsat m u in
  op_ON m d (vds, vgs, vbs) = true /\ op_SAT m d (vds, vgs, vbs) = false /\
  terminal_i iea m d (vds, vgs, vbs) = saturation_current m d vds u.
Proof.
  intros iea m d vgs vbs NP L G u V vds.
  assert (P : 0 < q_LAMBDA m * u ^ 2) by (apply Rmult_lt_0_compat; [exact L|apply pow_lt; unfold u; lra]).
  assert (E : vds = u - 1 / 2 * q_LAMBDA m * u ^ 2) by (unfold vds, vdsat; ring).
  assert (G' : Rlt_b vgs (get_VT m d vbs) = false) by (apply Rlt_b_false; lra).
  split; [|split].
  - unfold op_ON, op_VTH. rewrite G'. reflexivity.
  - unfold op_SAT, op_VTH. apply Rlt_b_false. rewrite E. fold u. lra.
  - unfold terminal_i, get_voltages. rewrite NP, !Rmult_1_r.
    assert (A : Rlt_b vds 0 = false) by (apply Rlt_b_false; exact V). rewrite A. unfold get_ids. rewrite G'.
    assert (B : Rlt_b vds (vgs - get_VT m d vbs - 1 / 2 * q_LAMBDA m * (get_VT m d vbs - vgs) ^ 2) = false).
    { apply Rlt_b_false. replace ((get_VT m d vbs - vgs) ^ 2) with (u ^ 2) by (unfold u; ring). fold u. rewrite E. lra. }
    rewrite B. unfold saturation_current, vdsat. rewrite NP. fold u.
    replace (vds - (u - 1 / 2 * q_LAMBDA m * (- u) ^ 2) - 1 / 4 * q_LAMBDA m * u ^ 2)
      with (vds - vgs + get_VT m d vbs + 1 / 4 * q_LAMBDA m * (get_VT m d vbs - vgs) ^ 2) by (unfold u; field).
    unfold Rdiv. ring.
Qed.
Print Assumptions C96_linear_refuted.
(** * C97 *)
Theorem C97_zero_threshold_refuted : forall iea m d vds vgs, is_type m -> t_mc d = None -> q_VTO m = 0 -> vgs < 0 ->
  ids_call iea m d (vds, vgs, 0) = Err ZeroDivision.
Proof.
  intros iea m d vds vgs TY MC VTO G. unfold ids_call.
  assert (E : get_VT m d 0 = 0).
  { unfold get_VT, svt, sq1, sq2. rewrite MC, VTO. replace (-0 + 2 * q_PHI m) with (2 * q_PHI m) by ring. ring. }
  rewrite E. apply Rlt_b_true in G. rewrite G. destruct (Req_b_spec 0 0); [reflexivity|contradiction].
Qed.
Print Assumptions C97_zero_threshold_refuted.
Theorem C97_otherwise : forall iea m d vds vgs vbs, get_VT m d vbs <> 0 \/ get_VT m d vbs <= vgs ->
  exists i, ids_call iea m d (vds, vgs, vbs) = Ok i.
Proof.
  intros iea m d vds vgs vbs H. unfold ids_call. destruct (Rlt_b vgs (get_VT m d vbs)) eqn:A; cbn [andb]; [|eexists; reflexivity].
  destruct (Req_b_spec (get_VT m d vbs) 0) as [E|E]; [|eexists; reflexivity]. apply Rlt_b_true in A. destruct H; [contradiction|lra].
Qed.
Print Assumptions C97_otherwise.

(** * A concrete transistor: VTO = 1 V, KP = 2, no body effect at vbs = 0. *)
Definition ex_n : qmodel := mkQ 1 1 1 1 2 (1/10) 0 0.
Definition ex_d : qdev := mkQd 1 1 1 1 None.
Lemma ex_VT : get_VT ex_n ex_d 0 = 1.
Proof. unfold get_VT, svt, sq1, sq2, ex_n, ex_d; cbn. replace (- 0 + 2 * 1) with (2 * 1) by ring. ring. Qed.
(** vgs = 3 V: u = 2, saturation from 1.8 V; at 1 V the ohmic formula holds. *)
Example C51_example : terminal_i (1/1000) ex_n ex_d (1, 3, 0) = 3 /\ terminal_i (1/1000) ex_n ex_d (-1, 2, -1) = -3.
Proof.
  assert (A : terminal_i (1/1000) ex_n ex_d (1, 3, 0) = 3).
  { unfold terminal_i, get_voltages. cbn [q_NP ex_n]. assert (Z : Rlt_b (1 * 1) 0 = false) by (apply Rlt_b_false; lra). rewrite Z.
    replace (1 * 1) with 1 by ring. replace (3 * 1) with 3 by ring. replace (0 * 1) with 0 by ring.
    rewrite ids_on by (rewrite ex_VT; lra). rewrite ex_VT. cbn [q_LAMBDA ex_n].
    assert (B : Rlt_b 1 (3 - 1 - 1 / 2 * (1 / 10) * (3 - 1) ^ 2) = true) by (apply Rlt_b_true; lra). rewrite B.
    unfold ohmic, beta, skp, ex_n, ex_d; cbn. field. }
  split; [exact A|].
  assert (E := C51_symmetric (1/1000) ex_n ex_d 1 3 0 (or_introl eq_refl) ltac:(lra)). unfold exchange in E.
  replace (-1, 2, -1) with (- (1), 3 - 1, 0 - 1) by (apply f_equal2; [apply f_equal2; lra|lra]). rewrite E, A. lra.
Qed.
(** Threshold 1, gate at 2 V, lambda = 1/10: at 0.95 V the report says linear. *)
Example C96_gap_example : forall iea, op_SAT ex_n ex_d (19/20, 2, 0) = false /\ terminal_i iea ex_n ex_d (19/20, 2, 0) = 399/400.
Proof.
  intros iea.
  assert (V : get_VT ex_n ex_d 0 = 1) by (unfold get_VT, svt, sq1, sq2, ex_n, ex_d; simpl; rewrite Ropp_0, Rplus_0_l; ring).
  assert (E : vdsat ex_n (2 - get_VT ex_n ex_d 0) = 19/20) by (rewrite V; unfold vdsat, ex_n; simpl; field).
  destruct (C96_linear_refuted iea ex_n ex_d 2 0) as (_ & A & B); [reflexivity|unfold ex_n; simpl; lra|rewrite V; lra|rewrite E; lra|].
  rewrite E in A, B. split; [exact A|]. rewrite B. unfold saturation_current. rewrite E, V.
  unfold skp, ex_n, ex_d; simpl. field.
Qed.
