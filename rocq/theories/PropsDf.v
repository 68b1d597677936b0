(** Property theorems about the differentiation formulas (C17-C19, C73, C74). *)
From Coq Require Import Reals List Bool Arith Lia Lra Psatz.
From Verif Require Import Base Rsum Df Lagrange.
Import ListNotations.
Open Scope R_scope.

(** ** Specification *)

(** [poly k X]: every component of [X] is a polynomial of degree at most [k] in
    the time. *)
Definition is_poly (k : nat) (c : nat -> nat -> R) (X : nat -> R -> R) : Prop :=
  forall i t, X i t = rsum (S k) (fun j => c i j * t ^ j).

(** The history holds samples of [X]: values, and slopes where present. *)
Definition samples (X : nat -> R -> R) (pv : list sample) : Prop :=
  forall p, In p pv -> forall i,
    s_x p i = X i (s_t p) /\
    (forall dx, s_dx p = Some dx -> derivable_pt_lim (X i) (s_t p) (dx i)).

(** Newest first, strictly decreasing times. *)
Fixpoint newest_first (pv : list sample) : Prop :=
  match pv with
  | [] => True
  | p :: rest => (forall q, In q rest -> s_t q < s_t p) /\ newest_first rest
  end.

(** The new time. *)
Definition t_new (pv : list sample) (h : R) : R :=
  match pv with [] => h | p :: _ => s_t p + h end.

(** The formula gives the slope of [X] at the new time from the value there. *)
Definition slope_exact (X : nat -> R -> R) (pv : list sample) (h : R) (d : dfout) : Prop :=
  forall i, derivable_pt_lim (X i) (t_new pv h) (df_C1 d * X i (t_new pv h) + df_C0 d i).

(** One step: [y] is the value which the formula matches with slope [l]; its
    error is [e] times the derivative of order [k] of [X], which is
    [k! c_k] for a polynomial of degree [k]. *)
Definition step_error (X : nat -> R -> R) c (k : nat) (pv : list sample) (h : R) (d : dfout) (e : R) : Prop :=
  forall i l y, derivable_pt_lim (X i) (t_new pv h) l -> df_C1 d * y + df_C0 d i = l ->
    y - X i (t_new pv h) = e * (INR (fact k) * c i k).

(** ** Helpers *)
Lemma peval_deriv : forall n c x,
  derivable_pt_lim (peval (S n) c) x (peval n (fun i => INR (S i) * c (S i)) x).
Proof.
  induction n as [|n IH]; intros c x.
  - apply (derivable_pt_lim_ext (fun y => c 0%nat + c 1%nat * y)).
    + intros y. rewrite peval_S, peval_0. ring.
    + rewrite peval_0. replace (INR 1 * c 1%nat) with (0 + c 1%nat * 1) by (simpl; ring).
      apply (derivable_pt_lim_plus (fun _ => c 0%nat)); [apply derivable_pt_lim_const|].
      apply (derivable_pt_lim_scal (fun y => y)). apply derivable_pt_lim_id.
  - rewrite peval_last.
    apply (derivable_pt_lim_ext (fun y => peval (S n) c y + c (S (S n)) * y ^ S (S n)));
      [intros; symmetry; apply peval_last|].
    apply (derivable_pt_lim_plus (peval (S n) c)); [apply IH|].
    replace (INR (S (S n)) * c (S (S n)) * x ^ S n) with (c (S (S n)) * (INR (S (S n)) * x ^ pred (S (S n))))
      by (simpl pred; ring).
    apply (derivable_pt_lim_scal (fun y => y ^ S (S n))). apply derivable_pt_lim_pow.
Qed.

Lemma deriv_ext_pt : forall f g x l, (forall t, f t = g t) -> derivable_pt_lim f x l -> derivable_pt_lim g x l.
Proof. intros f g x l E D. apply (derivable_pt_lim_ext f); auto. Qed.

Lemma newest_first_nth : forall pv, newest_first pv -> forall i j, (i < j)%nat -> (j < length pv)%nat ->
  s_t (nth j pv no_sample) < s_t (nth i pv no_sample).
Proof.
  induction pv as [|p pv IH]; intros N i j I J; [simpl in J; lia|]. destruct N as [A B].
  destruct j as [|j]; [lia|]. simpl in J. destruct i as [|i].
  - simpl. apply A. apply nth_In. lia.
  - simpl. apply IH; auto; lia.
Qed.

Section GearFacts.
  Variables (k : nat) (pv : list sample) (h : R).
  Hypothesis K : (0 < k)%nat.
  Hypothesis H : 0 < h.
  Hypothesis N : newest_first pv.
  Hypothesis L : (k < length pv)%nat.
  Let p j := nth j pv no_sample.
  Let s j := h + s_t (p 0%nat) - s_t (p j).

  Lemma gear_s_pos : forall j, (j < S k)%nat -> 0 < s j.
  Proof.
    intros j J. unfold s, p. destruct j as [|j]; [lra|].
    pose proof (newest_first_nth pv N 0 (S j) ltac:(lia) ltac:(lia)). lra.
  Qed.

  Lemma gear_s_mono : forall i j, (i < j)%nat -> (j < S k)%nat -> s i < s j.
  Proof.
    intros i j I J. unfold s, p. pose proof (newest_first_nth pv N i j I ltac:(lia)). lra.
  Qed.

  Lemma gear_s_distinct : distinct (S k) s.
  Proof.
    intros i j I J E. destruct (lt_eq_lt_dec i j) as [[X|X]|X]; auto.
    - pose proof (gear_s_mono i j X J). lra.
    - pose proof (gear_s_mono j i X I). lra.
  Qed.

  Lemma gear_s_nonzero : nonzero (S k) s.
  Proof. intros j J. pose proof (gear_s_pos j J). lra. Qed.

  Lemma gear_g0_pos : 0 < gear_g0 k s.
  Proof.
    rewrite gear_g0_val by (exact gear_s_distinct || exact gear_s_nonzero).
    assert (G : forall m, (0 < m <= k)%nat -> 0 < rsum m (fun j => / s j)).
    { induction m as [|m IH]; [lia|]. intros M. cbn [rsum].
      assert (0 < / s m) by (apply Rinv_0_lt_compat, gear_s_pos; lia).
      destruct m as [|m]; [simpl; lra|]. specialize (IH ltac:(lia)). lra. }
    apply G. lia.
  Qed.

  Lemma gear_tnew : forall j, (j < S k)%nat -> s_t (p j) = t_new pv h - s j.
  Proof.
    intros j J. unfold s, p, t_new. destruct pv as [|q r]; [simpl in L; lia|]. simpl nth at 2. lra.
  Qed.
End GearFacts.

Lemma gear_get_ok : forall k pv h b, (k < length pv)%nat -> exists d, gear_get k pv h b = Ok d /\
  let s j := h + s_t (nth 0 pv no_sample) - s_t (nth j pv no_sample) in
  df_C1 d = gear_g0 k s /\
  (forall i, df_C0 d i = rsum k (fun j => gear_gamma k s j * s_x (nth j pv no_sample) i)) /\
  df_lte d = gear_lte k s /\
  (b = true -> exists f, df_pred d = Some (f, gear_pred_lte k s) /\
     forall i, f i = rsum (S k) (fun j => gear_alpha k s j * s_x (nth j pv no_sample) i)).
Proof.
  intros k pv h b L. unfold gear_get. replace (length pv <=? k)%nat with false by (symmetry; apply Nat.leb_gt; lia).
  eexists. split; [reflexivity|]. cbn -[gear_gamma gear_g0 gear_lte gear_pred_lte gear_alpha rsum nth].
  repeat split. intros ->. eexists. split; [reflexivity|]. reflexivity.
Qed.

(** ** C17 *)
Theorem C17_implicit_euler : forall X c pv h b, h <> 0 -> pv <> [] ->
  is_poly 1 c X -> samples X pv ->
  exists d, ie_get pv h b = Ok d /\ slope_exact X pv h d.
Proof.
  intros X c pv h b H NE P SA. destruct pv as [|p pv]; [congruence|]. eexists. split; [reflexivity|].
  intros i. simpl. destruct (SA p (or_introl eq_refl) i) as [E _]. rewrite E.
  apply (deriv_ext_pt (peval 1 (c i))); [intros; rewrite P; reflexivity|].
  replace (1 / h * X i (s_t p + h) + - (1 / h) * X i (s_t p)) with (c i 1%nat).
  - pose proof (peval_deriv 0 (c i) (s_t p + h)) as D. rewrite peval_0 in D. simpl INR in D.
    rewrite Rmult_1_l in D. exact D.
  - rewrite !P. simpl. field. exact H.
Qed.
Print Assumptions C17_implicit_euler.

Theorem C17_trapezoidal : forall inv X c pv h, h <> 0 ->
  is_poly 2 c X -> samples X pv ->
  (exists p rest dx, pv = p :: rest /\ s_dx p = Some dx) ->
  exists d, trap_get inv pv h false = Ok d /\ slope_exact X pv h d.
Proof.
  intros inv X c pv h H P SA (p & rest & dx & -> & DX). unfold trap_get. rewrite DX.
  eexists. split; [reflexivity|]. intros i. simpl.
  destruct (SA p (or_introl eq_refl) i) as [E D]. specialize (D dx DX). rewrite E.
  assert (D2 : forall t, derivable_pt_lim (X i) t (c i 1%nat + 2 * c i 2%nat * t)).
  { intros t. apply (deriv_ext_pt (peval 2 (c i))); [intros; rewrite P; reflexivity|].
    replace (c i 1%nat + 2 * c i 2%nat * t) with (peval 1 (fun j => INR (S j) * c i (S j)) t)
      by (rewrite peval_S, peval_0; simpl; ring). apply peval_deriv. }
  rewrite (uniqueness_limite _ _ _ _ D (D2 (s_t p))).
  replace (2 / h * X i (s_t p + h) + -1 * (2 / h * X i (s_t p) + (c i 1%nat + 2 * c i 2%nat * s_t p)))
    with (c i 1%nat + 2 * c i 2%nat * (s_t p + h)); [apply D2|].
  rewrite !P. simpl. field. exact H.
Qed.
Print Assumptions C17_trapezoidal.

(** Every order, every non-uniform grid. *)
Theorem C17_gear : forall k X c pv h b, (0 < k)%nat -> 0 < h ->
  newest_first pv -> (k < length pv)%nat -> is_poly k c X -> samples X pv ->
  exists d, gear_get k pv h b = Ok d /\ slope_exact X pv h d.
Proof.
  intros k X c pv h b K H N L P SA.
  destruct (gear_get_ok k pv h b L) as (d & E & C1 & C0 & _). exists d. split; [exact E|].
  intros i. rewrite C1, C0.
  destruct (peval_reflect k (t_new pv h) (c i)) as (cc & R & _).
  assert (XE : forall t, X i t = peval k (c i) t) by (intros; apply P).
  apply (deriv_ext_pt (peval k (c i))); [intros; symmetry; apply XE|].
  set (s j := h + s_t (nth 0 pv no_sample) - s_t (nth j pv no_sample)) in *.
  replace (gear_g0 k s * X i (t_new pv h) + rsum k (fun j => gear_gamma k s j * s_x (nth j pv no_sample) i))
    with (- cc 1%nat).
  - apply (reflect_deriv _ (peval k cc)); [exact R|]. destruct k; [lia|]. apply peval_deriv0.
  - rewrite <- (gear_exact k s cc K); [|apply gear_s_distinct; auto|apply gear_s_nonzero; auto].
    f_equal.
    + f_equal. rewrite XE, <- R. f_equal. ring.
    + apply rsum_ext. intros j J. f_equal.
      assert (JL : (j < length pv)%nat) by lia. destruct (SA (nth j pv no_sample) (nth_In pv no_sample JL) i) as [V _]. rewrite V, XE.
      rewrite (gear_tnew k pv h) by (auto; lia). rewrite R. reflexivity.
Qed.
Print Assumptions C17_gear.

(** ** C18 *)

(** The error of a step of implicit Euler is h^2/2 x'', the code has h/2. *)
Theorem C18_implicit_euler_refuted : exists X c pv h d,
  0 < h /\ is_poly 2 c X /\ samples X pv /\ ie_get pv h false = Ok d /\
  step_error X c 2 pv h d (h ^ 2 / 2) /\ ~ step_error X c 2 pv h d (df_lte d).
Proof.
  set (X := fun (_ : nat) t => t ^ 2). set (c := fun (_ : nat) j => dlt j 2).
  set (p := mkS 0 (fun i => X i 0) None).
  assert (XD : forall i t, derivable_pt_lim (X i) t (2 * t)).
  { intros i t. replace (2 * t) with (INR 2 * t ^ 1) by (simpl; ring). apply derivable_pt_lim_pow. }
  exists X, c, [p], 2, (mkDf (1 / 2) (fun i => - (1 / 2) * s_x p i) (1 / 2 * 2) None).
  split; [lra|]. split; [|split; [|split; [reflexivity|]]].
  - intros i t. unfold c, X. rewrite rsum_dlt by lia. reflexivity.
  - intros q [<-|[]] i. split; [reflexivity|discriminate].
  - assert (ER : forall i l y, derivable_pt_lim (X i) (t_new [p] 2) l ->
       1 / 2 * y + - (1 / 2) * X i 0 = l -> y - X i (t_new [p] 2) = 4).
    { intros i l y D E. rewrite (uniqueness_limite _ _ _ _ D (XD i _)) in E.
      revert E. unfold X, t_new, p; simpl. intros E. lra. }
    split.
    + intros i l y D E. simpl in E. rewrite (ER i l y D E). unfold c, dlt. simpl. field.
    + intros SE. specialize (SE 0%nat _ (2 * (2 * 2)) (XD 0%nat _)).
      simpl in SE. unfold X, t_new, p, c, dlt in SE. simpl in SE.
      specialize (SE ltac:(simpl; lra)). lra.
Qed.
Print Assumptions C18_implicit_euler_refuted.

Theorem C18_implicit_euler_actual : forall X c pv h b d, h <> 0 ->
  is_poly 2 c X -> samples X pv -> ie_get pv h b = Ok d ->
  step_error X c 2 pv h d (h ^ 2 / 2).
Proof.
  intros X c pv h b d H P SA G. destruct pv as [|p pv]; [discriminate|]. injection G as <-.
  intros i l y D E. simpl in *. destruct (SA p (or_introl eq_refl) i) as [V _]. rewrite V in E.
  assert (D2 : derivable_pt_lim (X i) (s_t p + h) (peval 1 (fun j => INR (S j) * c i (S j)) (s_t p + h))).
  { apply (deriv_ext_pt (peval 2 (c i))); [intros; rewrite P; reflexivity|]. apply peval_deriv. }
  rewrite (uniqueness_limite _ _ _ _ D D2), peval_S, peval_0 in E. simpl in E. clear D D2.
  rewrite !P in *. simpl in *.
  assert (Y : y = h * (1 * c i 1%nat + (s_t p + h) * ((1 + 1) * c i 2%nat)) + (0 + c i 0%nat * 1 + c i 1%nat * (s_t p * 1) + c i 2%nat * (s_t p * (s_t p * 1)))).
  { apply (Rmult_eq_reg_l (1 / h)); [|unfold Rdiv; rewrite Rmult_1_l; apply Rinv_neq_0_compat; exact H].
    transitivity (1 * c i 1%nat + (s_t p + h) * ((1 + 1) * c i 2%nat) + 1 / h * (0 + c i 0%nat * 1 + c i 1%nat * (s_t p * 1) + c i 2%nat * (s_t p * (s_t p * 1)))).
    - rewrite <- E. ring.
    - field. exact H. }
  rewrite Y. field.
Qed.
Print Assumptions C18_implicit_euler_actual.

Theorem C18_trapezoidal : forall inv X c pv h b d, h <> 0 ->
  is_poly 3 c X -> samples X pv -> trap_get inv pv h b = Ok d ->
  step_error X c 3 pv h d (df_lte d).
Proof.
  intros inv X c pv h b d H P SA G. destruct pv as [|p pv]; [discriminate|].
  unfold trap_get in G. destruct (s_dx p) as [dx|] eqn:DX; [|discriminate].
  assert (F : df_C1 d = 2 / h /\ (forall i, df_C0 d i = -1 * (2 / h * s_x p i + dx i)) /\ df_lte d = 1 / 12 * h ^ 3).
  { destruct b; [destruct pv as [|p1 [|p2 pv]]|]; try discriminate; injection G as <-; repeat split. }
  destruct F as (F1 & F2 & F3).
  intros i l y D E. destruct (SA p (or_introl eq_refl) i) as [V VD]. specialize (VD dx DX).
  assert (D2 : forall t, derivable_pt_lim (X i) t (peval 2 (fun j => INR (S j) * c i (S j)) t)).
  { intros t. apply (deriv_ext_pt (peval 3 (c i))); [intros; rewrite P; reflexivity|]. apply peval_deriv. }
  rewrite F1, F2, V, (uniqueness_limite _ _ _ _ VD (D2 _)), (uniqueness_limite _ _ _ _ D (D2 _)) in E.
  unfold t_new in *. rewrite F3. clear D D2 VD. rewrite !P in *. unfold peval in E. simpl in *.
  set (t := s_t p) in *.
  match type of E with 2 / h * y + -1 * (2 / h * ?A + ?B) = ?C =>
    assert (Y : y = A + h / 2 * (B + C)) by (rewrite <- E; field; exact H) end.
  rewrite Y. field.
Qed.
Print Assumptions C18_trapezoidal.

Theorem C18_gear : forall k X c pv h b d, (0 < k)%nat -> 0 < h ->
  newest_first pv -> is_poly (S k) c X -> samples X pv -> gear_get k pv h b = Ok d ->
  step_error X c (S k) pv h d (df_lte d).
Proof.
  intros k X c pv h b d K H N P SA G.
  assert (L : (k < length pv)%nat).
  { unfold gear_get in G. destruct (Nat.leb_spec (length pv) k); [discriminate|lia]. }
  destruct (gear_get_ok k pv h b L) as (d' & E & C1 & C0 & LT & _). rewrite E in G. injection G as ->.
  set (s j := h + s_t (nth 0 pv no_sample) - s_t (nth j pv no_sample)) in *.
  assert (DI : distinct (Datatypes.S k) s) by (apply gear_s_distinct; auto).
  assert (NZ : nonzero (Datatypes.S k) s) by (apply gear_s_nonzero; auto).
  assert (G0 : 0 < gear_g0 k s) by (apply gear_g0_pos; auto).
  intros i l y D Y. rewrite C1, C0 in Y. rewrite LT.
  assert (XE : forall t, X i t = peval (Datatypes.S k) (c i) t) by (intros; apply P).
  destruct (peval_reflect (Datatypes.S k) (t_new pv h) (c i)) as (cc & R & LC).
  assert (DL : l = - cc 1%nat).
  { apply (uniqueness_limite _ _ _ _ D). apply (deriv_ext_pt (peval (Datatypes.S k) (c i)));
      [intros; symmetry; apply XE|]. apply (reflect_deriv _ (peval (Datatypes.S k) cc)); [exact R|].
    apply peval_deriv0. }
  assert (X0 : X i (t_new pv h) = peval k cc 0).
  { rewrite XE. replace (t_new pv h) with (t_new pv h - 0) at 1 by ring. rewrite R, !peval_at0. reflexivity. }
  assert (SUM : rsum k (fun j => gear_gamma k s j * s_x (nth j pv no_sample) i) =
    rsum k (fun j => gear_gamma k s j * peval k cc (s j)) +
    cc (Datatypes.S k) * rsum k (fun j => gear_gamma k s j * s j ^ Datatypes.S k)).
  { rewrite <- rsum_scal, <- rsum_plus. apply rsum_ext. intros j J.
    assert (JL : (j < length pv)%nat) by lia. destruct (SA (nth j pv no_sample) (nth_In pv no_sample JL) i) as [V _]. rewrite V, XE.
    rewrite (gear_tnew k pv h) by (auto; lia). fold (s j). rewrite R, peval_last. ring. }
  pose proof (gear_exact k s cc K DI NZ) as EX.
  rewrite X0. rewrite SUM, DL, <- EX in Y.
  assert (Y2 : gear_g0 k s * (y - peval k cc 0) =
     - (cc (Datatypes.S k) * rsum k (fun j => gear_gamma k s j * s j ^ Datatypes.S k))) by lra.
  assert (Y3 : y - peval k cc 0 =
     - (cc (Datatypes.S k) * rsum k (fun j => gear_gamma k s j * s j ^ Datatypes.S k)) / gear_g0 k s).
  { rewrite <- Y2. field. lra. }
  rewrite Y3. unfold gear_lte.
  rewrite (rsum_ext k (fun j => s j ^ Datatypes.S k * (-1 * gear_gamma k s j / gear_g0 k s))
    (fun j => - / gear_g0 k s * (gear_gamma k s j * s j ^ Datatypes.S k)))
    by (intros; unfold Rdiv; ring).
  rewrite rsum_scal, LC.
  assert (FP : INR (fact (Datatypes.S k)) <> 0) by (apply INR_fact_neq_0).
  set (m := (-1) ^ Datatypes.S k) in *.
  set (sm := rsum k (fun j => gear_gamma k s j * s j ^ Datatypes.S k)).
  transitivity (- (m * c i (Datatypes.S k) * sm) / gear_g0 k s); [reflexivity|].
  field. split; (exact FP || lra).
Qed.
Print Assumptions C18_gear.

(** ** C74: the coefficient of the new point is positive: the companion
    conductances of capacitors are. *)
Theorem C74_gear_leading_coefficient : forall k pv h b d, (0 < k)%nat -> 0 < h ->
  newest_first pv -> gear_get k pv h b = Ok d ->
  0 < df_C1 d /\
  df_C1 d = rsum k (fun j => / (t_new pv h - s_t (nth j pv no_sample))).
Proof.
  intros k pv h b d K H N G.
  assert (L : (k < length pv)%nat).
  { unfold gear_get in G. destruct (Nat.leb_spec (length pv) k); [discriminate|lia]. }
  destruct (gear_get_ok k pv h b L) as (d' & E & C1 & _). rewrite E in G. injection G as ->.
  rewrite C1. split; [apply gear_g0_pos; auto|].
  rewrite gear_g0_val; [|apply gear_s_distinct; auto|apply gear_s_nonzero; auto].
  apply rsum_ext. intros j J. f_equal. unfold t_new. destruct pv; [simpl in L; lia|]. simpl nth at 1. ring.
Qed.
Print Assumptions C74_gear_leading_coefficient.

(** ** C19 *)

(** [d] predicts the value exactly. *)
Definition predicts (X : nat -> R -> R) (pv : list sample) (h : R) (d : dfout) : Prop :=
  exists f e, df_pred d = Some (f, e) /\ forall i, f i = X i (t_new pv h).
(** The error of the prediction is its coefficient times the next derivative. *)
Definition pred_error (X : nat -> R -> R) c (k : nat) (pv : list sample) (h : R) (d : dfout) : Prop :=
  exists f e, df_pred d = Some (f, e) /\
    forall i, f i - X i (t_new pv h) = e * (INR (fact k) * c i k).

Theorem C19_implicit_euler : forall pv h d,
  newest_first pv -> (2 <= length pv)%nat -> ie_get pv h true = Ok d ->
  (forall X c, is_poly 1 c X -> samples X pv -> predicts X pv h d) /\
  (forall X c, is_poly 2 c X -> samples X pv -> pred_error X c 2 pv h d).
Proof.
  intros pv h d N L G. destruct pv as [|p0 [|p1 pv]]; simpl in L; try lia. injection G as <-.
  destruct N as [N _]. assert (T : s_t p1 < s_t p0) by (apply N; left; auto).
  split; intros X c P SA; do 2 eexists; (split; [reflexivity|]); intros i;
  destruct (SA p0 (or_introl eq_refl) i) as [V0 _];
  destruct (SA p1 (or_intror (or_introl eq_refl)) i) as [V1 _]; rewrite V0, V1; unfold t_new;
  rewrite !P; simpl; field; lra.
Qed.
Print Assumptions C19_implicit_euler.

(** [B] is a left inverse of the 3 x 3 matrix [A]. *)
Definition left_inverse (B A : mat) : Prop :=
  forall i j, (i < 3)%nat -> (j < 3)%nat -> rsum 3 (fun k => B i k * A k j) = dlt i j.

Lemma trap_A_regular : forall t0 t1 t2, t0 <> t1 -> t0 <> t2 -> t1 <> t2 ->
  exists B, left_inverse B (trap_A t0 t1 t2).
Proof.
  intros t0 t1 t2 A B C. set (a := t1 - t0). set (b := t2 - t0).
  exists (fun i k => match i, k with
     | O, O => 1 | O, S _ => 0
     | S O, O => - (a + b) / (a * b) | S O, S O => b / (a * (b - a)) | S O, S (S _) => - a / (b * (b - a))
     | S (S _), O => 1 / (a * b) | S (S _), S O => - (1) / (a * (b - a)) | S (S _), S (S _) => 1 / (b * (b - a))
     end).
  intros i j I J. unfold dlt, trap_A. fold a b.
  assert (a <> 0) by (unfold a; lra). assert (b <> 0) by (unfold b; lra).
  assert (b - a <> 0) by (unfold a, b; lra).
  destruct i as [|[|[|i]]]; try lia; destruct j as [|[|[|j]]]; try lia; simpl; field; auto.
Qed.

(** For any [inv] which inverts the matrices that have an inverse. *)
Theorem C19_trapezoidal : forall inv pv h d,
  (forall A, (exists B, left_inverse B A) -> left_inverse (inv A) A) ->
  newest_first pv -> trap_get inv pv h true = Ok d ->
  (forall X c, is_poly 2 c X -> samples X pv -> predicts X pv h d) /\
  (forall X c, is_poly 3 c X -> samples X pv -> pred_error X c 3 pv h d).
Proof.
  intros inv pv h d INV N G. destruct pv as [|p0 rest]; [discriminate|]. unfold trap_get in G.
  destruct (s_dx p0) as [dx|]; [|discriminate]. destruct rest as [|p1 [|p2 rest]]; try discriminate.
  injection G as <-. destruct N as [N0 [N1 _]].
  assert (T1 : s_t p1 < s_t p0) by (apply N0; left; auto).
  assert (T2 : s_t p2 < s_t p0) by (apply N0; right; left; auto).
  assert (T3 : s_t p2 < s_t p1) by (apply N1; left; auto).
  pose proof (INV _ (trap_A_regular (s_t p0) (s_t p1) (s_t p2) ltac:(lra) ltac:(lra) ltac:(lra))) as LI.
  set (V := inv (trap_A (s_t p0) (s_t p1) (s_t p2))) in *.
  (* the coefficients solve the interpolation problem *)
  assert (AL : forall (z a : nat -> R),
     (forall r, (r < 3)%nat -> z r = rsum 3 (fun j => trap_A (s_t p0) (s_t p1) (s_t p2) r j * a j)) ->
     forall k, (k < 3)%nat -> row 3 V k z = a k).
  { intros z a Z k K. unfold row.
    rewrite (rsum_ext 3 _ (fun r => rsum 3 (fun j => (V k r * trap_A (s_t p0) (s_t p1) (s_t p2) r j) * a j))).
    2:{ intros r Hr. rewrite Z by exact Hr. rewrite <- rsum_scal. apply rsum_ext. intros; ring. }
    rewrite rsum_swap. rewrite (rsum_ext 3 _ (fun j => dlt j k * a j)).
    - apply rsum_dlt. exact K.
    - intros j J. rewrite rsum_scal_r, (LI k j K J), dlt_sym. reflexivity. }
  (* ... of degree two, whatever the function is *)
  assert (GEN : forall (f : R -> R) c0 c1 c2 (z : nat -> R),
     (forall t, f t = c0 + c1 * (t - s_t p0) + c2 * (t - s_t p0) ^ 2) ->
     z 0%nat = f (s_t p0) -> z 1%nat = f (s_t p1) -> z 2%nat = f (s_t p2) ->
     row 3 V 2 z * h ^ 2 + row 3 V 1 z * h + row 3 V 0 z = f (s_t p0 + h)).
  { intros f c0 c1 c2 z F Z0 Z1 Z2.
    assert (ZZ : forall r, (r < 3)%nat -> z r = rsum 3 (fun j => trap_A (s_t p0) (s_t p1) (s_t p2) r j *
        (match j with O => c0 | 1%nat => c1 | _ => c2 end))).
    { intros r Hr. destruct r as [|[|[|r]]]; try lia; simpl; rewrite ?Z0, ?Z1, ?Z2, F; ring. }
    rewrite (AL z _ ZZ 2%nat), (AL z _ ZZ 1%nat), (AL z _ ZZ 0%nat) by lia. rewrite F. ring. }
  split; intros X c P SA; do 2 eexists; (split; [reflexivity|]); intros i;
  destruct (SA p0 (or_introl eq_refl) i) as [V0 _];
  destruct (SA p1 (or_intror (or_introl eq_refl)) i) as [V1 _];
  destruct (SA p2 (or_intror (or_intror (or_introl eq_refl))) i) as [V2 _]; unfold t_new.
  - apply (GEN (X i) (c i 0%nat + c i 1%nat * s_t p0 + c i 2%nat * s_t p0 ^ 2)
             (c i 1%nat + 2 * c i 2%nat * s_t p0) (c i 2%nat)); auto.
    intros t. rewrite P. simpl. ring.
  - (* subtract the cubic through the three points *)
    set (w t := c i 3%nat * ((t - s_t p0) * (t - s_t p1) * (t - s_t p2))).
    set (t0 := s_t p0) in *. set (t1 := s_t p1) in *. set (t2 := s_t p2) in *.
    rewrite (GEN (fun t => X i t - w t)
       (c i 0%nat + c i 1%nat * t0 + c i 2%nat * t0 ^ 2 + c i 3%nat * t0 ^ 3)
       (c i 1%nat + 2 * c i 2%nat * t0 + 3 * c i 3%nat * t0 ^ 2 - c i 3%nat * (t0 - t1) * (t0 - t2))
       (c i 2%nat + 3 * c i 3%nat * t0 - c i 3%nat * ((t0 - t1) + (t0 - t2)))).
    + unfold w. simpl. field.
    + intros t. rewrite P. unfold w. simpl. ring.
    + rewrite V0. unfold w. fold t0. ring.
    + rewrite V1. unfold w. fold t1. ring.
    + rewrite V2. unfold w. fold t2. ring.
Qed.
Print Assumptions C19_trapezoidal.

Theorem C19_gear : forall k pv h d, (0 < k)%nat -> 0 < h -> newest_first pv -> gear_get k pv h true = Ok d ->
  (forall X c, is_poly k c X -> samples X pv -> predicts X pv h d) /\
  (forall X c, is_poly (S k) c X -> samples X pv -> pred_error X c (S k) pv h d).
Proof.
  intros k pv h d K H N G.
  assert (L : (k < length pv)%nat).
  { unfold gear_get in G. destruct (Nat.leb_spec (length pv) k); [discriminate|lia]. }
  destruct (gear_get_ok k pv h true L) as (d' & E & _ & _ & _ & PR). rewrite E in G. injection G as ->.
  destruct (PR eq_refl) as (f & F & FV).
  set (s j := h + s_t (nth 0 pv no_sample) - s_t (nth j pv no_sample)) in *.
  assert (DI : distinct (S k) s) by (apply gear_s_distinct; auto).
  assert (ND : NoDup (map s (seq 0 (S k)))) by (apply distinct_NoDup; exact DI).
  assert (LN : length (map s (seq 0 (S k))) = S k) by (rewrite map_length, seq_length; reflexivity).
  split; intros X c P SA; exists f, (gear_pred_lte k s); (split; [exact F|]); intros i; rewrite FV.
  - destruct (peval_reflect k (t_new pv h) (c i)) as (cc & R & _).
    assert (XE : forall t, X i t = peval k (c i) t) by (intros; apply P).
    rewrite (rsum_ext (S k) _ (fun j => gear_alpha k s j * peval k cc (s j))).
    + rewrite gear_lag, lag_poly by (auto; rewrite LN; lia). rewrite XE, <- R. f_equal. ring.
    + intros j J. assert (JL : (j < length pv)%nat) by lia. destruct (SA (nth j pv no_sample) (nth_In pv no_sample JL) i) as [V _]. rewrite V, XE.
      rewrite (gear_tnew k pv h) by (auto; lia). fold (s j). rewrite R. reflexivity.
  - destruct (peval_reflect (S k) (t_new pv h) (c i)) as (cc & R & LC).
    assert (XE : forall t, X i t = peval (S k) (c i) t) by (intros; apply P).
    rewrite (rsum_ext (S k) _ (fun j => gear_alpha k s j * (fun x => peval k cc x + cc (S k) * x ^ S k) (s j))).
    + rewrite (gear_lag k s (fun x => peval k cc x + cc (S k) * x ^ S k)) by exact DI.
      rewrite lag_plus, lag_scal, lag_poly by (auto; rewrite LN; lia).
      assert (NE : map s (seq 0 (S k)) <> []).
      { rewrite seq_S, map_app. destruct (map s (seq 0 k)); discriminate. }
      pose proof (lag_next _ NE ND) as NX. rewrite LN in NX. rewrite NX.
      rewrite <- (rprod_as_list (S k) s (fun x => x)), LC.
      replace (X i (t_new pv h)) with (peval k cc 0).
      2:{ rewrite XE. replace (t_new pv h) with (t_new pv h - 0) by ring. rewrite R, !peval_at0. reflexivity. }
      unfold gear_pred_lte. change (fun k0 => s k0) with s.
      replace ((-1) ^ S (S k)) with (- (-1) ^ S k) by (simpl; ring).
      assert (FP : INR (fact (S k)) <> 0) by (apply INR_fact_neq_0).
      assert (SQ : (-1) ^ S k * (-1) ^ S k = 1).
      { rewrite <- pow_add. replace (S k + S k)%nat with (2 * S k)%nat by lia. apply pow_1_even. }
      set (m := (-1) ^ S k) in *. set (pr := rprod (S k) s).
      transitivity (- (m * m) * pr * c i (S k)); [ring|]. rewrite SQ. field. exact FP.
    + intros j J. assert (JL : (j < length pv)%nat) by lia. destruct (SA (nth j pv no_sample) (nth_In pv no_sample JL) i) as [V _]. rewrite V, XE.
      rewrite (gear_tnew k pv h) by (auto; lia). fold (s j). rewrite R, peval_last. reflexivity.
Qed.
Print Assumptions C19_gear.

(** ** C73: the estimate of the step control *)

(** ahkab/transient.py 354: [abs((lte/(pred_lte - lte)) * (prediction - x1))]. *)
Definition lte_estimate (d : dfout) (y : R) (i : nat) : option R :=
  match df_pred d with
  | Some (f, e) => Some (Rabs (df_lte d / (e - df_lte d) * (f i - y)))
  | None => None
  end.

Lemma estimate_exact : forall X c k pv h d i l y f e,
  step_error X c k pv h d (df_lte d) -> pred_error X c k pv h d ->
  df_pred d = Some (f, e) -> e <> df_lte d ->
  derivable_pt_lim (X i) (t_new pv h) l -> df_C1 d * y + df_C0 d i = l ->
  lte_estimate d y i = Some (Rabs (y - X i (t_new pv h))).
Proof.
  intros X c k pv h d i l y f e SE PE F NE D Y.
  destruct PE as (f' & e' & F' & PE). rewrite F in F'. injection F' as <- <-.
  unfold lte_estimate. rewrite F. f_equal. f_equal.
  specialize (SE i l y D Y). specialize (PE i).
  replace (f i - y) with ((f i - X i (t_new pv h)) - (y - X i (t_new pv h))) by ring.
  rewrite SE, PE. field. lra.
Qed.

Theorem C73_estimate_trapezoidal : forall inv X c pv h d i l y,
  (forall A, (exists B, left_inverse B A) -> left_inverse (inv A) A) ->
  0 < h -> newest_first pv -> is_poly 3 c X -> samples X pv ->
  trap_get inv pv h true = Ok d ->
  derivable_pt_lim (X i) (t_new pv h) l -> df_C1 d * y + df_C0 d i = l ->
  lte_estimate d y i = Some (Rabs (y - X i (t_new pv h))).
Proof.
  intros inv X c pv h d i l y INV H N P SA G D Y.
  pose proof (C18_trapezoidal inv X c pv h true d ltac:(lra) P SA G) as SE.
  destruct (C19_trapezoidal inv pv h d INV N G) as [_ PE]. specialize (PE X c P SA).
  destruct (df_pred d) as [[f e]|] eqn:F; [|destruct PE as (? & ? & PE & _); rewrite F in PE; discriminate].
  apply (estimate_exact X c 3 pv h d i l y f e); auto.
  destruct pv as [|p0 rest]; [discriminate|]. unfold trap_get in G.
  destruct (s_dx p0) as [dx|]; [|discriminate]. destruct rest as [|p1 [|p2 rest]]; try discriminate.
  injection G as <-. simpl in F. injection F as <- <-. simpl.
  destruct N as [N0 _]. assert (s_t p1 < s_t p0) by (apply N0; left; auto).
  assert (s_t p2 < s_t p0) by (apply N0; right; left; auto).
  assert (0 < h * (s_t p0 + h - s_t p1) * (s_t p0 + h - s_t p2)).
  { repeat apply Rmult_lt_0_compat; lra. }
  assert (0 < h * (h * (h * 1))) by (repeat apply Rmult_lt_0_compat; lra). lra.
Qed.
Print Assumptions C73_estimate_trapezoidal.

(** A closed form of the error coefficient. *)
Lemma gear_lte_val : forall k s, (0 < k)%nat -> distinct (S k) s -> nonzero (S k) s -> gear_g0 k s <> 0 ->
  gear_lte k s = rprod k s / (INR (fact (S k)) * gear_g0 k s).
Proof.
  intros k s K D Z G. unfold gear_lte.
  assert (ND : NoDup (map s (seq 0 (S k)))) by (apply distinct_NoDup; exact D).
  assert (LN : length (map s (seq 0 (S k))) = S k) by (rewrite map_length, seq_length; reflexivity).
  assert (NE : map s (seq 0 (S k)) <> []).
  { rewrite seq_S, map_app. destruct (map s (seq 0 k)); discriminate. }
  pose proof (lag_next _ NE ND) as NX. rewrite LN in NX.
  assert (SM : rsum k (fun j => gear_gamma k s j * s j ^ S k) = (-1) ^ k * rprod k s).
  { rewrite (gear_gamma_sum k s (fun x => x ^ S k)) by exact D.
    rewrite (lag_ext _ _ (fun x => / s k * x ^ S k + -1 * peval k (fun i => dlt i k) x)).
    2:{ intros a I. assert (a <> 0) by (eapply nodes_nonzero; eauto).
        pose proof (Z k (Nat.lt_succ_diag_r k)). rewrite <- pow_peval. simpl. field. auto. }
    rewrite lag_plus, !lag_scal, NX, lag_poly by (auto; rewrite LN; lia).
    rewrite peval_at0. replace (dlt 0 k) with 0 by (destruct k; [lia|reflexivity]).
    rewrite <- (rprod_as_list (S k) s (fun x => x)). cbn [rprod].
    change (fun k0 => s k0) with s. simpl. field. apply Z. lia. }
  rewrite (rsum_ext k _ (fun j => - / gear_g0 k s * (gear_gamma k s j * s j ^ S k)))
    by (intros; unfold Rdiv; ring).
  rewrite rsum_scal, SM.
  assert (FP : INR (fact (S k)) <> 0) by (apply INR_fact_neq_0).
  assert (SQ : (-1) ^ k * (-1) ^ k = 1).
  { rewrite <- pow_add. replace (k + k)%nat with (2 * k)%nat by lia. apply pow_1_even. }
  replace ((-1) ^ S k) with (- (-1) ^ k) by (simpl; ring).
  set (m := (-1) ^ k) in *. set (pr := rprod k s).
  transitivity ((m * m) * pr / (INR (fact (S k)) * gear_g0 k s)); [|rewrite SQ, Rmult_1_l; reflexivity].
  field. split; (exact FP || exact G).
Qed.

Lemma rprod_pos : forall n f, (forall i, (i < n)%nat -> 0 < f i) -> 0 < rprod n f.
Proof.
  induction n as [|n IH]; intros f P; simpl; [lra|]. apply Rmult_lt_0_compat; [apply IH; auto|auto].
Qed.

Theorem C73_estimate_gear : forall k X c pv h d i l y,
  (0 < k)%nat -> 0 < h -> newest_first pv -> is_poly (S k) c X -> samples X pv ->
  gear_get k pv h true = Ok d ->
  derivable_pt_lim (X i) (t_new pv h) l -> df_C1 d * y + df_C0 d i = l ->
  lte_estimate d y i = Some (Rabs (y - X i (t_new pv h))).
Proof.
  intros k X c pv h d i l y K H N P SA G D Y.
  pose proof (C18_gear k X c pv h true d K H N P SA G) as SE.
  destruct (C19_gear k pv h d K H N G) as [_ PE]. specialize (PE X c P SA).
  assert (L : (k < length pv)%nat).
  { unfold gear_get in G. destruct (Nat.leb_spec (length pv) k); [discriminate|lia]. }
  destruct (gear_get_ok k pv h true L) as (d' & E & _ & _ & LT & PR). rewrite E in G. injection G as ->.
  destruct (PR eq_refl) as (f & F & _).
  apply (estimate_exact X c (S k) pv h d i l y f _ SE PE F); auto.
  rewrite LT. set (s j := h + s_t (nth 0 pv no_sample) - s_t (nth j pv no_sample)) in *.
  assert (G0 : 0 < gear_g0 k s) by (apply gear_g0_pos; auto).
  assert (SP : forall j, (j < S k)%nat -> 0 < s j) by (apply gear_s_pos; auto).
  rewrite gear_lte_val; [|auto|apply gear_s_distinct; auto|apply gear_s_nonzero; auto|lra].
  assert (FP : 0 < INR (fact (S k))) by (apply INR_fact_lt_0).
  assert (0 < rprod (S k) s) by (apply rprod_pos; auto).
  assert (0 < rprod k s) by (apply rprod_pos; intros; apply SP; lia).
  assert (0 < rprod k s / (INR (fact (S k)) * gear_g0 k s)).
  { apply Rdiv_lt_0_compat; auto. apply Rmult_lt_0_compat; auto. }
  assert (0 < / INR (fact (S k)) * rprod (S k) s).
  { apply Rmult_lt_0_compat; auto. apply Rinv_0_lt_compat; auto. }
  replace (gear_pred_lte k s) with (- (/ INR (fact (S k)) * rprod (S k) s)) by (unfold gear_pred_lte, Rdiv; ring).
  lra.
Qed.
Print Assumptions C73_estimate_gear.

(** With implicit Euler the estimate is wrong: 2.5 instead of 4. *)
Theorem C73_estimate_implicit_euler_refuted : exists X c pv h d l y,
  0 < h /\ newest_first pv /\ is_poly 2 c X /\ samples X pv /\ ie_get pv h true = Ok d /\
  derivable_pt_lim (X 0%nat) (t_new pv h) l /\ df_C1 d * y + df_C0 d 0%nat = l /\
  lte_estimate d y 0 = Some (5/2) /\ Rabs (y - X 0%nat (t_new pv h)) = 4.
Proof.
  set (X := fun (_ : nat) t => t ^ 2). set (c := fun (_ : nat) j => dlt j 2).
  set (p0 := mkS 0 (fun i => X i 0) None). set (p1 := mkS (-1) (fun i => X i (-1)) None).
  exists X, c, [p0; p1], 2. eexists. exists 4, 8.
  split; [lra|]. split; [|split; [|split; [|split; [reflexivity|]]]].
  - simpl. repeat split; try tauto. intros q [<-|[]]. simpl. lra.
  - intros i t. unfold c, X. rewrite rsum_dlt by lia. reflexivity.
  - intros q [<-|[<-|[]]] i; (split; [reflexivity|discriminate]).
  - split; [|split; [|split]].
    + replace 4 with (INR 2 * (t_new [p0; p1] 2) ^ 1) by (simpl; ring). apply derivable_pt_lim_pow.
    + simpl. unfold X. simpl. lra.
    + unfold lte_estimate. simpl. unfold X. simpl. f_equal.
      match goal with |- Rabs ?a = _ => replace a with (5/2) by field end. apply Rabs_pos_eq. lra.
    + simpl. unfold X. simpl. replace (8 - (0 + 2) * ((0 + 2) * 1)) with 4 by ring. apply Rabs_pos_eq. lra.
Qed.
Print Assumptions C73_estimate_implicit_euler_refuted.

(** The second order formula on the grid 1, 1/2, 0 with step 1 applied to t^2:
    slope 4 at 2. *)
Example C17_gear_example : exists d,
  gear_get 2 [mkS 1 (fun _ => 1) None; mkS (1/2) (fun _ => 1/4) None; mkS 0 (fun _ => 0) None] 1 true = Ok d /\
  df_C1 d = 5/3 /\ df_C1 d * 4 + df_C0 d 0%nat = 4.
Proof.
  eexists. split; [reflexivity|]. cbn -[Rdiv].
  unfold gear_g0, gear_gamma, gear_alpha, gear_e. simpl. split; field.
Qed.
