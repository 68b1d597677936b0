(** Property theorems about the Fourier analysis of .FOUR (C163-C166). *)
From Coq Require Import Ascii String List Bool Arith ZArith Reals Lia Lra.
From Verif Require Import Base BaseFacts Str Rsum Newton NewtonFacts Postproc Four.
Import ListNotations.
Open Scope R_scope.

(** ** Floors *)
Lemma floor_iff : forall x z, Int_part x = z <-> IZR z <= x < IZR z + 1.
Proof.
  intros x z. destruct (base_Int_part x) as [B1 B2]. split.
  - intros <-. lra.
  - intros [L U]. apply Z.le_antisymm.
    + apply Z.lt_succ_r, lt_IZR. rewrite succ_IZR. lra.
    + apply Z.lt_succ_r, lt_IZR. rewrite succ_IZR. lra.
Qed.
Lemma floor_pos : forall x, (0 <? Int_part x)%Z = true <-> 1 <= x.
Proof.
  intros x. rewrite Z.ltb_lt. destruct (base_Int_part x) as [B1 B2]. split; intros H.
  - assert (Q : 1 <= IZR (Int_part x)) by (apply (IZR_le 1); lia). lra.
  - apply lt_IZR. lra.
Qed.
Lemma floor_not : forall x, x < 1 -> (0 <? Int_part x)%Z = false.
Proof. intros x H. destruct (0 <? Int_part x)%Z eqn:E; [|reflexivity]. apply floor_pos in E. lra. Qed.
Lemma floordiv_periods : forall t fund i, 0 < fund -> (0 < i)%Z -> floordiv t (IZR i / fund) = Int_part (t * fund / IZR i).
Proof. intros t fund i F I. unfold floordiv. f_equal. apply (IZR_lt 0) in I. field. split; lra. Qed.

(** * C163: the data that are used *)

(** The number of periods, by the length [P] of the simulation in periods. *)
Lemma periods_cases : forall t0 t1 fund, 0 < fund -> let P := (t1 - t0) * fund in
  periods t0 t1 fund =
    if Rlt_b P 1 then Err IndexError
    else if Rlt_b P 3 then Ok (Int_part P)
    else if Rlt_b P 9 then Ok 1%Z
    else Ok (Int_part (P / 9)).
Proof.
  intros t0 t1 fund F P. unfold periods. cbn [map]. rewrite !floordiv_periods by (try exact F; lia). fold P.
  replace (P / 1) with P by field. cbn [filter].
  assert (D : forall i, 0 < i -> i <= P -> (0 <? Int_part (P / i))%Z = true).
  { intros i I L. apply floor_pos. apply Rmult_le_reg_r with i; [exact I|]. unfold Rdiv. rewrite Rmult_assoc, Rinv_l by lra. lra. }
  assert (N : forall i, 0 < i -> P < i -> (0 <? Int_part (P / i))%Z = false).
  { intros i I L. apply floor_not. apply Rmult_lt_reg_r with i; [exact I|]. unfold Rdiv. rewrite Rmult_assoc, Rinv_l by lra. lra. }
  assert (D1 : 1 <= P -> (0 <? Int_part P)%Z = true) by (intros; apply floor_pos; assumption).
  assert (N1 : P < 1 -> (0 <? Int_part P)%Z = false) by (intros; apply floor_not; assumption).
  assert (ONE : forall i, 0 < i -> i <= P -> P < 2 * i -> Int_part (P / i) = 1%Z).
  { intros i I L U. apply floor_iff. split.
    - apply Rmult_le_reg_r with i; [exact I|]. unfold Rdiv. rewrite Rmult_assoc, Rinv_l by lra. lra.
    - apply Rmult_lt_reg_r with i; [exact I|]. unfold Rdiv. rewrite Rmult_assoc, Rinv_l by lra. lra. }
  destruct (Rlt_b P 1) eqn:B1; [apply Rlt_b_true in B1|apply Rlt_b_false in B1].
  - rewrite N1, !N by lra. reflexivity.
  - rewrite D1 by lra. destruct (Rlt_b P 3) eqn:B3; [apply Rlt_b_true in B3|apply Rlt_b_false in B3].
    + rewrite !N by lra. reflexivity.
    + rewrite (D 3) by lra. destruct (Rlt_b P 9) eqn:B9; [apply Rlt_b_true in B9|apply Rlt_b_false in B9].
      * rewrite (N 9) by lra. destruct (Rlt_le_dec P 5) as [B5|B5].
        { rewrite (N 5), (N 7) by lra. cbn [rev app]. rewrite (ONE 3) by lra. reflexivity. }
        rewrite (D 5) by lra. destruct (Rlt_le_dec P 7) as [B7|B7].
        { rewrite (N 7) by lra. cbn [rev app]. rewrite (ONE 5) by lra. reflexivity. }
        rewrite (D 7) by lra. cbn [rev app]. rewrite (ONE 7) by lra. reflexivity.
      * rewrite (D 5), (D 7), (D 9) by lra. reflexivity.
Qed.

(** A whole number of periods, at least one, that fits in the simulation; without a
    period in the simulation the analysis fails. *)
Lemma periods_fit : forall t0 t1 fund, 0 < fund -> 1 <= (t1 - t0) * fund ->
  exists k, periods t0 t1 fund = Ok k /\ (1 <= k)%Z /\ t0 <= t1 - IZR k / fund.
Proof.
  intros t0 t1 fund F L. rewrite periods_cases by exact F. set (P := (t1 - t0) * fund) in *. cbv zeta.
  assert (B1 : Rlt_b P 1 = false) by (apply Rlt_b_false; exact L). rewrite B1.
  assert (Q : forall k, (1 <= k)%Z -> IZR k <= P -> (1 <= k)%Z /\ t0 <= t1 - IZR k / fund).
  { intros k K1 K2. split; [exact K1|]. assert (IZR k / fund <= t1 - t0); [|lra]. apply Rmult_le_reg_r with fund; [exact F|].
    unfold Rdiv. rewrite Rmult_assoc, Rinv_l by lra. fold P. lra. }
  destruct (Rlt_b P 3) eqn:B3; [|destruct (Rlt_b P 9) eqn:B9]; eexists; (split; [reflexivity|apply Q]).
  - apply floor_pos in L. apply Z.ltb_lt in L. lia.
  - apply base_Int_part.
  - lia.
  - exact L.
  - apply Rlt_b_false in B9. assert (W : 1 <= P / 9) by lra. apply floor_pos in W. apply Z.ltb_lt in W. lia.
  - apply Rlt_b_false in B9. destruct (base_Int_part (P / 9)) as [W _]. lra.
Qed.

(** ** Lists *)
Lemma stride_map : forall A (g : nat -> A) m q fuel a, (1 <= m)%nat -> (q * m <= fuel)%nat ->
  stride fuel m (map g (seq a (q * m))) = map (fun j => g (a + j * m)%nat) (seq 0 q).
Proof.
  intros A g m q. induction q as [|q IH]; intros fuel a M F.
  - cbn. destruct fuel; reflexivity.
  - cbn [Nat.mul] in *. destruct m as [|m]; [lia|]. destruct fuel as [|fuel]; [lia|]. cbn [Nat.add seq map stride].
    replace (S m - 1)%nat with m by lia. rewrite seq_app, map_app.
    replace m with (List.length (map g (seq (S a) m))) at 2 by (rewrite map_length, seq_length; reflexivity).
    rewrite skipn_app, skipn_all, Nat.sub_diag. cbn [skipn app].
    rewrite IH by lia. rewrite Nat.mul_0_l, Nat.add_0_r. f_equal. rewrite <- seq_shift, map_map. apply map_ext. intros j. f_equal. lia.
Qed.

(** The samples of [k] periods before [t1], and the lines that are returned. *)
Definition sample (idata : R -> R) (t1 fund : R) (k : nat) (s : nat) : R := idata (t1 - INR k / fund + INR s / (20 * fund)).
Definition harmonic_lines (idata : R -> R) (t1 fund : R) (k : nat) : list cpx := map (fun j => dft (20 * k) (sample idata t1 fund k) (j * k)) (seq 0 10).

Lemma thd_ok : forall g : nat -> cpx, thd_of (map g (seq 0 10)) = Ok (sqrt (fold_right Rplus 0 (map (fun j => cnorm2 (g j)) (seq 2 8))) / cmod (g 1%nat)).
Proof. intros g. reflexivity. Qed.

Lemma dft_ext : forall n x y m, (forall s, (s < n)%nat -> x s = y s) -> dft n x m = dft n y m.
Proof. intros n x y m H. unfold dft. f_equal; [|f_equal]; apply rsum_ext; intros s S0; rewrite H by exact S0; reflexivity. Qed.

Lemma fourier_eq : forall idata t0 t1 fund (k : nat), 0 < fund -> (1 <= k)%nat -> periods t0 t1 fund = Ok (Z.of_nat k) ->
  exists thd, thd_of (harmonic_lines idata t1 fund k) = Ok thd /\
  fourier true idata t0 t1 fund = Ok (map (fun j => INR j * fund) (seq 0 10), harmonic_lines idata t1 fund k, thd).
Proof.
  intros idata t0 t1 fund k F K E. unfold fourier. rewrite E. cbn [bindr negb]. rewrite Nat2Z.id, <- INR_IZR_INZ.
  assert (KR : 0 < INR k) by (apply lt_0_INR; lia).
  assert (N : Z.to_nat (floordiv (t1 - (t1 - INR k / fund)) (1 / (2 * 10 * fund))) = (20 * k)%nat).
  { unfold floordiv. assert (Q : Int_part ((t1 - (t1 - INR k / fund)) / (1 / (2 * 10 * fund))) = Z.of_nat (20 * k)); [|rewrite Q; apply Nat2Z.id].
    apply floor_iff. rewrite <- INR_IZR_INZ, mult_INR. replace (INR 20) with 20 by (rewrite INR_IZR_INZ; reflexivity).
    replace ((t1 - (t1 - INR k / fund)) / (1 / (2 * 10 * fund))) with (20 * INR k) by (field; lra). lra. }
  rewrite N. assert (N20 : INR (20 * k) = 20 * INR k) by (rewrite mult_INR; f_equal; rewrite INR_IZR_INZ; reflexivity).
  set (x := fun s : nat => idata (t1 - INR k / fund + INR s * ((t1 - (t1 - INR k / fund)) / INR (20 * k)))).
  assert (EF : stride (20 * k) k (removelast (rfft (20 * k) x)) = harmonic_lines idata t1 fund k).
  { unfold rfft. replace (20 * k / 2 + 1)%nat with (S (10 * k)).
    - rewrite seq_S, map_app. cbn [map]. rewrite removelast_last. rewrite stride_map by lia. unfold harmonic_lines. apply map_ext. intros j. cbn [Nat.add].
      apply dft_ext. intros s _. unfold x, sample. f_equal. f_equal. rewrite N20. field. lra.
    - replace (20 * k)%nat with (10 * k * 2)%nat by lia. rewrite Nat.div_mul by lia. lia. }
  fold x. rewrite EF.
  assert (Ef : stride (20 * k) k (fftfreq (20 * k) (1 / (2 * 10 * fund))) =
     map (fun j => (if (j * k <? (20 * k + 1) / 2)%nat then INR (j * k) else INR (j * k) - INR (20 * k)) / (INR (20 * k) * (1 / (2 * 10 * fund)))) (seq 0 20)).
  { unfold fftfreq. rewrite stride_map by lia. apply map_ext. intros j. reflexivity. }
  rewrite Ef. rewrite map_length, seq_length. change (20 / 2)%nat with 10%nat. rewrite firstn_map. change (firstn 10 (seq 0 20)) with (seq 0 10).
  exists (sqrt (fold_right Rplus 0 (map (fun j => cnorm2 (dft (20 * k) (sample idata t1 fund k) (j * k))) (seq 2 8))) / cmod (dft (20 * k) (sample idata t1 fund k) (1 * k))).
  assert (T := thd_ok (fun j => dft (20 * k) (sample idata t1 fund k) (j * k))). fold (harmonic_lines idata t1 fund k) in T. rewrite T. split; [reflexivity|].
  cbn [bindr]. f_equal. f_equal. f_equal. apply map_ext_in. intros j J. apply in_seq in J.
  assert (H : ((20 * k + 1) / 2 = 10 * k)%nat).
  { replace (20 * k + 1)%nat with (10 * k * 2 + 1)%nat by lia. rewrite Nat.div_add_l by lia. change (1 / 2)%nat with 0%nat. lia. }
  rewrite H. assert (L : (j * k <? 10 * k)%nat = true) by (apply Nat.ltb_lt; nia). rewrite L, N20, mult_INR. field. lra.
Qed.

(** The frequencies are 0, f, ..., 9f; the result is made of the samples of the last
    [k >= 1] whole periods only. *)
Theorem C163_window : forall t0 t1 fund, 0 < fund -> 1 <= (t1 - t0) * fund -> exists k, (1 <= k)%nat /\ t0 <= t1 - INR k / fund /\
  forall idata, exists F thd, fourier true idata t0 t1 fund = Ok (map (fun j => INR j * fund) (seq 0 10), F, thd) /\
    List.length F = 10%nat /\
    forall idata', (forall t, t1 - INR k / fund <= t < t1 -> idata' t = idata t) -> fourier true idata' t0 t1 fund = fourier true idata t0 t1 fund.
Proof.
  intros t0 t1 fund F L. destruct (periods_fit t0 t1 fund F L) as (z & E & Z1 & Z2). exists (Z.to_nat z).
  assert (ZN : Z.of_nat (Z.to_nat z) = z) by (apply Z2Nat.id; lia). assert (K : (1 <= Z.to_nat z)%nat) by lia.
  split; [exact K|]. split; [rewrite INR_IZR_INZ, ZN; exact Z2|]. intros idata. rewrite <- ZN in E.
  destruct (fourier_eq idata t0 t1 fund _ F K E) as (thd & T & Q). exists (harmonic_lines idata t1 fund (Z.to_nat z)), thd. split; [exact Q|].
  split; [reflexivity|]. intros idata' H. destruct (fourier_eq idata' t0 t1 fund _ F K E) as (thd' & T' & Q'). rewrite Q, Q'.
  assert (EL : harmonic_lines idata' t1 fund (Z.to_nat z) = harmonic_lines idata t1 fund (Z.to_nat z)); [|rewrite EL in *; rewrite T in T'; injection T' as <-; reflexivity].
  unfold harmonic_lines. apply map_ext. intros j. apply dft_ext. intros s S0. unfold sample. apply H.
  set (k := Z.to_nat z) in *. assert (0 <= INR s) by apply pos_INR. assert (SR : INR s < INR (20 * k)) by (apply lt_INR; exact S0).
  rewrite mult_INR in SR. replace (INR 20) with 20 in SR by (rewrite INR_IZR_INZ; reflexivity). split.
  - assert (0 <= INR s / (20 * fund)); [|lra]. apply Rmult_le_pos; [assumption|]. left. apply Rinv_0_lt_compat. lra.
  - assert (INR s / (20 * fund) < INR k / fund); [|lra]. apply Rmult_lt_reg_r with (20 * fund); [lra|].
    replace (INR s / (20 * fund) * (20 * fund)) with (INR s) by (field; lra). replace (INR k / fund * (20 * fund)) with (20 * INR k) by (field; lra). exact SR.
Qed.
Print Assumptions C163_window.

(** A simulation shorter than one period is refused. *)
Theorem C163_short : forall slices idata t0 t1 fund, 0 < fund -> (t1 - t0) * fund < 1 -> fourier slices idata t0 t1 fund = Err IndexError.
Proof.
  intros slices idata t0 t1 fund F L. unfold fourier. rewrite periods_cases by exact F. cbv zeta.
  assert (B : Rlt_b ((t1 - t0) * fund) 1 = true) by (apply Rlt_b_true; exact L). rewrite B. reflexivity.
Qed.
Print Assumptions C163_short.

(** The signal of a label with two names is the first one less the second, sample by sample. *)
Theorem C163_difference : forall get a b da db, get a = Ok da -> get b = Ok db -> List.length da = List.length db ->
  exists d, four_data get (Two a (Some b)) = Ok d /\ List.length d = List.length da /\
    forall i x y, nth_error da i = Some x -> nth_error db i = Some y -> nth_error d i = Some (x - y).
Proof.
  intros get a b da db A B L. cbn [four_data]. rewrite A, B. cbn [bindr]. eexists. split; [reflexivity|]. clear A B. revert db L.
  induction da as [|u da IH]; intros [|v db] L; try discriminate L; [split; [reflexivity|intros i x y H; destruct i; discriminate H]|].
  cbn [List.length] in L. injection L as L. destruct (IH db L) as [I1 I2]. cbn [rsub List.length]. split; [f_equal; exact I1|].
  intros [|i] x y H1 H2; cbn [nth_error] in *; [injection H1 as <-; injection H2 as <-; reflexivity|exact (I2 i x y H1 H2)].
Qed.
Print Assumptions C163_difference.

(** With Python 3 (and numpy since 1.12) every analysis fails. *)
Theorem C163_python3_refuted : forall idata t0 t1 fund, 0 < fund -> 1 <= (t1 - t0) * fund -> fourier false idata t0 t1 fund = Err TypeError.
Proof. intros idata t0 t1 fund F L. destruct (periods_fit t0 t1 fund F L) as (z & E & _). unfold fourier. rewrite E. reflexivity. Qed.
Print Assumptions C163_python3_refuted.

(** * C164: how much of the data *)

(** 2.5 periods: two of them are used, 80% of the simulation, although one would be
    possible. *)
Theorem C164_half_refuted : exists t0 t1 fund k, 0 < fund /\ periods t0 t1 fund = Ok k /\ 2 * (IZR k / fund) > t1 - t0 /\ 2 * (1 / fund) <= t1 - t0.
Proof.
  exists 0, (5 / 2), 1, 2%Z. split; [lra|]. split; [|split; lra]. rewrite periods_cases by lra. cbv zeta.
  assert (B1 : Rlt_b ((5 / 2 - 0) * 1) 1 = false) by (apply Rlt_b_false; lra). assert (B3 : Rlt_b ((5 / 2 - 0) * 1) 3 = true) by (apply Rlt_b_true; lra).
  rewrite B1, B3. f_equal. apply floor_iff. lra.
Qed.
Print Assumptions C164_half_refuted.
(** From three periods on another period would always fit in the half. *)
Theorem C164_most_refuted : forall t0 t1 fund k, 0 < fund -> 4 <= (t1 - t0) * fund -> periods t0 t1 fund = Ok k -> 2 * (IZR (k + 1) / fund) <= t1 - t0.
Proof.
  intros t0 t1 fund k F L E. rewrite periods_cases in E by exact F. set (P := (t1 - t0) * fund) in *. cbv zeta in E.
  assert (B1 : Rlt_b P 1 = false) by (apply Rlt_b_false; lra). assert (B3 : Rlt_b P 3 = false) by (apply Rlt_b_false; lra). rewrite B1, B3 in E.
  assert (Q : 2 * (IZR k + 1) <= P).
  { destruct (Rlt_b P 9) eqn:B9; injection E as <-; [lra|]. apply Rlt_b_false in B9. destruct (base_Int_part (P / 9)) as [W _]. lra. }
  rewrite plus_IZR. apply Rmult_le_reg_r with fund; [exact F|]. replace (2 * ((IZR k + 1) / fund) * fund) with (2 * (IZR k + 1)) by (field; lra). exact Q.
Qed.
Print Assumptions C164_most_refuted.
(** What is used: all the whole periods below three, one below nine, then one ninth. *)
Theorem C164_actual : forall t0 t1 fund k, 0 < fund -> periods t0 t1 fund = Ok k -> let P := (t1 - t0) * fund in
  (1 <= P < 3 /\ IZR k <= P < IZR k + 1) \/ (3 <= P < 9 /\ k = 1%Z) \/ (9 <= P /\ 9 * IZR k <= P < 9 * (IZR k + 1)).
Proof.
  intros t0 t1 fund k F E P. rewrite periods_cases in E by exact F. cbv zeta in E. fold P in E.
  destruct (Rlt_b P 1) eqn:B1; [discriminate E|]. apply Rlt_b_false in B1.
  destruct (Rlt_b P 3) eqn:B3; [apply Rlt_b_true in B3; injection E as E; left; apply floor_iff in E; lra|]. apply Rlt_b_false in B3.
  destruct (Rlt_b P 9) eqn:B9; [apply Rlt_b_true in B9; injection E as E; right; left; split; [lra|congruence]|]. apply Rlt_b_false in B9.
  injection E as E. right. right. apply floor_iff in E. lra.
Qed.
Print Assumptions C164_actual.
Example C164_example : periods 0 100 1 = Ok 11%Z.
Proof.
  rewrite periods_cases by lra. cbv zeta. assert (B1 : Rlt_b ((100 - 0) * 1) 1 = false) by (apply Rlt_b_false; lra).
  assert (B3 : Rlt_b ((100 - 0) * 1) 3 = false) by (apply Rlt_b_false; lra). assert (B9 : Rlt_b ((100 - 0) * 1) 9 = false) by (apply Rlt_b_false; lra).
  rewrite B1, B3, B9. f_equal. apply floor_iff. lra.
Qed.

(** * C165: the lines of a signal with nine harmonics *)

Definition signal (a b : nat -> R) (fund t : R) : R := rsum 10 (fun h => a h * cos (2 * PI * INR h * fund * t) + b h * sin (2 * PI * INR h * fund * t)).

Lemma cos_sum : forall m p th, rsum m (fun s => cos (p + INR s * th)) * (2 * sin (th / 2)) = sin (p + INR m * th - th / 2) - sin (p - th / 2).
Proof.
  induction m as [|m IH]; intros p th; [cbn [rsum INR]; replace (p + 0 * th - th / 2) with (p - th / 2) by ring; ring|].
  cbn [rsum]. rewrite Rmult_plus_distr_r, IH, S_INR.
  replace (p + (INR m + 1) * th - th / 2) with ((p + INR m * th) + th / 2) by field.
  replace (p + INR m * th - th / 2) with ((p + INR m * th) - th / 2) by ring. rewrite sin_plus, sin_minus. ring.
Qed.
Lemma cos_sum_zero : forall (u n : nat) p, (0 < u < 20)%nat -> rsum (20 * n) (fun s => cos (p + INR s * (INR u * PI / 10))) = 0.
Proof.
  intros u n p U. assert (Q := cos_sum (20 * n) p (INR u * PI / 10)).
  assert (M : INR (20 * n) * (INR u * PI / 10) = 2 * INR (n * u) * PI).
  { rewrite !mult_INR. replace (INR 20) with 20 by (rewrite INR_IZR_INZ; reflexivity). field. }
  rewrite M in Q. replace (p + 2 * INR (n * u) * PI - INR u * PI / 10 / 2) with ((p - INR u * PI / 10 / 2) + 2 * INR (n * u) * PI) in Q by ring.
  rewrite sin_period in Q. assert (S0 : 0 < sin (INR u * PI / 10 / 2)).
  { assert (UR : 0 < INR u < 20). { split; [apply lt_0_INR; lia|]. replace 20 with (INR 20) by (rewrite INR_IZR_INZ; reflexivity). apply lt_INR. lia. }
    assert (PP := PI_RGT_0). apply sin_gt_0.
    - assert (0 < INR u * PI) by (apply Rmult_lt_0_compat; lra). lra.
    - assert (INR u * PI < 20 * PI) by (apply Rmult_lt_compat_r; lra). lra. }
  apply Rmult_eq_reg_r with (2 * sin (INR u * PI / 10 / 2)); [|lra]. rewrite Q. ring.
Qed.
Lemma tcos : forall (u : Z) (n : nat) p, (-20 < u < 20)%Z ->
  rsum (20 * n) (fun s => cos (p + INR s * (IZR u * PI / 10))) = (if (u =? 0)%Z then 20 * INR n * cos p else 0).
Proof.
  intros u n p U. destruct (Z.eqb_spec u 0) as [->|N].
  - rewrite (rsum_ext _ _ (fun _ => cos p * 1)) by (intros s _; replace (p + INR s * (0 * PI / 10)) with p by field; ring). rewrite rsum_scal.
    assert (O : forall m, rsum m (fun _ => 1) = INR m) by (induction m as [|m IH]; [reflexivity|]; cbn [rsum]; rewrite IH, S_INR; reflexivity).
    rewrite O, mult_INR. replace (INR 20) with 20 by (rewrite INR_IZR_INZ; reflexivity). ring.
  - destruct (Z_lt_le_dec 0 u) as [P|P].
    + rewrite <- (cos_sum_zero (Z.to_nat u) n p) by lia. apply rsum_ext. intros s _. f_equal. rewrite (INR_IZR_INZ (Z.to_nat u)), Z2Nat.id by lia. reflexivity.
    + rewrite <- (cos_sum_zero (Z.to_nat (- u)) n (- p)) by lia. apply rsum_ext. intros s _. rewrite <- cos_neg. f_equal.
      rewrite (INR_IZR_INZ (Z.to_nat (- u))), Z2Nat.id by lia. rewrite opp_IZR. field.
Qed.
Lemma sin_as_cos : forall z, sin z = cos (z - PI / 2).
Proof. intros z. rewrite cos_minus, cos_PI2, sin_PI2. ring. Qed.
Lemma tsin : forall (u : Z) (n : nat) p, (-20 < u < 20)%Z ->
  rsum (20 * n) (fun s => sin (p + INR s * (IZR u * PI / 10))) = (if (u =? 0)%Z then 20 * INR n * sin p else 0).
Proof.
  intros u n p U. rewrite (rsum_ext _ _ (fun s => cos ((p - PI / 2) + INR s * (IZR u * PI / 10)))).
  - rewrite tcos by exact U. rewrite <- sin_as_cos. reflexivity.
  - intros s _. rewrite sin_as_cos. f_equal. ring.
Qed.

Definition phase (fund t1 : R) (k h : nat) : R := 2 * PI * INR h * fund * (t1 - INR k / fund).
Lemma arg_split : forall fund t1 (k h s : nat), 0 < fund ->
  2 * PI * INR h * fund * (t1 - INR k / fund + INR s / (20 * fund)) = phase fund t1 k h + INR s * (IZR (Z.of_nat h) * PI / 10).
Proof. intros. unfold phase. rewrite <- INR_IZR_INZ. field. lra. Qed.
Lemma dft_arg : forall (k j s : nat), (1 <= k)%nat -> 2 * PI * INR (j * k) * INR s / INR (20 * k) = INR s * (IZR (Z.of_nat j) * PI / 10).
Proof.
  intros k j s K. rewrite !mult_INR. replace (INR 20) with 20 by (rewrite INR_IZR_INZ; reflexivity). rewrite <- INR_IZR_INZ.
  field. apply not_0_INR. lia.
Qed.
Ltac prods := intros; unfold Rminus; rewrite ?cos_plus, ?sin_plus, ?cos_neg, ?sin_neg; field.
Lemma prod_cc : forall x y, cos x * cos y = / 2 * (cos (x + y) + cos (x - y)). Proof. prods. Qed.
Lemma prod_sc : forall x y, sin x * cos y = / 2 * (sin (x + y) + sin (x - y)). Proof. prods. Qed.
Lemma prod_cs : forall x y, cos x * sin y = / 2 * (sin (x + y) - sin (x - y)). Proof. prods. Qed.
Lemma prod_ss : forall x y, sin x * sin y = / 2 * (cos (x - y) - cos (x + y)). Proof. prods. Qed.

Section Orthogonal.
  Variables (n h j : nat) (p : R).
  Hypothesis H : (h < 10)%nat.
  Hypothesis J : (j < 10)%nat.
  Let X (s : nat) := p + INR s * (IZR (Z.of_nat h) * PI / 10).
  Let Y (s : nat) := INR s * (IZR (Z.of_nat j) * PI / 10).
  Let zp := (Z.of_nat h + Z.of_nat j)%Z.
  Let zm := (Z.of_nat h - Z.of_nat j)%Z.
  Lemma XpY : forall s, X s + Y s = p + INR s * (IZR zp * PI / 10).
  Proof. intros s. unfold X, Y, zp. rewrite plus_IZR. field. Qed.
  Lemma XmY : forall s, X s - Y s = p + INR s * (IZR zm * PI / 10).
  Proof. intros s. unfold X, Y, zm. rewrite minus_IZR. field. Qed.
  Lemma orth_cc : rsum (20 * n) (fun s => cos (X s) * cos (Y s)) = / 2 * ((if (zp =? 0)%Z then 20 * INR n * cos p else 0) + (if (zm =? 0)%Z then 20 * INR n * cos p else 0)).
  Proof.
    rewrite <- (tcos zp n p), <- (tcos zm n p) by (unfold zp, zm; lia). rewrite <- rsum_plus, <- rsum_scal. apply rsum_ext. intros s _. rewrite prod_cc, XpY, XmY. reflexivity.
  Qed.
  Lemma orth_sc : rsum (20 * n) (fun s => sin (X s) * cos (Y s)) = / 2 * ((if (zp =? 0)%Z then 20 * INR n * sin p else 0) + (if (zm =? 0)%Z then 20 * INR n * sin p else 0)).
  Proof.
    rewrite <- (tsin zp n p), <- (tsin zm n p) by (unfold zp, zm; lia). rewrite <- rsum_plus, <- rsum_scal. apply rsum_ext. intros s _. rewrite prod_sc, XpY, XmY. reflexivity.
  Qed.
  Lemma orth_cs : rsum (20 * n) (fun s => cos (X s) * sin (Y s)) = / 2 * ((if (zp =? 0)%Z then 20 * INR n * sin p else 0) - (if (zm =? 0)%Z then 20 * INR n * sin p else 0)).
  Proof.
    rewrite <- (tsin zp n p), <- (tsin zm n p) by (unfold zp, zm; lia). rewrite <- rsum_minus, <- rsum_scal. apply rsum_ext. intros s _. rewrite prod_cs, XpY, XmY. reflexivity.
  Qed.
  Lemma orth_ss : rsum (20 * n) (fun s => sin (X s) * sin (Y s)) = / 2 * ((if (zm =? 0)%Z then 20 * INR n * cos p else 0) - (if (zp =? 0)%Z then 20 * INR n * cos p else 0)).
  Proof.
    rewrite <- (tcos zp n p), <- (tcos zm n p) by (unfold zp, zm; lia). rewrite <- rsum_minus, <- rsum_scal. apply rsum_ext. intros s _. rewrite prod_ss, XpY, XmY. reflexivity.
  Qed.
End Orthogonal.

Lemma zero_sum : forall h j, (Z.of_nat h + Z.of_nat j =? 0)%Z = ((h =? 0)%nat && (j =? 0)%nat)%bool.
Proof. intros [|h] [|j]; try reflexivity; apply Z.eqb_neq; lia. Qed.
Lemma zero_diff : forall h j, (Z.of_nat h - Z.of_nat j =? 0)%Z = (h =? j)%nat.
Proof. intros h j. destruct (Nat.eqb_spec h j) as [->|N]; [rewrite Z.sub_diag; reflexivity|apply Z.eqb_neq; lia]. Qed.

(** The line of a harmonic is half the number of samples times its amplitude, turned by
    the phase of the first sample; that of DC is the number of samples times the mean. *)
Lemma line_of_signal : forall a b fund t1 k j, 0 < fund -> (1 <= k)%nat -> (j < 10)%nat ->
  dft (20 * k) (sample (signal a b fund) t1 fund k) (j * k) =
  if (j =? 0)%nat then (20 * INR k * a 0%nat, 0)
  else let p := phase fund t1 k j in (10 * INR k * (a j * cos p + b j * sin p), 10 * INR k * (a j * sin p - b j * cos p)).
Proof.
  intros a b fund t1 k j F K J. unfold dft.
  assert (RE : rsum (20 * k) (fun s => sample (signal a b fund) t1 fund k s * cos (2 * PI * INR (j * k) * INR s / INR (20 * k))) =
    rsum 10 (fun h => if (h =? j)%nat then (if (j =? 0)%nat then 20 else 10) * INR k * (a h * cos (phase fund t1 k h) + b h * sin (phase fund t1 k h)) else 0)).
  { rewrite (rsum_ext _ _ (fun s => rsum 10 (fun h => a h * (cos (phase fund t1 k h + INR s * (IZR (Z.of_nat h) * PI / 10)) * cos (INR s * (IZR (Z.of_nat j) * PI / 10))) +
        b h * (sin (phase fund t1 k h + INR s * (IZR (Z.of_nat h) * PI / 10)) * cos (INR s * (IZR (Z.of_nat j) * PI / 10)))))).
    - rewrite rsum_swap. apply rsum_ext. intros h H. rewrite rsum_plus, !rsum_scal, (orth_cc k h j _ H J), (orth_sc k h j _ H J). rewrite zero_sum, zero_diff.
      destruct (Nat.eqb_spec h j) as [->|N].
      + destruct (Nat.eqb_spec j 0) as [->|N0]; cbn [andb]; field.
      + destruct (Nat.eqb_spec h 0) as [->|N0]; cbn [andb]; [destruct (Nat.eqb_spec j 0); [congruence|]|]; field.
    - intros s _. rewrite dft_arg by exact K. unfold sample, signal. rewrite <- rsum_scal_r. apply rsum_ext. intros h _. rewrite arg_split by exact F. ring. }
  assert (IM : rsum (20 * k) (fun s => sample (signal a b fund) t1 fund k s * sin (2 * PI * INR (j * k) * INR s / INR (20 * k))) =
    rsum 10 (fun h => if (h =? j)%nat then (if (j =? 0)%nat then 0 else 10) * INR k * (b h * cos (phase fund t1 k h) - a h * sin (phase fund t1 k h)) else 0)).
  { rewrite (rsum_ext _ _ (fun s => rsum 10 (fun h => a h * (cos (phase fund t1 k h + INR s * (IZR (Z.of_nat h) * PI / 10)) * sin (INR s * (IZR (Z.of_nat j) * PI / 10))) +
        b h * (sin (phase fund t1 k h + INR s * (IZR (Z.of_nat h) * PI / 10)) * sin (INR s * (IZR (Z.of_nat j) * PI / 10)))))).
    - rewrite rsum_swap. apply rsum_ext. intros h H. rewrite rsum_plus, !rsum_scal, (orth_cs k h j _ H J), (orth_ss k h j _ H J). rewrite zero_sum, zero_diff.
      destruct (Nat.eqb_spec h j) as [->|N].
      + destruct (Nat.eqb_spec j 0) as [->|N0]; cbn [andb]; field.
      + destruct (Nat.eqb_spec h 0) as [->|N0]; cbn [andb]; [destruct (Nat.eqb_spec j 0); [congruence|]|]; field.
    - intros s _. rewrite dft_arg by exact K. unfold sample, signal. rewrite <- rsum_scal_r. apply rsum_ext. intros h _. rewrite arg_split by exact F. ring. }
  rewrite RE, IM, (rsum_single 10 j (fun h => (if (j =? 0)%nat then 20 else 10) * INR k * (a h * cos (phase fund t1 k h) + b h * sin (phase fund t1 k h))) J),
    (rsum_single 10 j (fun h => (if (j =? 0)%nat then 0 else 10) * INR k * (b h * cos (phase fund t1 k h) - a h * sin (phase fund t1 k h))) J).
  destruct (Nat.eqb_spec j 0) as [->|N]; cbv zeta.
  - assert (P0 : phase fund t1 k 0 = 0) by (unfold phase; cbn [INR]; ring). rewrite P0, cos_0, sin_0. f_equal; ring.
  - f_equal; ring.
Qed.
Lemma norm_line : forall a b fund t1 k j, 0 < fund -> (1 <= k)%nat -> (1 <= j < 10)%nat ->
  cnorm2 (dft (20 * k) (sample (signal a b fund) t1 fund k) (j * k)) = Rsqr (10 * INR k) * (Rsqr (a j) + Rsqr (b j)).
Proof.
  intros a b fund t1 k j F K J. rewrite line_of_signal by (try assumption; lia). destruct (Nat.eqb_spec j 0); [lia|]. cbv zeta. unfold cnorm2. cbn [fst snd].
  set (p := phase fund t1 k j). assert (T := sin2_cos2 p). unfold Rsqr in *.
  replace (10 * INR k * (a j * cos p + b j * sin p) * (10 * INR k * (a j * cos p + b j * sin p)) + 10 * INR k * (a j * sin p - b j * cos p) * (10 * INR k * (a j * sin p - b j * cos p)))
    with (10 * INR k * (10 * INR k) * (a j * a j + b j * b j) * (sin p * sin p + cos p * cos p)) by ring. rewrite T. ring.
Qed.
Definition amplitude (a b : nat -> R) (j : nat) : R := sqrt (Rsqr (a j) + Rsqr (b j)).
Lemma sqr_pos2 : forall x y, 0 <= Rsqr x + Rsqr y.
Proof. intros. apply Rplus_le_le_0_compat; apply Rle_0_sqr. Qed.
Lemma mod_line : forall a b fund t1 k j, 0 < fund -> (1 <= k)%nat -> (1 <= j < 10)%nat ->
  cmod (dft (20 * k) (sample (signal a b fund) t1 fund k) (j * k)) = 10 * INR k * amplitude a b j.
Proof.
  intros a b fund t1 k j F K J. unfold cmod. rewrite norm_line by assumption. rewrite sqrt_mult by (try apply Rle_0_sqr; apply sqr_pos2).
  rewrite sqrt_Rsqr by (assert (0 <= INR k) by apply pos_INR; lra). reflexivity.
Qed.

(** The total harmonic distortion of a DC value with nine harmonics is exact, whatever
    the phases and the time of the simulation. *)
Theorem C165_thd : forall a b t0 t1 fund, 0 < fund -> 1 <= (t1 - t0) * fund -> amplitude a b 1 <> 0 ->
  exists f F, fourier true (signal a b fund) t0 t1 fund =
    Ok (f, F, sqrt (rsum 8 (fun i => Rsqr (amplitude a b (2 + i)))) / amplitude a b 1).
Proof.
  intros a b t0 t1 fund F L A. destruct (periods_fit t0 t1 fund F L) as (z & E & Z1 & _).
  assert (ZN : Z.of_nat (Z.to_nat z) = z) by (apply Z2Nat.id; lia). set (k := Z.to_nat z) in *. assert (K : (1 <= k)%nat) by lia. rewrite <- ZN in E.
  destruct (fourier_eq (signal a b fund) t0 t1 fund k F K E) as (thd & T & Q). eexists. eexists. rewrite Q. f_equal. f_equal.
  unfold harmonic_lines in T. rewrite thd_ok in T.
  apply (f_equal (fun r => match r with Ok v => v | Err _ => 0 end)) in T. cbv beta iota in T. rewrite <- T.
  assert (KR : 0 < 10 * INR k) by (assert (0 < INR k) by (apply lt_0_INR; lia); lra).
  rewrite (mod_line a b fund t1 k 1 F K) by lia.
  assert (SS : fold_right Rplus 0 (map (fun j => cnorm2 (dft (20 * k) (sample (signal a b fund) t1 fund k) (j * k))) (seq 2 8)) =
    Rsqr (10 * INR k) * rsum 8 (fun i => Rsqr (amplitude a b (2 + i)))).
  { assert (SM : forall j, Rsqr (amplitude a b j) = Rsqr (a j) + Rsqr (b j)) by (intros j; apply Rsqr_sqrt; apply sqr_pos2).
    cbn [seq map fold_right rsum Nat.add]. rewrite !norm_line by (try assumption; lia). rewrite !SM. ring. }
  rewrite SS, sqrt_mult by (try apply Rle_0_sqr; apply rsum_nonneg; intros; apply Rle_0_sqr). rewrite sqrt_Rsqr by lra. field. split; [exact A|lra].
Qed.
Print Assumptions C165_thd.

(** The lines themselves: amplitude times half the number of samples. *)
Theorem C165_lines : forall a b t0 t1 fund, 0 < fund -> 1 <= (t1 - t0) * fund -> exists k, (1 <= k)%nat /\ periods t0 t1 fund = Ok (Z.of_nat k) /\
  exists f F thd, fourier true (signal a b fund) t0 t1 fund = Ok (f, F, thd) /\ List.length F = 10%nat /\
    nth 0 F (0, 0) = (20 * INR k * a 0%nat, 0) /\ forall j, (1 <= j < 10)%nat -> cmod (nth j F (0, 0)) = 10 * INR k * amplitude a b j.
Proof.
  intros a b t0 t1 fund F L. destruct (periods_fit t0 t1 fund F L) as (z & E & Z1 & _).
  assert (ZN : Z.of_nat (Z.to_nat z) = z) by (apply Z2Nat.id; lia). set (k := Z.to_nat z) in *. assert (K : (1 <= k)%nat) by lia. rewrite <- ZN in E.
  exists k. split; [exact K|]. split; [exact E|]. destruct (fourier_eq (signal a b fund) t0 t1 fund k F K E) as (thd & T & Q).
  do 3 eexists. split; [exact Q|]. split; [reflexivity|].
  assert (NTH : forall j, (j < 10)%nat -> nth j (harmonic_lines (signal a b fund) t1 fund k) (0, 0) = dft (20 * k) (sample (signal a b fund) t1 fund k) (j * k)).
  { intros j J. unfold harmonic_lines. rewrite (nth_indep _ (0, 0) (dft (20 * k) (sample (signal a b fund) t1 fund k) (0 * k))) by (rewrite map_length, seq_length; exact J).
    rewrite (map_nth (fun j => dft (20 * k) (sample (signal a b fund) t1 fund k) (j * k))). rewrite seq_nth by exact J. reflexivity. }
  split; [rewrite NTH by lia; rewrite (line_of_signal a b fund t1 k 0 F K) by lia; reflexivity|].
  intros j J. rewrite NTH by lia. apply mod_line; assumption.
Qed.
Print Assumptions C165_lines.

(** * C166: the printed table *)

Lemma nth_mags : forall F j, nth j (map cmod F) 0 = cmod (nth j F (0, 0)).
Proof.
  intros F j. destruct (lt_dec j (List.length F)) as [L|L].
  - rewrite (nth_indep _ 0 (cmod (0, 0))) by (rewrite map_length; exact L). apply map_nth.
  - rewrite !nth_overflow by (rewrite ?map_length; lia). unfold cmod, cnorm2. cbn [fst snd]. replace (0 * 0 + 0 * 0) with 0 by ring. symmetry. apply sqrt_0.
Qed.
(** The DC component that is printed is the mean times the number of samples, and the
    magnitude of a harmonic its amplitude times half of that. *)
Theorem C166_scale_refuted : forall a b t0 t1 fund, 0 < fund -> 1 <= (t1 - t0) * fund -> exists (k : nat) f F thd, (1 <= k)%nat /\
  fourier true (signal a b fund) t0 t1 fund = Ok (f, F, thd) /\ ft_dc (print_fourier f F) = 20 * INR k * a 0%nat /\
  forall j fr m r, In (j, fr, m, r) (ft_rows (print_fourier f F)) -> m = 10 * INR k * amplitude a b j.
Proof.
  intros a b t0 t1 fund FP L. destruct (C165_lines a b t0 t1 fund FP L) as (k & K & _ & f & F & thd & E & LF & D & M).
  exists k, f, F, thd. split; [exact K|]. split; [exact E|]. split; [cbn [print_fourier ft_dc]; rewrite D; reflexivity|].
  intros j fr m r H. cbn [print_fourier ft_rows] in H. apply in_map_iff in H. destruct H as (i & Q & I). apply in_seq in I. rewrite LF in I. injection Q as <- _ <- _.
  rewrite nth_mags. apply M. lia.
Qed.
Print Assumptions C166_scale_refuted.

Lemma argmax_from_spec : forall l k best v, (best < k)%nat ->
  (argmax_from k best v l = best /\ Forall (fun x => x <= v) l) \/
  (exists i, argmax_from k best v l = (k + i)%nat /\ (i < List.length l)%nat /\ v < nth i l 0 /\ Forall (fun x => x <= nth i l 0) l).
Proof.
  induction l as [|x l IH]; intros k best v H; cbn [argmax_from]; [left; split; [reflexivity|constructor]|].
  destruct (Rlt_b v x) eqn:B; [apply Rlt_b_true in B|apply Rlt_b_false in B].
  - right. destruct (IH (S k) k x ltac:(lia)) as [[E F]|(i & E & I & V & F)].
    + exists 0%nat. split; [lia|]. split; [cbn; lia|]. cbn [nth]. split; [exact B|]. constructor; [lra|exact F].
    + exists (S i). split; [lia|]. split; [cbn; lia|]. cbn [nth]. split; [lra|]. constructor; [lra|exact F].
  - destruct (IH (S k) best v ltac:(lia)) as [[E F]|(i & E & I & V & F)].
    + left. split; [exact E|]. constructor; assumption.
    + right. exists (S i). split; [lia|]. split; [cbn; lia|]. cbn [nth]. split; [exact V|]. constructor; [lra|exact F].
Qed.
Lemma argmax_spec : forall l, l <> [] -> (argmax l < List.length l)%nat /\ forall x, In x l -> x <= nth (argmax l) l 0.
Proof.
  intros [|x l] H; [congruence|]. cbn [argmax]. destruct (argmax_from_spec l 1 0 x ltac:(lia)) as [[E F]|(i & E & I & V & F)]; rewrite E.
  - split; [cbn; lia|]. cbn [nth]. rewrite Forall_forall in F. intros y [<-|Y]; [lra|apply F; exact Y].
  - cbn [Nat.add]. split; [cbn; lia|]. cbn [nth]. rewrite Forall_forall in F. intros y [<-|Y]; [lra|apply F; exact Y].
Qed.
(** The reference is the strongest line, and the normalized magnitudes are the ratios of
    the amplitudes; the DC line counts with twice its value. *)
Theorem C166_normalized : forall a b t0 t1 fund, 0 < fund -> 1 <= (t1 - t0) * fund ->
  let weight j := if (j =? 0)%nat then 2 * Rabs (a 0%nat) else amplitude a b j in
  exists f F thd, fourier true (signal a b fund) t0 t1 fund = Ok (f, F, thd) /\
  (ft_ref (print_fourier f F) < 10)%nat /\ (forall j, (j < 10)%nat -> weight j <= weight (ft_ref (print_fourier f F))) /\
  map (fun row => (fst (fst (fst row)), snd (fst (fst row)))) (ft_rows (print_fourier f F)) = map (fun j => (j, INR j * fund)) (seq 1 9) /\
  forall j fr m r, In (j, fr, m, r) (ft_rows (print_fourier f F)) -> r = weight j / weight (ft_ref (print_fourier f F)).
Proof.
  intros a b t0 t1 fund FP L weight. destruct (C165_lines a b t0 t1 fund FP L) as (k & K & PE & f & F & thd & E & LF & D & M).
  assert (KR : 0 < INR k) by (apply lt_0_INR; lia).
  assert (W : forall j, (j < 10)%nat -> cmod (nth j F (0, 0)) = 10 * INR k * weight j).
  { intros j J. unfold weight. destruct (Nat.eqb_spec j 0) as [->|N]; [|apply M; lia]. rewrite D. unfold cmod, cnorm2. cbn [fst snd].
    replace (20 * INR k * a 0%nat * (20 * INR k * a 0%nat) + 0 * 0) with (Rsqr (20 * INR k * a 0%nat)) by (unfold Rsqr; ring).
    rewrite sqrt_Rsqr_abs, !Rabs_mult. rewrite (Rabs_right 20) by lra. rewrite (Rabs_right (INR k)) by lra. ring. }
  assert (NE : map cmod F <> []) by (destruct F; [discriminate LF|discriminate]).
  destruct (argmax_spec _ NE) as [A1 A2]. rewrite map_length, LF in A1.
  exists f, F, thd. split; [exact E|]. cbn [print_fourier ft_ref ft_rows]. split; [exact A1|]. split; [|split].
  - intros j J. assert (Q := A2 (cmod (nth j F (0, 0)))). rewrite nth_mags, (W _ A1), (W j J) in Q.
    assert (I : In (10 * INR k * weight j) (map cmod F)) by (rewrite <- (W j J); apply in_map, nth_In; lia). specialize (Q I).
    apply Rmult_le_reg_l with (10 * INR k); [lra|exact Q].
  - rewrite map_map. cbn [fst snd]. rewrite LF. change (10 - 1)%nat with 9%nat. apply map_ext_in. intros j J. apply in_seq in J. f_equal.
    destruct (fourier_eq (signal a b fund) t0 t1 fund k FP K PE) as (thd' & _ & Q). rewrite Q in E.
    apply (f_equal (fun r => match r with Ok (v, _, _) => v | Err _ => [] end)) in E. cbv beta iota in E. rewrite <- E.
    rewrite (nth_indep _ 0 (INR 0 * fund)) by (rewrite map_length, seq_length; lia). rewrite (map_nth (fun j => INR j * fund)). rewrite seq_nth by lia. reflexivity.
  - intros j fr m r H. apply in_map_iff in H. destruct H as (i & Q & I). apply in_seq in I. rewrite LF in I. injection Q as <- _ _ <-.
    rewrite !nth_mags, (W _ A1), (W i) by lia. destruct (Req_dec (weight (argmax (map cmod F))) 0) as [Z|Z].
    + rewrite Z, Rmult_0_r. unfold Rdiv. assert (Y := A2 (cmod (nth i F (0, 0)))). rewrite nth_mags, (W _ A1), Z, (W i) in Y by lia.
      assert (YI : In (10 * INR k * weight i) (map cmod F)) by (rewrite <- (W i) by lia; apply in_map, nth_In; lia). specialize (Y YI).
      assert (WI : 0 <= weight i) by (unfold weight; destruct (i =? 0)%nat; [assert (0 <= Rabs (a 0%nat)) by apply Rabs_pos; lra|apply sqrt_pos]).
      assert (YZ : 10 * INR k * weight i = 0) by (assert (0 <= 10 * INR k * weight i) by (apply Rmult_le_pos; lra); lra).
      rewrite YZ. apply Rmult_integral in YZ. destruct YZ as [YZ|YZ]; [lra|]. rewrite YZ. ring.
    + field. split; [exact Z|lra].
Qed.
Print Assumptions C166_normalized.

(** A pure sine of amplitude 2 over 2.5 periods: THD 0. *)
Example C165_example : exists f F, fourier true (signal (fun _ => 0) (fun h => if (h =? 1)%nat then 2 else 0) 1) 0 (5 / 2) 1 = Ok (f, F, 0).
Proof.
  destruct (C165_thd (fun _ => 0) (fun h => if (h =? 1)%nat then 2 else 0) 0 (5 / 2) 1) as (f & F & E); [lra|lra| |].
  - unfold amplitude. cbn [Nat.eqb]. unfold Rsqr. replace (0 * 0 + 2 * 2) with (2 * 2) by ring. rewrite sqrt_square by lra. lra.
  - exists f, F. rewrite E. f_equal. f_equal. rewrite rsum_0; [rewrite sqrt_0; unfold Rdiv; ring|]. intros i _. unfold amplitude. cbn [Nat.add Nat.eqb].
    replace (Rsqr 0 + Rsqr 0) with 0 by (unfold Rsqr; ring). rewrite sqrt_0. unfold Rsqr. ring.
Qed.
