(** Property theorems about the FFT analysis (C56, C57, C100, C104-C106). *)
From Coq Require Import Ascii String List Bool Arith ZArith Reals Lia Lra.
From Verif Require Import Base BaseFacts Str Units Subckt Directive PropsSubckt PropsDirective Newton NewtonFacts TimeFun PropsTime Fourier.
Import ListNotations.
Open Scope R_scope.

(** * C56 *)
Lemma trunc_pos : forall x, 0 <= x -> trunc x = Int_part x.
Proof. intros x H. unfold trunc. assert (A : Rlt_b x 0 = false) by (apply Rlt_b_false; exact H). rewrite A. reflexivity. Qed.
Lemma ln2_pos : 0 < ln 2.
Proof. rewrite <- ln_1. apply ln_increasing; lra. Qed.
Lemma pow2_ln : forall k, ln (2 ^ k) = INR k * ln 2.
Proof.
  induction k as [|k IH]; [simpl; rewrite ln_1; ring|]. rewrite S_INR. cbn [pow]. rewrite ln_mult; [rewrite IH; ring|lra|apply pow_lt; lra].
Qed.
Lemma IZR_pow2 : forall k, IZR (2 ^ Z.of_nat k) = 2 ^ k.
Proof. intros k. rewrite <- pow_IZR. reflexivity. Qed.

(** For every integer np >= 2 the number of points is the least power of two which
    is not below np. *)
Theorem C56_power_of_two : forall n, (2 <= n)%Z -> exists k : nat,
  np2_of (IZR n) = (2 ^ Z.of_nat k)%Z /\ (n <= 2 ^ Z.of_nat k)%Z /\ forall j : nat, (n <= 2 ^ Z.of_nat j)%Z -> (k <= j)%nat.
Proof.
  intros n H. assert (HR := IZR_le _ _ H). unfold np2_of. assert (A : Rlt_b (IZR n) 2 = false) by (apply Rlt_b_false; exact HR). rewrite A.
  assert (L2 := ln2_pos). set (m := (n - 1)%Z). assert (M : IZR n - 1 = IZR m) by (unfold m; rewrite minus_IZR; reflexivity). rewrite M.
  assert (M1 : 1 <= IZR m) by (rewrite <- M; lra).
  assert (LM : 0 <= ln (IZR m)) by (destruct M1 as [M1|M1]; [left; rewrite <- ln_1; apply ln_increasing; lra|rewrite <- M1, ln_1; lra]).
  assert (L0 : 0 <= log2 (IZR m)) by (unfold log2; apply Rmult_le_pos; [exact LM|left; apply Rinv_0_lt_compat; exact L2]).
  rewrite trunc_pos by lra. set (z := Int_part (log2 (IZR m) + 1)).
  destruct (base_Int_part (log2 (IZR m) + 1)) as [B1 B2]. fold z in B1, B2.
  assert (Z1 : (1 <= z)%Z) by (apply Z.lt_pred_le; apply lt_IZR; rewrite <- Z.sub_1_r, minus_IZR; lra).
  exists (Z.to_nat z). rewrite Z2Nat.id by lia. split; [reflexivity|].
  assert (EQL : log2 (IZR m) * ln 2 = ln (IZR m)) by (unfold log2; field; lra).
  split.
  - assert (K : (m < 2 ^ z)%Z); [|unfold m in K; lia]. apply lt_IZR. rewrite <- (Z2Nat.id z) by lia. rewrite IZR_pow2.
    apply ln_lt_inv; [lra|apply pow_lt; lra|]. rewrite pow2_ln, <- EQL. apply Rmult_lt_compat_r; [exact L2|].
    rewrite INR_IZR_INZ, Z2Nat.id by lia. lra.
  - intros j J. assert (K : (m < 2 ^ Z.of_nat j)%Z) by (unfold m; lia). apply IZR_lt in K. rewrite IZR_pow2 in K.
    apply ln_increasing in K; [|lra]. rewrite pow2_ln, <- EQL in K. apply Rmult_lt_reg_r in K; [|exact L2].
    apply Nat2Z.inj_le. rewrite Z2Nat.id by lia. apply Z.lt_succ_r. apply lt_IZR. rewrite succ_IZR, <- INR_IZR_INZ. lra.
Qed.
Print Assumptions C56_power_of_two.
Example C56_example : np2_of 1000 = 1024%Z.
Proof.
  destruct (C56_power_of_two 1000 ltac:(lia)) as (k & E & A & B). rewrite E. assert (K : (k <= 10)%nat) by (apply B; vm_compute; discriminate).
  assert (K2 : (10 <= k)%nat); [|replace k with 10%nat by lia; reflexivity].
  destruct (le_lt_dec 10 k) as [L|L]; [exact L|exfalso]. assert (P : (2 ^ Z.of_nat k <= 2 ^ 9)%Z) by (apply Z.pow_le_mono_r; lia).
  assert (Q := Z.le_trans _ _ _ A P). vm_compute in Q. apply Q. reflexivity.
Qed.

(** * C57 *)

(** A .FFT directive with start=A and stop=B reads the data from B to A. *)
Theorem C57_swapped_refuted : forall toks an i j A B va vb tstart tstop,
  parse_params fft_table [] toks = Ok an ->
  nth_error (live toks) i = Some (lit "start=" ++ A)%list -> nth_error (live toks) j = Some (lit "stop=" ++ B)%list ->
  existsb is_eq A = false -> existsb is_eq B = false -> convert_units A = Ok va -> convert_units B = Ok vb ->
  fft_start an tstart = Ok (VNum vb) /\ fft_stop an tstop = Ok (VNum va).
Proof.
  intros toks an i j A B va vb tstart tstop P I J NA NB CA CB.
  destruct (C45_values fft_table [] toks an (C45_tables [] _ (or_intror (or_intror eq_refl))) P) as (V & _ & _).
  assert (FE : forall s, existsb is_eq s = false -> filter is_eq s = []).
  { intros s. induction s as [|c s IH]; intros H; [reflexivity|]. cbn in H. apply orb_false_iff in H. destruct H as [H1 H2]. cbn. rewrite H1. exact (IH H2). }
  assert (LA : label_value (lit "start=" ++ A) = (Some (lit "start"), A)).
  { unfold label_value, is_valid_value_param_string. rewrite filter_app, (FE A NA). reflexivity. }
  assert (LB : label_value (lit "stop=" ++ B) = (Some (lit "stop"), B)).
  { unfold label_value, is_valid_value_param_string. rewrite filter_app, (FE B NB). reflexivity. }
  destruct (V i _ (sp "start" None TFloat false "stop" VNone) I) as (x & Cx & Gx).
  { split; [cbn; auto|]. rewrite LA. reflexivity. }
  destruct (V j _ (sp "stop" None TFloat false "start" VNone) J) as (y & Cy & Gy).
  { split; [cbn; auto|]. rewrite LB. reflexivity. }
  rewrite LA in Cx. rewrite LB in Cy. cbn in Cx, Cy. rewrite CA in Cx. rewrite CB in Cy. injection Cx as <-. injection Cy as <-.
  cbn [s_dest sp] in Gx, Gy. unfold fft_start, fft_stop, pick, dmem. rewrite Gx, Gy. split; reflexivity.
Qed.
Print Assumptions C57_swapped_refuted.
Example C57_example : exists an, parse_params fft_table [] [lit "v(1)"; lit "start=1m"; lit "stop=5m"] = Ok an /\
  fft_start an zero = Ok (VNum (5, -3)%Z) /\ fft_stop an zero = Ok (VNum (1, -3)%Z).
Proof. vm_compute. eexists. repeat split; reflexivity. Qed.
(** The spellings from= and to= are right. *)
Theorem C57_from_to : forall toks an i j A B va vb tstart tstop,
  parse_params fft_table [] toks = Ok an ->
  nth_error (live toks) i = Some (lit "from=" ++ A)%list -> nth_error (live toks) j = Some (lit "to=" ++ B)%list ->
  (forall k tok t, nth_error (live toks) k = Some tok -> about fft_table k tok t -> s_dest t <> lit "start" /\ s_dest t <> lit "stop") ->
  existsb is_eq A = false -> existsb is_eq B = false -> convert_units A = Ok va -> convert_units B = Ok vb ->
  fft_start an tstart = Ok (VNum va) /\ fft_stop an tstop = Ok (VNum vb).
Proof.
  intros toks an i j A B va vb tstart tstop P I J NS NA NB CA CB.
  destruct (C45_values fft_table [] toks an (C45_tables [] _ (or_intror (or_intror eq_refl))) P) as (V & D & _).
  assert (FE : forall s, existsb is_eq s = false -> filter is_eq s = []).
  { intros s. induction s as [|c s IH]; intros H; [reflexivity|]. cbn in H. apply orb_false_iff in H. destruct H as [H1 H2]. cbn. rewrite H1. exact (IH H2). }
  assert (LA : label_value (lit "from=" ++ A) = (Some (lit "from"), A)).
  { unfold label_value, is_valid_value_param_string. rewrite filter_app, (FE A NA). reflexivity. }
  assert (LB : label_value (lit "to=" ++ B) = (Some (lit "to"), B)).
  { unfold label_value, is_valid_value_param_string. rewrite filter_app, (FE B NB). reflexivity. }
  destruct (V i _ (sp "from" None TFloat false "from" VNone) I) as (x & Cx & Gx).
  { split; [cbn; auto 10|]. rewrite LA. reflexivity. }
  destruct (V j _ (sp "to" None TFloat false "to" VNone) J) as (y & Cy & Gy).
  { split; [cbn; auto 10|]. rewrite LB. reflexivity. }
  rewrite LA in Cx. rewrite LB in Cy. cbn in Cx, Cy. rewrite CA in Cx. rewrite CB in Cy. injection Cx as <-. injection Cy as <-.
  destruct (D (sp "start" None TFloat false "stop" VNone)) as [_ G1]; [cbn; auto|intros k tok K T; destruct (NS k tok _ K T) as [_ N]; exact (N eq_refl)|].
  destruct (D (sp "stop" None TFloat false "start" VNone)) as [_ G2]; [cbn; auto|intros k tok K T; destruct (NS k tok _ K T) as [N _]; exact (N eq_refl)|].
  cbn [s_dest s_default sp] in Gx, Gy, G1, G2. unfold fft_start, fft_stop, pick, dmem. rewrite Gx, Gy, G1, G2. split; reflexivity.
Qed.
Print Assumptions C57_from_to.

(** Without any of them the whole simulation is used. *)
Theorem C57_default : forall toks an tstart tstop, parse_params fft_table [] toks = Ok an ->
  (forall k tok t, nth_error (live toks) k = Some tok -> about fft_table k tok t ->
     ~ In (s_dest t) [lit "start"; lit "stop"; lit "from"; lit "to"]) ->
  fft_start an tstart = Ok tstart /\ fft_stop an tstop = Ok tstop.
Proof.
  intros toks an tstart tstop P N.
  destruct (C45_values fft_table [] toks an (C45_tables [] _ (or_intror (or_intror eq_refl))) P) as (_ & D & _).
  destruct (D (sp "start" None TFloat false "stop" VNone)) as [_ G1]; [cbn; auto|intros k tok K T; apply (N k tok _ K T); cbn; auto|].
  destruct (D (sp "stop" None TFloat false "start" VNone)) as [_ G2]; [cbn; auto|intros k tok K T; apply (N k tok _ K T); cbn; auto|].
  destruct (D (sp "from" None TFloat false "from" VNone)) as [_ G3]; [cbn; auto 10|intros k tok K T; apply (N k tok _ K T); cbn; auto|].
  destruct (D (sp "to" None TFloat false "to" VNone)) as [_ G4]; [cbn; auto 10|intros k tok K T; apply (N k tok _ K T); cbn; auto 10|].
  cbn [s_dest s_default sp] in G1, G2, G3, G4. unfold fft_start, fft_stop, pick, dmem. rewrite G1, G2, G3, G4. split; reflexivity.
Qed.
Print Assumptions C57_default.

(** * C100 *)

(** A .FFT directive without np= uses two points (1024 is documented). *)
Theorem C100_default_refuted : forall toks an, parse_params fft_table [] toks = Ok an ->
  (forall k tok t, nth_error (live toks) k = Some tok -> about fft_table k tok t -> s_dest t <> lit "np") -> np2 an = Ok 2%Z.
Proof.
  intros toks an P N. destruct (C45_values fft_table [] toks an (C45_tables [] _ (or_intror (or_intror eq_refl))) P) as (_ & D & _).
  destruct (D (sp "np" None TFloat false "np" zero)) as [_ G]; [cbn; auto 10|intros k tok K T; exact (N k tok _ K T eq_refl)|].
  cbn [s_dest s_default sp] in G. unfold np2. rewrite G. unfold zero, np2_of, Fourier.dec_val. cbn [fst snd]. rewrite Rmult_0_l.
  assert (A : Rlt_b 0 2 = true) by (apply Rlt_b_true; lra). rewrite A. reflexivity.
Qed.
Print Assumptions C100_default_refuted.
(** From Python the default is 1024. *)
Theorem C100_api : forall args, dget streqb args (lit "np") = None -> np2 args = Ok 1024%Z.
Proof. intros args H. unfold np2. rewrite H. reflexivity. Qed.
Print Assumptions C100_api.

(** * C104 *)

(** Since numpy 1.12 no FFT analysis returns. *)
Theorem C104_refuted : forall start stop np freq fmin fmax, spectrum false start stop np freq fmin fmax = Err TypeError.
Proof. reflexivity. Qed.
Print Assumptions C104_refuted.

(** * C106: the plain FFT *)
Lemma lines_length : forall n d, List.length (lines n d) = (n / 2)%nat.
Proof. intros n d. unfold lines. rewrite map_length, seq_length. reflexivity. Qed.
Lemma in_lines : forall n d f k, In (f, k) (lines n d) <-> (k < n / 2)%nat /\ f = INR k / (INR n * d).
Proof.
  intros n d f k. unfold lines. rewrite in_map_iff. split.
  - intros (x & E & X). injection E as <- <-. apply in_seq in X. split; [lia|reflexivity].
  - intros [K ->]. exists k. split; [reflexivity|]. apply in_seq. lia.
Qed.

(** Without a fundamental, the lines are at the multiples of 1/(stop-start), np/2 of
    them, and fmin and fmax keep DC and exactly the lines between them. *)
Theorem C106_lines : forall start stop np fmin fmax l, start < stop -> (2 <= np)%Z ->
  spectrum true start stop np None fmin fmax = Ok l ->
  forall f k, In (f, k) l <->
    f = INR k / (stop - start) /\ (Z.of_nat k < np / 2)%Z /\
    (k = 0%nat \/ match fmin with Some m => m <= f | None => True end) /\ match fmax with Some m => f <= m | None => True end.
Proof.
  intros start stop np fmin fmax l ST NP H f k. unfold spectrum in H. cbn [negb] in H.
  set (L := lines (Z.to_nat np) ((stop - start) / IZR np)) in *.
  assert (NPR : 0 < IZR np) by (apply IZR_lt; lia).
  assert (DEN : INR (Z.to_nat np) * ((stop - start) / IZR np) = stop - start) by (rewrite INR_IZR_INZ, Z2Nat.id by lia; field; lra).
  assert (HALF : forall j, (j < Z.to_nat np / 2)%nat <-> (Z.of_nat j < np / 2)%Z).
  { intros j. assert (E : Z.of_nat (Z.to_nat np / 2) = (np / 2)%Z) by (rewrite Nat2Z.inj_div, Z2Nat.id by lia; reflexivity). rewrite <- E. lia. }
  assert (INL : forall f k, In (f, k) L <-> f = INR k / (stop - start) /\ (Z.of_nat k < np / 2)%Z).
  { intros f' k'. unfold L. rewrite in_lines, DEN, HALF. tauto. }
  apply bindr_Ok in H. destruct H as (l1 & H1 & H2).
  assert (HEAD : exists L', L = (0, 0%nat) :: L').
  { assert (HP : (1 <= Z.to_nat np / 2)%nat) by (destruct (Nat.lt_ge_cases (Z.to_nat np / 2) 1) as [Q|Q]; [|exact Q]; apply Nat.lt_1_r in Q; apply Nat.div_small_iff in Q; lia).
    unfold L, lines. destruct (Z.to_nat np / 2)%nat as [|q]; [lia|]. cbn [seq map]. eexists. f_equal. f_equal. change (INR 0) with 0. unfold Rdiv. ring. }
  assert (POSF : forall f k, f = INR k / (stop - start) -> (f = 0 <-> k = 0%nat) /\ 0 <= f).
  { intros f' k' ->. split.
    - split; [|intros ->; change (INR 0) with 0; unfold Rdiv; ring]. intros E. apply INR_eq. change (INR 0) with 0.
      apply (Rmult_eq_reg_r (/ (stop - start))); [unfold Rdiv in E; rewrite E; ring|apply Rinv_neq_0_compat; lra].
    - apply Rmult_le_pos; [apply pos_INR|left; apply Rinv_0_lt_compat; lra]. }
  assert (IN1 : forall f k, In (f, k) l1 <-> f = INR k / (stop - start) /\ (Z.of_nat k < np / 2)%Z /\ (k = 0%nat \/ match fmin with Some m => m <= f | None => True end)).
  { intros f' k'. unfold cut_min in H1. destruct fmin as [m|].
    - destruct (Rlt_b 0 m) eqn:MP.
      + apply Rlt_b_true in MP. destruct HEAD as (L' & HL). rewrite HL in H1 at 1. destruct (forallb _ L); [discriminate|]. injection H1 as <-.
        cbn [In]. rewrite filter_In, negb_true_iff, Rlt_b_false, INL. cbn [fst]. split.
        * intros [E|[[E K] F]]; [|tauto]. injection E as <- <-. split; [change (INR 0) with 0; unfold Rdiv; ring|].
          split; [|left; reflexivity]. apply (INL 0 0%nat). rewrite HL. left. reflexivity.
        * intros (E & K & [->|F]); [left; f_equal; symmetry; apply (POSF f' 0%nat E); reflexivity|right; tauto].
      + apply Rlt_b_false in MP. injection H1 as <-. rewrite INL. split; [intros [E K]; split; [exact E|]; split; [exact K|]; right; destruct (POSF f' k' E); lra|tauto].
    - injection H1 as <-. rewrite INL. tauto. }
  unfold cut_max in H2. destruct fmax as [m|]; [|injection H2 as <-; rewrite IN1; tauto].
  destruct (tl l1) as [|x l']; [discriminate|]. destruct (forallb _ (x :: l')); [discriminate|]. injection H2 as <-.
  rewrite filter_In, negb_true_iff, Rlt_b_false, IN1. cbn [fst]. tauto.
Qed.
Print Assumptions C106_lines.
(** In that case there is an error exactly if no line is left (other than DC). *)
Example C106_example : exists l, spectrum true 0 1 8 None (Some 2) None = Ok l /\ map snd l = [0; 2; 3]%nat.
Proof.
  unfold spectrum, cut_min, cut_max, lines. cbn [negb]. change (Z.to_nat 8 / 2)%nat with 4%nat. cbn [seq map].
  assert (D : INR (Z.to_nat 8) * ((1 - 0) / 8) = 1) by (change (Z.to_nat 8) with 8%nat; cbn [INR]; field). rewrite D.
  assert (A : Rlt_b 0 2 = true) by (apply Rlt_b_true; lra). rewrite A. cbn [forallb filter fst].
  assert (T0 : Rlt_b (INR 0 / 1) 2 = true) by (apply Rlt_b_true; cbn [INR]; lra).
  assert (T1 : Rlt_b (INR 1 / 1) 2 = true) by (apply Rlt_b_true; cbn [INR]; lra).
  assert (T2 : Rlt_b (INR 2 / 1) 2 = false) by (apply Rlt_b_false; cbn [INR]; lra).
  assert (T3 : Rlt_b (INR 3 / 1) 2 = false) by (apply Rlt_b_false; cbn [INR]; lra).
  rewrite T0, T1, T2, T3. cbn [andb negb bindr]. eexists. split; reflexivity.
Qed.

(** * C105: harmonics *)
Lemma every_map : forall (g : nat -> R * nat) m q fuel a, (1 <= m)%nat -> (q * m <= fuel)%nat ->
  every fuel m (map g (seq a (q * m))) = map (fun j => g (a + j * m)%nat) (seq 0 q).
Proof.
  intros g m q. induction q as [|q IH]; intros fuel a M F.
  - cbn. destruct fuel; reflexivity.
  - cbn [Nat.mul] in *. destruct m as [|m]; [lia|]. destruct fuel as [|fuel]; [lia|]. cbn [Nat.add seq map every].
    replace (S m - 1)%nat with m by lia. rewrite seq_app, map_app.
    replace m with (List.length (map g (seq (S a) m))) at 2 by (rewrite map_length, seq_length; reflexivity).
    rewrite skipn_app, skipn_all, Nat.sub_diag. cbn [skipn app].
    rewrite IH by lia. rewrite Nat.mul_0_l, Nat.add_0_r. f_equal. rewrite <- seq_shift, map_map. apply map_ext. intros j. f_equal. lia.
Qed.

(** With a fundamental and n whole periods of it in the data, the lines are n, at
    the multiples of freq times 2n^2/(2n^2+1): none but DC is a harmonic. *)
Theorem C105_actual : forall stop start fr (n : nat), 0 < fr -> (1 <= n)%nat -> trunc ((stop - start) * fr) = Z.of_nat n ->
  spectrum true start stop 2 (Some fr) None None =
  Ok (map (fun j => (INR j * fr * (2 * INR n ^ 2 / (2 * INR n ^ 2 + 1)), (j * n)%nat)) (seq 0 n)).
Proof.
  intros stop start fr n F N T. unfold spectrum. cbn [negb]. rewrite T, Nat2Z.id. destruct n as [|n']; [lia|]. set (n := S n') in *.
  assert (NR : 0 < INR n) by (apply lt_0_INR; unfold n; lia).
  assert (Q : (stop - (stop - INR n / fr)) / (1 / (2 * fr * INR n)) = INR (2 * (n * n))).
  { rewrite !mult_INR. change (INR 2) with 2. field. split; lra. }
  rewrite Q. assert (IP : (Int_part (INR (2 * (n * n))) + 1)%Z = Z.of_nat (2 * (n * n) + 1)).
  { rewrite INR_IZR_INZ. assert (E : Int_part (IZR (Z.of_nat (2 * (n * n)))) = Z.of_nat (2 * (n * n))).
    { destruct (base_Int_part (IZR (Z.of_nat (2 * (n * n))))) as [B1 B2]. apply Z.le_antisymm; [apply le_IZR; exact B1|].
      apply Z.lt_succ_r. apply lt_IZR. rewrite succ_IZR. lra. }
    rewrite E. lia. }
  rewrite IP, Nat2Z.id. rewrite lines_length. unfold lines.
  assert (HALF : ((2 * (n * n) + 1) / 2 = n * n)%nat).
  { rewrite Nat.mul_comm, Nat.div_add_l by lia. change (1 / 2)%nat with 0%nat. lia. }
  rewrite HALF, every_map by lia. cbn [cut_min bindr cut_max]. f_equal. apply map_ext. intros j. cbn [Nat.add]. f_equal.
  rewrite plus_INR, !mult_INR. change (INR 2) with 2. change (INR 1) with 1. field. repeat split; try lra; assert (0 < INR n * INR n) by (apply Rmult_lt_0_compat; lra); lra.
Qed.
Print Assumptions C105_actual.
Theorem C105_refuted : forall stop start fr (n : nat), 0 < fr -> (1 <= n)%nat -> trunc ((stop - start) * fr) = Z.of_nat n ->
  exists l, spectrum true start stop 2 (Some fr) None None = Ok l /\ List.length l = n /\
    forall f k, In (f, k) l -> (f = 0 \/ forall h : nat, f <> INR h * fr).
Proof.
  intros stop start fr n F N T. eexists. split; [exact (C105_actual stop start fr n F N T)|]. split; [rewrite map_length, seq_length; reflexivity|].
  intros f k I. apply in_map_iff in I. destruct I as (j & E & J). assert (EF := f_equal fst E). cbn [fst] in EF. subst f. clear E. apply in_seq in J. destruct j as [|j]; [left; change (INR 0) with 0; ring|right].
  intros h E. set (q := 2 * INR n ^ 2) in *. assert (NR : 1 <= INR n) by (change 1 with (INR 1); apply le_INR; exact N).
  assert (QP : 2 <= q) by (unfold q; nra).
  assert (E2 : INR (S j) * q = INR h * (q + 1)).
  { apply (Rmult_eq_reg_r (fr / (q + 1))); [|apply Rmult_integral_contrapositive_currified; [lra|apply Rinv_neq_0_compat; lra]].
    replace (INR (S j) * q * (fr / (q + 1))) with (INR (S j) * fr * (q / (q + 1))) by (field; lra). rewrite E. field. lra. }
  assert (QI : q = INR (2 * (n * n))) by (unfold q; rewrite !mult_INR; change (INR 2) with 2; ring).
  rewrite QI in E2. change 1 with (INR 1) in E2. rewrite <- plus_INR, <- !mult_INR in E2. apply INR_eq in E2.
  assert (HJ : (h < S j)%nat) by nia. assert (D : ((S j - h) * (2 * (n * n)) = h)%nat) by nia.
  assert (LE : (2 * (n * n) <= h)%nat) by nia. nia.
Qed.
Print Assumptions C105_refuted.
