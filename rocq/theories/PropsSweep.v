(** Property theorems about axes, step adjustment and the DC sweep
    (C13-C16, C71). *)
From Coq Require Import Reals String Ascii List Bool Arith ZArith Lia Lra Psatz.
From Verif Require Import Base Mna Newton NewtonFacts Sweep SweepFacts.
Import ListNotations.
Open Scope R_scope.

(** * C15: iterators *)
Theorem C15_linear_axis : forall mn mx n, (2 <= n)%nat -> exists a,
  lin_axis mn mx (INR n) = Ok a /\
  let v i := mn + INR i * (mx - mn) / (INR n - 1) in
  (forall fuel, (n < fuel)%nat -> collect lin_next fuel a = Some (map v (seq 0 n))) /\
  (forall i, lin_get a i = if (i <? n)%nat then Some (v i) else None) /\
  v 0%nat = mn /\ v (n - 1)%nat = mx /\
  (forall i, (i < n)%nat -> Rmin mn mx <= v i <= Rmax mn mx).
Proof.
  intros mn mx n N. assert (L2 : 2 <= INR n) by (apply (le_INR 2 n); exact N).
  unfold lin_axis.
  replace (Rlt_b (INR n) 2) with false by (symmetry; apply Rlt_b_false; lra).
  replace (Rlt_b (INR n) 1) with false by (symmetry; apply Rlt_b_false; lra).
  replace (Rlt_b 1 (INR n)) with true by (symmetry; apply Rlt_b_true; lra).
  simpl andb. eexists. split; [reflexivity|]. cbv zeta.
  assert (VE : forall i, mn + (mx - mn) / (INR n - 1) * INR i = mn + INR i * (mx - mn) / (INR n - 1))
    by (intros; field; lra).
  split; [|split; [|split; [|split]]].
  - intros fuel F. rewrite (lin_collect _ n) by (simpl; auto; try apply cnt_INR; lia).
    f_equal. apply map_ext. intros i. simpl. apply VE.
  - intros i. unfold lin_get; simpl. destruct (Nat.ltb_spec i n) as [H|H].
    + replace (Rlt_b (INR i) (INR n)) with true by (symmetry; apply Rlt_b_true, lt_INR; auto).
      rewrite VE. reflexivity.
    + replace (Rlt_b (INR i) (INR n)) with false by (symmetry; apply Rlt_b_false, le_INR; auto).
      reflexivity.
  - simpl. field. lra.
  - rewrite minus_INR by lia. simpl. field. lra.
  - intros i Hi. set (t := INR i / (INR n - 1)).
    assert (T : 0 <= t <= 1).
    { assert (INR i <= INR n - 1).
      { assert (Hi2 : (S i <= n)%nat) by lia. apply le_INR in Hi2. rewrite S_INR in Hi2. lra. }
      pose proof (pos_INR i). unfold t. split; [apply Rle_mult_inv_pos; lra|].
      apply Rmult_le_reg_r with (INR n - 1); [lra|]. unfold Rdiv. rewrite Rmult_assoc, Rinv_l by lra. lra. }
    replace (mn + INR i * (mx - mn) / (INR n - 1)) with (mn + t * (mx - mn)) by (unfold t; field; lra).
    unfold Rmin, Rmax. destruct (Rle_dec mn mx); split; nra.
Qed.
Print Assumptions C15_linear_axis.

(** A single point is accepted for an empty interval only. *)
Theorem C15_linear_single : forall mn mx,
  lin_axis mn mx 1 = (if Req_EM_T mn mx then Ok (mkAxis mn 0 0 mn 1) else Err ValueError) /\
  (forall fuel, (1 < fuel)%nat -> collect lin_next fuel (mkAxis mn 0 0 mn 1) = Some [mn]).
Proof.
  intros mn mx. split.
  - unfold lin_axis.
    replace (Rlt_b 1 2) with true by (symmetry; apply Rlt_b_true; lra).
    replace (Rlt_b 1 1) with false by (symmetry; apply Rlt_b_false; lra).
    destruct (Req_EM_T mn mx); reflexivity.
  - intros fuel F. rewrite (lin_collect _ 1) by (simpl; auto; change 1 with (INR 1); apply cnt_INR).
    simpl. f_equal. f_equal. lra.
Qed.
Print Assumptions C15_linear_single.

Theorem C15_log_axis : forall mn mx n, (2 <= n)%nat -> 0 < mn -> 0 < mx ->
  let a := log_axis mn mx (INR n) in exists q, 0 < q /\
  let v i := mn * q ^ i in
  (forall fuel, (n < fuel)%nat -> collect log_next fuel a = Some (map v (seq 0 n))) /\
  (forall i, log_get a i = if (i <? n)%nat then Some (v i) else None) /\
  v 0%nat = mn /\ v (n - 1)%nat = mx /\
  (forall i, (i < n)%nat -> Rmin mn mx <= v i <= Rmax mn mx).
Proof.
  intros mn mx n N P1 P2 a. exists (ax_inc a).
  assert (Q : 0 < ax_inc a) by apply exp_pos. split; [exact Q|]. cbv zeta.
  assert (E : mn * ax_inc a ^ (n - 1) = mx).
  { unfold a, log_axis; simpl. replace (INR n) with (INR (S (n - 1))) by (f_equal; lia).
    apply log_inc_pow; auto; lia. }
  split; [|split; [|split; [|split]]].
  - intros fuel F. rewrite (log_collect _ n) by (simpl; auto; try apply cnt_INR; lia). reflexivity.
  - intros i. unfold log_get. destruct i as [|i]; simpl Nat.eqb; cbv iota.
    + destruct n; [lia|]. simpl. f_equal. lra.
    + destruct (Nat.ltb_spec (S i) n) as [H|H].
      * replace (Rlt_b (INR (S i)) (ax_points a)) with true by (symmetry; apply Rlt_b_true, lt_INR; auto).
        reflexivity.
      * replace (Rlt_b (INR (S i)) (ax_points a)) with false by (symmetry; apply Rlt_b_false, le_INR; auto).
        reflexivity.
  - simpl. lra.
  - exact E.
  - intros i Hi.
    destruct (Rle_dec 1 (ax_inc a)) as [G|G].
    + assert (A1 : 1 <= ax_inc a ^ i) by (apply pow_R1_Rle; exact G).
      assert (A2 : ax_inc a ^ i <= ax_inc a ^ (n - 1)) by (apply Rle_pow; [exact G|lia]).
      unfold Rmin, Rmax. destruct (Rle_dec mn mx); split; nra.
    + set (q := ax_inc a) in *.
      assert (R : forall k, 0 < q ^ k <= 1).
      { induction k as [|k IH]; simpl; [lra|]. nra. }
      assert (A2 : q ^ (n - 1) <= q ^ i).
      { replace (n - 1)%nat with (i + (n - 1 - i))%nat by lia. rewrite pow_add.
        pose proof (R i). pose proof (R (n - 1 - i)%nat). nra. }
      pose proof (R i). unfold Rmin, Rmax. destruct (Rle_dec mn mx); split; nra.
Qed.
Print Assumptions C15_log_axis.

Example C15_example : lin_get (match lin_axis 2 8 (INR 4) with Ok a => a | Err _ => log_axis 1 1 1 end) 2 = Some 6.
Proof.
  destruct (C15_linear_axis 2 8 4 ltac:(lia)) as (a & E & _ & G & _). rewrite E, G. simpl.
  f_equal. field.
Qed.

(** * C14: extent of a sweep *)

(** [dc_analysis] asks for (stop - start) / step + 1 points, whatever that
    number is. *)
Theorem C14_sweep_within_interval_refuted : exists start stop step a vals v,
  lin_axis start stop ((stop - start) / step + 1) = Ok a /\
  collect lin_next 10 a = Some vals /\ In v vals /\ start <= stop /\ stop < v.
Proof.
  exists 0, 1, (4/10).
  set (p := (1 - 0) / (4/10) + 1). assert (P : p = 7/2) by (unfold p; field).
  unfold lin_axis.
  replace (Rlt_b p 2) with false by (symmetry; apply Rlt_b_false; lra).
  replace (Rlt_b p 1) with false by (symmetry; apply Rlt_b_false; lra).
  replace (Rlt_b 1 p) with true by (symmetry; apply Rlt_b_true; lra).
  simpl andb. cbv iota. eexists. exists (map (fun i => 0 + (1 - 0) / (p - 1) * INR i) (seq 0 4)), (12/10).
  split; [reflexivity|]. split.
  - rewrite (lin_collect _ 4); [reflexivity|reflexivity|reflexivity| |lia|lia].
    unfold cnt; simpl. lra.
  - split; [|split; lra]. simpl. right; right; right; left. rewrite P. field.
Qed.
Print Assumptions C14_sweep_within_interval_refuted.

(** When the interval is a whole number of steps the values are start, start +
    step, ..., stop; in general the overshoot is less than one step. *)
Theorem C14_whole_steps_guarded : forall start step n, step <> 0 -> (1 <= n)%nat ->
  let stop := start + INR n * step in exists a,
  lin_axis start stop ((stop - start) / step + 1) = Ok a /\
  (forall fuel, (S n < fuel)%nat ->
     collect lin_next fuel a = Some (map (fun i => start + INR i * step) (seq 0 (S n)))).
Proof.
  intros start step n S0 N stop.
  assert (E : (stop - start) / step + 1 = INR (S n)) by (rewrite S_INR; unfold stop; field; exact S0).
  rewrite E. destruct (C15_linear_axis start stop (S n) ltac:(lia)) as (a & A & C & _).
  exists a. split; [exact A|]. intros fuel F. rewrite C by exact F. f_equal. apply map_ext. intros i.
  rewrite S_INR. unfold stop. field. assert (INR n <> 0) by (apply not_0_INR; lia). lra.
Qed.
Print Assumptions C14_whole_steps_guarded.

Theorem C14_overshoot_bounded : forall start stop step a vals v fuel,
  0 < step -> start < stop ->
  lin_axis start stop ((stop - start) / step + 1) = Ok a ->
  collect lin_next fuel a = Some vals -> In v vals -> start <= v < stop + step.
Proof.
  intros start stop step a vals v fuel S0 SS L C I.
  set (p := (stop - start) / step + 1) in *.
  assert (Q : 0 < (stop - start) / step) by (apply Rdiv_lt_0_compat; lra).
  assert (P : 1 < p) by (unfold p; lra).
  unfold lin_axis in L.
  destruct (Rlt_b p 2 && _); [discriminate|]. destruct (Rlt_b p 1); [discriminate|].
  replace (Rlt_b 1 p) with true in L by (symmetry; apply Rlt_b_true; lra).
  injection L as <-.
  destruct (cnt_exists p ltac:(lra)) as (n & CN & _ & N0).
  assert (INC : (stop - start) / (p - 1) = step) by (unfold p; field; lra).
  assert (B : In v (map (fun i => start + step * INR i) (seq 0 n))).
  { destruct (Nat.lt_ge_cases n fuel) as [F|F].
    - rewrite (lin_collect _ n) in C by (simpl; auto). injection C as <-. simpl in I. rewrite INC in I. exact I.
    - exfalso.
      assert (X : forall d f i, (S i + d <= n)%nat -> (f <= d)%nat ->
        collect lin_next f (lin_at (mkAxis start ((stop - start) / (p - 1)) 0 start p) i) = None).
      { induction d as [|d IH]; intros f i H1 H2; destruct f as [|f]; try lia; try reflexivity.
        cbn [collect]. rewrite lin_next_at. cbn [ax_points].
        replace (Rlt_b (INR (S i)) p) with true.
        - rewrite (IH f (S i)) by lia. reflexivity.
        - symmetry. apply Rlt_b_true. destruct CN as [CN _].
          assert (INR (S (S i)) <= INR n) by (apply le_INR; lia). rewrite S_INR in H. lra. }
      destruct fuel as [|fuel]; [discriminate|]. cbn [collect] in C. unfold lin_next at 1, axis_next in C.
      cbn [ax_index Nat.eqb ax_cur ax_min ax_inc ax_points] in C.
      specialize (X fuel fuel 0%nat ltac:(lia) ltac:(lia)). unfold lin_at in X.
      cbn [ax_min ax_inc ax_points] in X.
      replace (start + (stop - start) / (p - 1) * INR 0) with start in X by (simpl; ring).
      rewrite X in C. discriminate. }
  apply in_map_iff in B. destruct B as (i & <- & B). apply in_seq in B.
  pose proof (pos_INR i). destruct CN as [CN _].
  assert (INR (S i) <= INR n) by (apply le_INR; lia). rewrite S_INR in H0.
  assert (INR i < p) by lra. split; [nra|].
  assert (step * INR i < step * p) by (apply Rmult_lt_compat_l; lra).
  assert (step * p = stop - start + step) by (unfold p; field; lra). lra.
Qed.
Print Assumptions C14_overshoot_bounded.

(** * C16: step and points *)
Lemma step_branch : forall period st, 0 < st -> st <= period ->
  exists n st', check_step_and_points (Some st) None period 100 = Ok (n, st') /\
    (2 <= n)%nat /\ 0 < st' /\ (INR n - 1) * st' = period /\ st <= st' < 2 * st.
Proof.
  intros period st S0 SP. unfold check_step_and_points.
  set (p := period / st). assert (PE : period = p * st) by (unfold p; field; lra).
  assert (P1 : 1 <= p) by (apply Rmult_le_reg_r with st; lra).
  destruct (int_frac p) as [IF [F0 F1]].
  assert (I1 : (1 <= Int_part p)%Z).
  { assert (0 < IZR (Int_part p)) by lra. apply lt_IZR in H. lia. }
  assert (IR : 1 <= IZR (Int_part p)) by (apply IZR_le; exact I1).
  assert (IN : INR (S (Z.to_nat (Int_part p))) - 1 = IZR (Int_part p)).
  { rewrite S_INR, INR_IZR_INZ, Z2Nat.id by lia. lra. }
  destruct (Req_EM_T (frac_part p) 0) as [Z|Z].
  - do 2 eexists. split; [reflexivity|]. split; [lia|]. split; [lra|]. split; [|lra].
    rewrite IN, PE. f_equal. lra.
  - set (st' := st + st * frac_part p / IZR (Int_part p)).
    assert (ST : st' * IZR (Int_part p) = period).
    { rewrite PE. transitivity ((IZR (Int_part p) + frac_part p) * st); [unfold st'; field; lra|].
      rewrite <- IF. reflexivity. }
    assert (FR : 0 < frac_part p / IZR (Int_part p) < 1).
    { split; [apply Rdiv_lt_0_compat; lra|]. apply Rmult_lt_reg_r with (IZR (Int_part p)); [lra|].
      unfold Rdiv. rewrite Rmult_assoc, Rinv_l by lra. lra. }
    assert (SB : st < st' < 2 * st).
    { unfold st'. replace (st * frac_part p / IZR (Int_part p)) with (st * (frac_part p / IZR (Int_part p)))
        by (unfold Rdiv; ring). nra. }
    replace (period / st') with (IZR (Int_part p)) by (rewrite <- ST; field; lra).
    rewrite Int_part_IZR. do 2 eexists. split; [reflexivity|]. split; [lia|]. split; [lra|].
    split; [|lra]. rewrite IN. lra.
Qed.

Theorem C16_step_given : forall period st, 0 < st -> st <= period ->
  exists n st', check_step_and_points (Some st) None period 100 = Ok (n, st') /\
    (2 <= n)%nat /\ 0 < st' /\ (INR n - 1) * st' = period /\ st <= st' < 2 * st.
Proof. exact step_branch. Qed.
Print Assumptions C16_step_given.

Theorem C16_points_given : forall period n d, 0 < period -> (2 <= n)%nat ->
  exists st, check_step_and_points None (Some n) period d = Ok (n, st) /\
    0 < st /\ (INR n - 1) * st = period.
Proof.
  intros period n d P N. destruct n as [|[|n]]; try lia. unfold check_step_and_points.
  cbn [Nat.eqb]. eexists. split; [reflexivity|].
  assert (1 <= INR (S (S n)) - 1) by (rewrite !S_INR; pose proof (pos_INR n); lra).
  split; [apply Rdiv_lt_0_compat; lra|]. field. lra.
Qed.
Print Assumptions C16_points_given.

Theorem C16_both_given : forall period st n d,
  check_step_and_points (Some st) (Some n) period d = check_step_and_points (Some st) None period d.
Proof. reflexivity. Qed.
Print Assumptions C16_both_given.

Theorem C16_none_given : forall period d,
  check_step_and_points None None period d = check_step_and_points None (Some d) period d.
Proof. reflexivity. Qed.
Print Assumptions C16_none_given.

(** A single point divides by zero. *)
Theorem C16_one_point_fails : forall period d,
  check_step_and_points None (Some 1%nat) period d = Err ZeroDivision.
Proof. reflexivity. Qed.
Print Assumptions C16_one_point_fails.

Example C16_example : exists n st', check_step_and_points (Some 2) None 5 100 = Ok (n, st') /\
  (2 <= n)%nat /\ 0 < st' /\ (INR n - 1) * st' = 5 /\ 2 <= st' < 2 * 2.
Proof. apply C16_step_given; lra. Qed.

(** * C13: the sweep restores the source and pairs values with solutions *)
Section C13.
  Context {X : Type}.
  Variable op : list lelem -> option X -> res (option X).
  Variable skip : bool.

  Lemma dc_analysis_inv : forall es start stop step isv name x0 r es',
    dc_analysis op skip es start stop step isv name x0 = (Ok r, es') ->
    exists a k vals solved rows e v es1,
      lin_axis start stop ((stop - start) / step + 1) = Ok a /\
      find_source es isv name 0 = Some k /\
      nth_error es k = Some e /\ dc_of e = Some v /\
      collect lin_next (S (S (Z.to_nat (up ((stop - start) / step + 1))))) a = Some vals /\
      sweep_loop op skip vals k es x0 None [] = (Ok (Some solved, rows), es1) /\
      r = (if solved then Some rows else None) /\ es' = set_dc es1 k v.
  Proof.
    intros es start stop step isv name x0 r es' H. unfold dc_analysis in H.
    destruct (Rlt_b _ 0); [discriminate|]. destruct (Req_EM_T step 0); [discriminate|].
    destruct (lin_axis start stop _) as [a|]; [|discriminate].
    destruct (find_source es isv name 0) as [k|] eqn:FS; [|discriminate].
    destruct (find_source_spec _ _ _ _ _ FS) as (e & v & NE & DC & _ & _). rewrite Nat.sub_0_r in NE.
    rewrite NE, DC in H.
    destruct (collect _ _ a) as [vals|] eqn:CO; [|discriminate].
    destruct (sweep_loop op skip vals k es x0 None []) as [[[[solved|] rows]|] es1] eqn:SL; try discriminate.
    injection H as <- <-. exists a, k, vals, solved, rows, e, v, es1. repeat split; auto.
  Qed.
End C13.

Theorem C13_source_restored : forall (X : Type) (op : list lelem -> option X -> res (option X))
    skip es start stop step isv name x0 r es',
  dc_analysis op skip es start stop step isv name x0 = (Ok r, es') -> es' = es.
Proof.
  intros X op skip es start stop step isv name x0 r es' H.
  destruct (dc_analysis_inv _ _ _ _ _ _ _ _ _ _ _ H)
    as (a & k & vals & solved & rows & e & v & es1 & _ & FS & NE & DC & _ & SL & _ & ->).
  destruct (sweep_loop_spec op skip vals k es es x0 None [] _ _ (fun _ => eq_refl) (Forall_nil _)
              (or_intror (conj eq_refl eq_refl)) SL) as [A _].
  rewrite A. apply (set_dc_id es k e v NE DC).
Qed.
Print Assumptions C13_source_restored.

(** [v] is in the position of the named source. *)
Theorem C13_rows_paired : forall (X : Type) (op : list lelem -> option X -> res (option X))
    skip es start stop step isv name x0 rows es',
  dc_analysis op skip es start stop step isv name x0 = (Ok (Some rows), es') ->
  exists k a vals,
    find_source es isv name 0 = Some k /\
    lin_axis start stop ((stop - start) / step + 1) = Ok a /\
    collect lin_next (S (S (Z.to_nat (up ((stop - start) / step + 1))))) a = Some vals /\
    sub (map fst rows) vals /\
    Forall (fun rv => exists x, op (set_dc es k (fst rv)) x = Ok (Some (snd rv))) rows.
Proof.
  intros X op skip es start stop step isv name x0 rows es' H.
  destruct (dc_analysis_inv _ _ _ _ _ _ _ _ _ _ _ H)
    as (a & k & vals & solved & rows' & e & v & es1 & LA & FS & NE & DC & CO & SL & R & _).
  destruct solved; [|discriminate]. injection R as ->.
  destruct (sweep_loop_spec op skip vals k es es x0 None [] _ _ (fun _ => eq_refl) (Forall_nil _)
              (or_intror (conj eq_refl eq_refl)) SL) as [_ (new & E & F & (dn & S1 & S2 & _) & _)].
  simpl in E. subst rows'. exists k, a, vals. repeat split; auto.
  rewrite S2 in S1 by discriminate. exact S1.
Qed.
Print Assumptions C13_rows_paired.

(** If every point can be solved no value is left out. *)
Theorem C13_all_points : forall (X : Type) (op : list lelem -> option X -> res (option X))
    skip vals k es x rows,
  (forall es x, exists y, op es x = Ok (Some y)) -> vals <> [] ->
  exists rows' es', sweep_loop op skip vals k es x None rows = (Ok (Some true, rows'), es') /\
    map fst rows' = (map fst rows ++ vals)%list.
Proof.
  intros X op skip vals k es x rows T NE.
  assert (G : forall vals es x s rows, exists rows' es',
    sweep_loop op skip vals k es x s rows = (Ok (match vals with [] => s | _ => Some true end, rows'), es') /\
    map fst rows' = (map fst rows ++ vals)%list).
  { clear vals es x rows NE. induction vals as [|v vals IH]; intros es x s rows; simpl.
    - exists rows, es. rewrite app_nil_r. auto.
    - destruct (T (set_dc es k v) x) as [y E]. rewrite E.
      destruct (IH (set_dc es k v) (Some y) (Some true) (rows ++ [(v, y)])%list) as (r' & e' & A & B).
      exists r', e'. split; [rewrite A; destruct vals; reflexivity|].
      rewrite B, map_app, <- app_assoc. reflexivity. }
  destruct (G vals es x None rows) as (r' & e' & A & B). exists r', e'.
  split; auto. rewrite A. destruct vals; [contradiction|reflexivity].
Qed.
Print Assumptions C13_all_points.

Local Open Scope string_scope.

(** A sweep of V1 from 0 to 2 by 1, the middle point failing. *)
Definition sw_es : list lelem := [ER "R1" 1 0 4; EV "V1" 1 0 7 false].
Definition sw_op (es : list lelem) (x : option R) : res (option R) :=
  match es with
  | [_; EV _ _ _ v _] => if Req_EM_T v 1 then Ok None else Ok (Some (10 * v))
  | _ => Err ValueError
  end.

Lemma sw_find : find_source sw_es true "v1" 0 = Some 1%nat.
Proof. vm_compute. reflexivity. Qed.

Example C13_example :
  dc_analysis sw_op true sw_es 0 2 1 true "v1" None = (Ok (Some [(0, 10 * 0); (2, 10 * 2)]), sw_es).
Proof.
  unfold dc_analysis.
  replace (Rlt_b ((2 - 0) * 1) 0) with false by (symmetry; apply Rlt_b_false; lra).
  destruct (Req_EM_T 1 0); [lra|].
  replace ((2 - 0) / 1 + 1) with (INR 3) by (simpl; lra).
  destruct (C15_linear_axis 0 2 3 ltac:(lia)) as (a & -> & C & _). cbv zeta in C.
  rewrite C.
  2:{ assert (U : (3 < up (INR 3))%Z).
      { apply lt_IZR. replace (IZR 3) with (INR 3) by (simpl; lra). apply archimed. }
      lia. }
  rewrite sw_find. cbn -[INR Rdiv].
  replace (0 + INR 0 * (2 - 0) / (INR 3 - 1)) with 0 by (simpl; field).
  replace (0 + INR 1 * (2 - 0) / (INR 3 - 1)) with 1 by (simpl; field).
  replace (0 + INR 2 * (2 - 0) / (INR 3 - 1)) with 2 by (simpl; field).
  cbn. destruct (Req_EM_T 0 1); [lra|]. cbn. destruct (Req_EM_T 1 1); [|lra]. cbn.
  destruct (Req_EM_T 2 1); [lra|]. reflexivity.
Qed.

(** * C71: no solved point at all *)

(** The documentation promises [None]; with skipping allowed (the default) the
    call raises and the source keeps its last swept value. *)
Theorem C71_nothing_solved_refuted : exists (op : list lelem -> option R -> res (option R)) es es',
  (forall es x, op es x = Ok None) /\
  dc_analysis op true es 0 1 1 true "v1" None = (Err UnboundLocal, es') /\ es' <> es.
Proof.
  exists (fun _ _ => Ok None), sw_es, [ER "R1" 1 0 4; EV "V1" 1 0 1 false].
  split; [reflexivity|]. split.
  - unfold dc_analysis.
    replace (Rlt_b ((1 - 0) * 1) 0) with false by (symmetry; apply Rlt_b_false; lra).
    destruct (Req_EM_T 1 0); [lra|].
    replace ((1 - 0) / 1 + 1) with (INR 2) by (simpl; lra).
    destruct (C15_linear_axis 0 1 2 ltac:(lia)) as (a & -> & C & _). cbv zeta in C.
    rewrite C.
    2:{ assert (U : (2 < up (INR 2))%Z).
        { apply lt_IZR. replace (IZR 2) with (INR 2) by (simpl; lra). apply archimed. }
        lia. }
    rewrite sw_find. cbn -[INR Rdiv].
    replace (0 + INR 1 * (1 - 0) / (INR 2 - 1)) with 1 by (simpl; field). reflexivity.
  - unfold sw_es. intros E. injection E. lra.
Qed.
Print Assumptions C71_nothing_solved_refuted.

(** With skipping disallowed the call does return [None] when nothing can be
    solved. *)
Theorem C71_no_skip_guarded : forall (X : Type) (op : list lelem -> option X -> res (option X))
    es start stop step isv name x0 r es',
  dc_analysis op false es start stop step isv name x0 = (Ok r, es') ->
  (forall es x, op es x = Ok None) -> r = None.
Proof.
  intros X op es start stop step isv name x0 r es' H F.
  destruct (dc_analysis_inv _ _ _ _ _ _ _ _ _ _ _ H)
    as (a & k & vals & solved & rows' & e & v & es1 & LA & FS & NE & DC & CO & SL & R & _).
  destruct vals as [|v0 vals]; simpl in SL; [discriminate|]. rewrite F in SL.
  injection SL as <- <- <-. exact R.
Qed.
Print Assumptions C71_no_skip_guarded.

(** With skipping disallowed a result has a row for every swept value: a single
    failure discards all the rows. *)
Theorem C71_no_skip_all_or_nothing : forall (X : Type) (op : list lelem -> option X -> res (option X))
    es start stop step isv name x0 rows es',
  dc_analysis op false es start stop step isv name x0 = (Ok (Some rows), es') ->
  exists a, lin_axis start stop ((stop - start) / step + 1) = Ok a /\
    collect lin_next (S (S (Z.to_nat (up ((stop - start) / step + 1))))) a = Some (map fst rows).
Proof.
  intros X op es start stop step isv name x0 rows es' H.
  destruct (dc_analysis_inv _ _ _ _ _ _ _ _ _ _ _ H)
    as (a & k & vals & solved & rows' & e & v & es1 & LA & FS & NE & DC & CO & SL & R & _).
  destruct solved; [|discriminate]. injection R as ->. exists a. split; [exact LA|].
  assert (G : forall vals es x s rows rows' es1,
    sweep_loop op false vals k es x s rows = (Ok (Some true, rows'), es1) ->
    map fst rows' = (map fst rows ++ vals)%list).
  { clear. induction vals as [|v vals IH]; intros es x s rows rows' es1 H; simpl in H.
    - injection H as _ <- _. rewrite app_nil_r. reflexivity.
    - destruct (op (set_dc es k v) x) as [[y|]|]; try discriminate.
      apply IH in H. rewrite H, map_app, <- app_assoc. reflexivity. }
  apply G in SL. rewrite SL. exact CO.
Qed.
Print Assumptions C71_no_skip_all_or_nothing.
