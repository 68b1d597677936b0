(** Lemmas about the transient loop. *)
From Coq Require Import Reals List Bool Arith ZArith Lia Lra Psatz.
From Verif Require Import Base Rsum Newton NewtonFacts Df Tran.
Import ListNotations.
Open Scope R_scope.

Lemma Rlt_b_spec : forall a b, Rlt_b a b = true -> a < b.
Proof. intros a b H. apply Rlt_b_true. exact H. Qed.
Lemma Rlt_b_nspec : forall a b, Rlt_b a b = false -> b <= a.
Proof. intros a b H. apply Rlt_b_false. exact H. Qed.

Lemma check_step_inv : forall hmin s time tstop hmax r, check_step hmin s time tstop hmax = Ok r ->
  r <= s /\ r <= hmax /\ r <= tstop - time /\
  (hmin <= r \/ r = tstop - time) /\ (0 < s -> 0 < hmax -> time < tstop -> 0 < r).
Proof.
  intros hmin s time tstop hmax r H. unfold check_step in H.
  destruct (Rlt_b hmax s) eqn:A; destruct (Rlt_b (tstop - time) _) eqn:B.
  all: try (injection H as <-).
  all: repeat match goal with
       | H : Rlt_b _ _ = true |- _ => apply Rlt_b_spec in H
       | H : Rlt_b _ _ = false |- _ => apply Rlt_b_nspec in H
       end.
  - repeat split; try lra.
  - destruct (Rlt_b hmax hmin) eqn:C; [discriminate|]. injection H as <-.
    apply Rlt_b_nspec in C. repeat split; try lra.
  - repeat split; try lra.
  - destruct (Rlt_b s hmin) eqn:C; [discriminate|]. injection H as <-.
    apply Rlt_b_nspec in C. repeat split; try lra.
Qed.

(** The chronological rows, as an invariant: strictly increasing from [t0], gaps
    at most [hmax], every point but possibly the last before [tstop]. *)
Fixpoint good_times (t0 hmax tstop : R) (ts : list R) : Prop :=
  match ts with
  | [] => True
  | t :: ts' => t0 < t /\ t - t0 <= hmax /\ t0 < tstop /\ good_times t hmax tstop ts'
  end.

Fixpoint last_from (t0 : R) (ts : list R) : R :=
  match ts with [] => t0 | t :: ts' => last_from t ts' end.

Lemma last_from_app : forall ts t0 t, last_from t0 (ts ++ [t]) = t.
Proof. induction ts as [|a ts IH]; intros; simpl; auto. Qed.

Lemma good_times_app : forall ts t0 hmax tstop t,
  good_times t0 hmax tstop ts -> last_from t0 ts < t -> t - last_from t0 ts <= hmax ->
  last_from t0 ts < tstop -> good_times t0 hmax tstop (ts ++ [t]).
Proof.
  induction ts as [|a ts IH]; intros t0 hmax tstop t G L1 L2 L3; simpl in *; [tauto|].
  destruct G as (A & B & C & D). repeat split; auto.
Qed.

Section LoopFacts.
  Variables (o : topts) (m : dfm) (sc : bool) (blen size nv : nat) (tstop hmax : R).
  Variable solve : nat -> R -> vec -> R -> vec -> res (option vec).
  Notation step' := (step o m sc blen size nv tstop hmax solve).
  Notation loop' := (tloop o m sc blen size nv tstop hmax solve).

  Lemma step_coeff_bounds : forall x lte, 0 < step_coeff o m size nv x lte <= 2.
  Proof.
    intros x lte. unfold step_coeff.
    assert (G : forall l c, 0 < c <= 2 ->
      0 < fold_left (fun c i => if Req_EM_T (lte i) 0 then c
        else let v := Rpower ((t_vea o + rerr o nv i * Rabs (x i)) / lte i) (1 / (INR (m_order m) + 1)) in
             if Rlt_b v c then v else c) l c <= 2).
    { induction l as [|i l IH]; intros c C; simpl; [exact C|]. apply IH.
      destruct (Req_EM_T (lte i) 0); [exact C|].
      set (v := Rpower _ _). assert (0 < v) by apply exp_pos.
      destruct (Rlt_b v c) eqn:B; [apply Rlt_b_spec in B; lra|exact C]. }
    apply G. lra.
  Qed.

  Lemma iter_limit_next : forall st st', iter_limit o st = TNext st' -> st' = st.
  Proof. intros st st' H. unfold iter_limit in H. destruct (_ && _); congruence. Qed.

  (** What a round that does not stop did. *)
  Definition rejected (st st' : tstate) : Prop := sc = true /\ exists s x0 c,
    st' = q_set_step st s x0 /\ 0 < c /\
    (c = 1/5 \/ (t_apost o = true /\ c < t_thr o)) /\
    check_step (t_hmin o) (q_step st * c) (q_time st) tstop hmax = Ok s.
  Definition accepted (r : nat) (st st' : tstate) : Prop := exists d x0 x1,
    coeffs m sc st = Ok d /\
    solve r (df_C1 d) (df_C0 d) (q_time st + q_step st) x0 = Ok (Some x1) /\
    q_time st' = q_time st + q_step st /\ q_x st' = Some x1 /\ q_iter st' = S (q_iter st) /\
    q_rows st' = q_rows st ++ [(q_time st + q_step st, x1)] /\
    q_buf st' = (let rows := mkS (q_time st + q_step st) x1 (Some (fun i => df_C1 d * x1 i + df_C0 d i)) :: q_buf st in
                 if (blen <? length rows)%nat then firstn blen rows else rows) /\
    (q_step st' = q_step st \/
     (sc = true /\ exists c, 0 < c <= 2 /\
       check_step (t_hmin o) (q_step st * c) (q_time st) tstop hmax = Ok (q_step st'))).

  Lemma step_next : forall r st st', step' r st = TNext st' -> rejected st st' \/ accepted r st st'.
  Proof.
    intros r st st' H. unfold step in H. destruct (coeffs m sc st) as [d|] eqn:C; [|discriminate].
    set (x0 := match t_predx0 o && sc with true => _ | false => _ end) in H.
    destruct (solve r _ _ _ x0) as [[x1|]|] eqn:S; [| |discriminate].
    - assert (ACC : forall s, accept o blen st d x0 x1 s = TNext st' ->
        (s = q_step st \/ (sc = true /\ exists c, 0 < c <= 2 /\
            check_step (t_hmin o) (q_step st * c) (q_time st) tstop hmax = Ok s)) ->
        accepted r st st').
      { intros s A B. unfold accept in A. apply iter_limit_next in A. subst st'. exists d, x0, x1.
        cbn [q_time q_x q_iter q_rows q_buf q_step]. repeat split; auto. }
      destruct sc eqn:SC; [|right; apply (ACC (q_step st)); auto].
      destruct (df_pred d) as [[f e]|]; [|right; apply (ACC (q_step st)); auto].
      destruct (q_x st) as [x|]; [|discriminate].
      set (c := step_coeff _ _ _ _ _ _) in H.
      pose proof (step_coeff_bounds x (lte_of (df_lte d) e f x1)) as CB. fold c in CB.
      destruct (check_step _ _ _ _ _) as [s|] eqn:K; [|discriminate].
      destruct (t_apost o && Rlt_b c (t_thr o)) eqn:AP.
      + left. injection H as <-. apply andb_true_iff in AP. destruct AP as [A1 A2]. apply Rlt_b_spec in A2.
        split; auto. exists s, x0, c. repeat split; auto. lra.
      + right. apply (ACC s); auto. right. split; auto. exists c. auto.
    - destruct sc eqn:SC; [|discriminate]. destruct (check_step _ _ _ _ _) as [s|] eqn:K; [|discriminate].
      apply iter_limit_next in H. left. split; auto. exists s, x0, (1/5). repeat split; auto; try lra.
      replace (q_step st * (1/5)) with (q_step st / 5) by field. exact K.
  Qed.

  (** ** Invariant on the times *)
  Definition times (st : tstate) : list R := map fst (q_rows st).
  Definition tinv (t0 : R) (st : tstate) : Prop :=
    0 < q_step st <= hmax /\ q_time st = last_from t0 (times st) /\ good_times t0 hmax tstop (times st).

  Lemma step_tinv : forall t0 r st st', 0 < hmax -> q_time st < tstop -> tinv t0 st ->
    step' r st = TNext st' -> tinv t0 st'.
  Proof.
    intros t0 r st st' HM T (S & E & G) H. apply step_next in H. destruct H as [R|A].
    - destruct R as (_ & s & x0 & c & -> & C & _ & K). apply check_step_inv in K.
      destruct K as (K1 & K2 & K3 & K4 & K5).
      assert (0 < q_step st * c) by (apply Rmult_lt_0_compat; lra).
      unfold tinv, times, q_set_step in *. cbn [q_time q_step q_rows] in *. repeat split; auto.
    - destruct A as (d & x0 & x1 & _ & _ & A1 & _ & _ & A2 & _ & A3).
      assert (ST : 0 < q_step st' <= hmax).
      { destruct A3 as [->|(_ & c & C & K)]; [exact S|]. apply check_step_inv in K.
        destruct K as (K1 & K2 & K3 & K4 & K5).
        assert (0 < q_step st * c) by (apply Rmult_lt_0_compat; lra). auto. }
      unfold tinv, times in *. rewrite A1, A2, map_app. simpl. repeat split; try apply ST.
      + rewrite last_from_app. reflexivity.
      + apply good_times_app; auto; lra.
  Qed.

  Lemma loop_times : forall fuel r t0 st rows, 0 < hmax -> tinv t0 st ->
    loop' fuel r st = Ok (Some rows) ->
    good_times t0 hmax tstop (map fst rows) /\ tstop <= last_from t0 (map fst rows).
  Proof.
    induction fuel as [|fuel IH]; intros r t0 st rows HM I H; simpl in H;
    destruct (Rlt_b (q_time st) tstop) eqn:B; try discriminate.
    - injection H as <-. apply Rlt_b_nspec in B. destruct I as (_ & E & G). unfold times in *.
      rewrite <- E. auto.
    - apply Rlt_b_spec in B. destruct (step' r st) as [st'|rr] eqn:S.
      + apply (IH (Datatypes.S r) t0 st'); auto. eapply step_tinv; eauto.
      + subst rr. exfalso. clear IH.
        unfold step in S. destruct (coeffs m sc st) as [d|]; [|discriminate].
        destruct (solve r _ _ _ _) as [[x1|]|]; try discriminate.
        * assert (ACC : forall x0 s, accept o blen st d x0 x1 s = TStop (Ok (Some rows)) -> False).
          { intros x0 s A. unfold accept, iter_limit in A. destruct (_ && _) in A; discriminate. }
          destruct sc; [|eapply ACC; eauto]. destruct (df_pred d) as [[f e]|]; [|eapply ACC; eauto].
          destruct (q_x st); [|discriminate]. destruct (check_step _ _ _ _ _); [|discriminate].
          destruct (_ && Rlt_b _ _) in S; [discriminate|]. eapply ACC; eauto.
        * destruct sc; [|discriminate]. destruct (check_step _ _ _ _ _); [|discriminate].
          unfold iter_limit in S. destruct (_ && _) in S; discriminate.
    - injection H as <-. apply Rlt_b_nspec in B. destruct I as (_ & E & G). unfold times in *.
      rewrite <- E. auto.
  Qed.

  (** ** Termination *)
  Definition enough (st : tstate) : Prop := t_hmin o <= q_step st \/ tstop - q_time st <= q_step st.

  Lemma loop_mono : forall fuel r st, loop' fuel r st <> Err OutOfFuel ->
    forall k, loop' (fuel + k) r st = loop' fuel r st.
  Proof.
    induction fuel as [|fuel IH]; intros r st H k; simpl in *.
    - destruct (Rlt_b (q_time st) tstop) eqn:B; [congruence|]. destruct k; simpl; rewrite B; reflexivity.
    - destruct (Rlt_b (q_time st) tstop); [|reflexivity]. destruct (step' r st); [|reflexivity].
      apply IH. exact H.
  Qed.

  (** [rho] bounds the factor of a rejected step. *)
  Variable rho : R.
  Hypothesis RHO : 1/5 <= rho < 1.
  Hypothesis THR : t_apost o = true -> t_thr o <= rho.
  Hypothesis HMIN : 0 < t_hmin o.
  Hypothesis HMAX : 0 < hmax.
  Hypothesis NOFUEL : forall r c1 c0 t x, solve r c1 c0 t x <> Err OutOfFuel.
  Hypothesis NOFUEL2 : forall st, coeffs m sc st <> Err OutOfFuel.

  Lemma step_stop : forall r st rr, step' r st = TStop rr -> rr <> Err OutOfFuel.
  Proof.
    intros r st rr S. unfold step in S. destruct (coeffs m sc st) as [d|e] eqn:C.
    2:{ injection S as <-. intros E. injection E as ->. eapply NOFUEL2; eauto. }
    assert (CK : forall s h, check_step (t_hmin o) s (q_time st) tstop h <> Err OutOfFuel).
    { intros s h. unfold check_step.
      repeat match goal with |- context [Rlt_b ?a ?b] => destruct (Rlt_b a b) end; discriminate. }
    destruct (solve r _ _ _ _) as [[x1|]|e] eqn:SO.
    - assert (ACC : forall x0 s, accept o blen st d x0 x1 s = TStop rr -> rr <> Err OutOfFuel).
      { intros x0 s A. unfold accept, iter_limit in A. destruct (_ && _) in A; [injection A as <-|]; discriminate. }
      destruct sc; [|eapply ACC; eauto]. destruct (df_pred d) as [[f e]|]; [|eapply ACC; eauto].
      destruct (q_x st); [|injection S as <-; discriminate].
      destruct (check_step _ _ _ _ _) eqn:K; [|injection S as <-; intros E; injection E as ->; eapply CK; eauto].
      destruct (_ && Rlt_b _ _) in S; [discriminate|]. eapply ACC; eauto.
    - destruct sc; [|injection S as <-; discriminate].
      destruct (check_step _ _ _ _ _) eqn:K; [|injection S as <-; intros E; injection E as ->; eapply CK; eauto].
      unfold iter_limit in S. destruct (_ && _) in S; [injection S as <-|]; discriminate.
    - injection S as <-. intros E. injection E as ->. eapply NOFUEL; eauto.
  Qed.

  Lemma enough_step : forall r st st', 0 < q_step st -> q_time st < tstop -> enough st ->
    step' r st = TNext st' -> enough st' /\ 0 < q_step st' /\
    ((q_time st' = q_time st /\ q_step st' <= rho * q_step st /\
      (t_hmin o <= q_step st' \/ q_step st' = tstop - q_time st)) \/
     (q_time st' = q_time st + q_step st)).
  Proof.
    intros r st st' SP T EN H. apply step_next in H. destruct H as [R|A].
    - destruct R as (_ & s & x0 & c & -> & C & CC & K). apply check_step_inv in K.
      destruct K as (K1 & K2 & K3 & K4 & K5).
      assert (0 < q_step st * c) by (apply Rmult_lt_0_compat; lra).
      unfold enough, q_set_step. cbn [q_step q_time].
      assert (c <= rho) by (destruct CC as [->|[A B]]; [lra|specialize (THR A); lra]).
      assert (q_step st * c <= rho * q_step st) by nra.
      split; [lra|]. split; [auto|]. left. repeat split; auto; lra.
    - destruct A as (d & x0 & x1 & _ & _ & A1 & _ & _ & A2 & _ & A3).
      split; [|split; [|right; exact A1]].
      + unfold enough. rewrite A1. destruct A3 as [->|(_ & c & C & K)].
        * destruct EN as [EN|EN]; [left; exact EN|right; lra].
        * apply check_step_inv in K. destruct K as (_ & _ & _ & [K|K] & _); [left; exact K|right; lra].
      + destruct A3 as [->|(_ & c & C & K)]; [exact SP|]. apply check_step_inv in K.
        destruct K as (_ & _ & _ & _ & K5). apply K5; auto. apply Rmult_lt_0_compat; lra.
  Qed.

  Lemma loop_terminates_aux : forall a st, 0 < q_step st -> enough st ->
    tstop - q_time st <= INR a * t_hmin o ->
    forall r, exists fuel, loop' fuel r st <> Err OutOfFuel.
  Proof.
    induction a as [|a IHa]; intros st SP EN A.
    - simpl in A. intros r. exists 0%nat. simpl.
      replace (Rlt_b (q_time st) tstop) with false by (symmetry; apply Rlt_b_false; lra). discriminate.
    - destruct (Rlt_le_dec (q_time st) tstop) as [T|T].
      2:{ intros r. exists 0%nat. simpl.
          replace (Rlt_b (q_time st) tstop) with false by (symmetry; apply Rlt_b_false; lra). discriminate. }
      (* inner induction: the number of rejections at this time *)
      set (mn := Rmin (t_hmin o) (tstop - q_time st)).
      assert (MN : 0 < mn) by (unfold mn; apply Rmin_pos; lra).
      destruct (pow_lt_1_zero rho ltac:(rewrite Rabs_pos_eq; lra) (mn / q_step st)) as [N0 PN].
      { apply Rdiv_lt_0_compat; lra. }
      specialize (PN N0 (le_n _)).
      assert (PW : q_step st * rho ^ N0 < mn).
      { rewrite Rabs_pos_eq in PN by (apply pow_le; lra).
        apply (Rmult_lt_compat_l (q_step st)) in PN; [|exact SP].
        replace (q_step st * (mn / q_step st)) with mn in PN by (field; lra). exact PN. }
      set (tm := q_time st) in *.
      assert (INNER : forall n st2, q_time st2 = tm -> 0 < q_step st2 -> enough st2 -> q_step st2 * rho ^ n < mn ->
        forall r, exists fuel, loop' fuel r st2 <> Err OutOfFuel).
      { induction n as [|n IHn]; intros st2 TM SP2 EN2 PW2 r.
        - (* the step is below the minimum already: cannot be *)
          simpl in PW2. exfalso. unfold enough in EN2. rewrite TM in EN2.
          assert (mn <= t_hmin o) by (apply Rmin_l). assert (mn <= tstop - tm) by (apply Rmin_r). lra.
        - destruct (step' r st2) as [st3|rr] eqn:S.
          + destruct (enough_step r st2 st3 SP2 ltac:(rewrite TM; exact T) EN2 S) as (EN3 & SP3 & [(E1 & E2 & E3)|E1]).
            * destruct (IHn st3 ltac:(congruence) SP3 EN3) with (r := Datatypes.S r) as [fuel F].
              { simpl in PW2. assert (0 < rho ^ n) by (apply pow_lt; lra). nra. }
              exists (Datatypes.S fuel). simpl. rewrite TM.
              replace (Rlt_b tm tstop) with true by (symmetry; apply Rlt_b_true; exact T).
              rewrite S. exact F.
            * destruct EN2 as [B|B].
              -- destruct (IHa st3 SP3 EN3) with (r := Datatypes.S r) as [fuel F].
                 { rewrite S_INR in A. rewrite E1, TM. lra. }
                 exists (Datatypes.S fuel). simpl. rewrite TM.
                 replace (Rlt_b tm tstop) with true by (symmetry; apply Rlt_b_true; exact T).
                 rewrite S. exact F.
              -- exists 1%nat. simpl. rewrite TM.
                 replace (Rlt_b tm tstop) with true by (symmetry; apply Rlt_b_true; exact T).
                 rewrite S. replace (Rlt_b (q_time st3) tstop) with false
                   by (symmetry; apply Rlt_b_false; lra). discriminate.
          + exists 1%nat. simpl. rewrite TM.
            replace (Rlt_b tm tstop) with true by (symmetry; apply Rlt_b_true; exact T).
            rewrite S. eapply step_stop; eauto. }
      apply (INNER N0 st); auto.
  Qed.

  Lemma loop_terminates : forall st, 0 < q_step st -> enough st ->
    forall r, exists fuel, loop' fuel r st <> Err OutOfFuel.
  Proof.
    intros st SP EN. destruct (Rle_lt_dec (tstop - q_time st) 0) as [T|T].
    - apply (loop_terminates_aux 0); auto. simpl. lra.
    - destruct (archimed ((tstop - q_time st) / t_hmin o)) as [U _].
      set (z := up ((tstop - q_time st) / t_hmin o)) in *.
      assert (Q : 0 < (tstop - q_time st) / t_hmin o) by (apply Rdiv_lt_0_compat; lra).
      assert (ZP : (0 < z)%Z) by (apply lt_IZR; lra).
      apply (loop_terminates_aux (Z.to_nat z)); auto.
      rewrite INR_IZR_INZ, Z2Nat.id by lia.
      apply (Rmult_lt_compat_r (t_hmin o)) in U; [|exact HMIN].
      replace ((tstop - q_time st) / t_hmin o * t_hmin o) with (tstop - q_time st) in U by (field; lra). lra.
  Qed.
End LoopFacts.
