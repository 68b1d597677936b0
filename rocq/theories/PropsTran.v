(** Property theorems about the transient analysis (C20-C22, C75-C78, C132). *)
From Coq Require Import Reals List Bool Arith ZArith Lia Lra Psatz.
From Verif Require Import Base Rsum Newton NewtonFacts Df PropsDf Tran TranFacts.
Import ListNotations.
Open Scope R_scope.

(** * C20: the history buffer *)

(** A client that catches the ValueError and goes on. *)
Definition add_all {V} (b : dfbuffer V) (rows : list (list V)) : dfbuffer V :=
  fold_left (fun b r => match buf_add b r with Ok b' => b' | Err _ => b end) rows b.

Theorem C20_newest_first : forall V len w (rows : list (list V)),
  let b := add_all (buf_new len w) rows in
  b_rows b = firstn len (rev (filter (fun r => length r =? w)%nat rows)) /\
  b_length b = len /\ b_width b = w.
Proof.
  intros V len w rows.
  assert (G : forall (rows : list (list V)) (b : dfbuffer V), b_length b = len -> b_width b = w -> (length (b_rows b) <= len)%nat ->
    let b' := add_all b rows in
    b_rows b' = firstn len (rev (filter (fun r => length r =? w)%nat rows) ++ b_rows b) /\
    b_length b' = len /\ b_width b' = w).
  { clear rows. induction rows as [|r rows IH]; intros b L W LE; cbv zeta.
    - simpl. rewrite firstn_all2; auto.
    - change (add_all b (r :: rows)) with
        (add_all (match buf_add b r with Ok b' => b' | Err _ => b end) rows).
      unfold buf_add. rewrite W. cbn [filter]. destruct (length r =? w)%nat eqn:E; cbn [negb].
      + set (b1 := mkBuf _ _ _).
        assert (R1 : b_rows b1 = firstn len (r :: b_rows b)).
        { unfold b1. cbn [b_rows]. rewrite L. destruct (len <? length (r :: b_rows b))%nat eqn:Q; [reflexivity|].
          apply Nat.ltb_ge in Q. rewrite firstn_all2; auto. }
        destruct (IH b1) as (A & B & C); auto.
        { rewrite R1, firstn_length. lia. }
        split; [|split; [exact B|exact C]].
        rewrite A, R1. cbn [rev]. rewrite <- app_assoc. cbn [app].
        rewrite !firstn_app. f_equal. rewrite firstn_firstn. f_equal. lia.
      + apply IH; auto. }
  destruct (G rows (buf_new len w) eq_refl eq_refl (Nat.le_0_l _)) as (A & B & C).
  simpl in A. rewrite app_nil_r in A. auto.
Qed.
Print Assumptions C20_newest_first.

(** A row of the wrong width is refused, any other accepted. *)
Theorem C20_width_checked : forall V (b : dfbuffer V) row,
  (length row = b_width b -> exists b', buf_add b row = Ok b') /\
  (length row <> b_width b -> buf_add b row = Err ValueError).
Proof.
  intros V b row. unfold buf_add. destruct (Nat.eqb_spec (length row) (b_width b)) as [E|E]; simpl; split.
  - intros _. eexists. reflexivity.
  - contradiction.
  - contradiction.
  - reflexivity.
Qed.
Print Assumptions C20_width_checked.

Theorem C20_ready : forall V len w (rows : list (list V)),
  buf_ready (add_all (buf_new len w) rows) = true <->
  (len <= length (filter (fun r => length r =? w)%nat rows))%nat.
Proof.
  intros V len w rows. destruct (C20_newest_first V len w rows) as (A & B & _).
  unfold buf_ready. rewrite A, B, Nat.eqb_eq, firstn_length, rev_length. lia.
Qed.
Print Assumptions C20_ready.

Lemma stack_concat : forall V (rows : list (list (list V))) v acc,
  stack rows v acc = (concat (rev (map (fun r => nth v r []) rows)) ++ acc)%list.
Proof.
  induction rows as [|r rows IH]; intros v acc; simpl; [reflexivity|].
  rewrite IH, concat_app. simpl. rewrite app_nil_r, <- app_assoc. reflexivity.
Qed.

(** Read as a matrix: for every field, the kept entries stacked oldest first. *)
Theorem C20_matrix : forall V (b : dfbuffer (list V)) cs, buf_matrix b = Ok cs ->
  length cs = b_width b /\
  forall v, (v < b_width b)%nat -> nth_error cs v = Some (concat (map (fun r => nth v r []) (rev (b_rows b)))).
Proof.
  intros V b cs H. unfold buf_matrix in H. destruct (b_width b) as [|w] eqn:W; [discriminate|].
  destruct (columns (b_rows b) (seq 0 (S w))) as [cs'|] eqn:C; [|discriminate]. simpl in H.
  destruct (same_heights cs'); [|discriminate]. injection H as ->.
  assert (G : forall vs cs, columns (b_rows b) vs = Ok cs ->
    cs = map (fun v => concat (map (fun r => nth v r []) (rev (b_rows b)))) vs).
  { clear C cs. induction vs as [|v vs IH]; intros cs C; simpl in C; [injection C as <-; reflexivity|].
    destruct (b_rows b) as [|r rows] eqn:R; [discriminate|]. simpl in C.
    destruct (columns (r :: rows) vs) as [cs'|] eqn:C2; [|discriminate]. simpl in C. injection C as <-.
    simpl map at 1. f_equal; [|apply IH; reflexivity].
    rewrite stack_concat. simpl rev. rewrite map_app, concat_app, map_rev. simpl. rewrite app_nil_r. reflexivity. }
  rewrite (G _ _ C). split; [rewrite map_length, seq_length; reflexivity|].
  intros v Hv. rewrite nth_error_map.
  rewrite (nth_error_nth' _ 0%nat) by (rewrite seq_length; exact Hv).
  rewrite seq_nth by exact Hv. reflexivity.
Qed.
Print Assumptions C20_matrix.

Example C20_example :
  b_rows (add_all (buf_new 2 2) [[1;10];[2];[3;30];[4;40]])%nat = [[4;40];[3;30]]%nat /\
  buf_matrix (add_all (buf_new 2 1) [[[1;2]];[[3;4]];[[5;6]]])%nat = Ok [[3;4;5;6]]%nat.
Proof. split; reflexivity. Qed.

(** * C21: the time axis under step control *)

(** Read as: increasing from [tstart], gaps at most the given step, all but the
    last before [tstop], the last at or after it. *)
Theorem C21_time_axis_guarded : forall o m size nv tstart tstep tstop x0 solve fuel rows,
  0 < tstep ->
  transient_analysis o m true size nv tstart tstep tstop x0 solve fuel = Ok (Some rows) ->
  good_times tstart tstep tstop (map fst rows) /\
  tstop <= last_from tstart (map fst rows) < tstop + tstep.
Proof.
  intros o m size nv tstart tstep tstop x0 solve fuel rows SP H. unfold transient_analysis in H.
  destruct (Rlt_b tstop tstart); [discriminate|]. destruct (Rlt_b tstep 0); [discriminate|].
  destruct (buffer_len m true) as [blen|]; [|discriminate].
  destruct (Rlt_b tstart tstop) eqn:T; [|discriminate]. apply Rlt_b_spec in T.
  destruct (loop_times o m true blen size nv tstop tstep solve fuel 0 tstart
    (tstart_state true tstart tstep tstop x0) rows SP) as [G L]; [|exact H|].
  { unfold tinv, times, tstart_state. simpl. repeat split; auto.
    - apply Rmin_pos; [|exact SP]. apply Rdiv_lt_0_compat; lra.
    - apply Rmin_r. }
  split; [exact G|]. split; [exact L|].
  assert (X : forall ts t0, t0 < tstop + tstep -> good_times t0 tstep tstop ts -> last_from t0 ts < tstop + tstep).
  { induction ts as [|t ts IH]; intros t0 T0 GG; simpl in *; [exact T0|].
    destruct GG as (A & B & C & D). apply IH; auto. lra. }
  apply X; auto. lra.
Qed.
Print Assumptions C21_time_axis_guarded.

(** * C75: the loop under step control ends *)
Theorem C75_step_control_terminates : forall o m size nv tstart tstep tstop x0 solve,
  0 < tstep -> 0 < t_hmin o -> t_hmin o <= Rmin ((tstop - tstart) / 9999) tstep ->
  (t_apost o = true -> t_thr o < 1) ->
  (forall r c1 c0 t x, solve r c1 c0 t x <> Err OutOfFuel) ->
  (forall pv h b, m_get m pv h b <> Err OutOfFuel) ->
  exists fuel, transient_analysis o m true size nv tstart tstep tstop x0 solve fuel <> Err OutOfFuel.
Proof.
  intros o m size nv tstart tstep tstop x0 solve SP HM HH TH NS NG. unfold transient_analysis.
  destruct (Rlt_b tstop tstart); [exists 0%nat; discriminate|].
  destruct (Rlt_b tstep 0); [exists 0%nat; discriminate|].
  destruct (buffer_len m true) as [blen|] eqn:BL; [|unfold buffer_len in BL; discriminate].
  destruct (Rlt_b tstart tstop) eqn:T; [|exists 0%nat; discriminate]. apply Rlt_b_spec in T.
  apply (loop_terminates o m true blen size nv tstop tstep solve
           (if t_apost o then Rmax (1/5) (t_thr o) else 1/5)); auto.
  - destruct (t_apost o); [|lra]. specialize (TH eq_refl). split; [apply Rmax_l|].
    apply Rmax_lub_lt; lra.
  - intros ->. apply Rmax_r.
  - intros st. unfold coeffs. destruct (_ <? _)%nat; [|apply NG]. destruct (q_buf st); discriminate.
  - simpl. lra.
  - left. simpl. exact HH.
Qed.
Print Assumptions C75_step_control_terminates.

(** The formulas of ahkab satisfy the last hypothesis. *)
Lemma builtin_no_fuel : forall pv h b inv k,
  m_get m_ie pv h b <> Err OutOfFuel /\ m_get (m_trap inv) pv h b <> Err OutOfFuel /\
  m_get (m_gear k) pv h b <> Err OutOfFuel.
Proof.
  intros pv h b inv k. simpl. repeat split.
  - destruct pv; discriminate.
  - unfold trap_get. destruct pv as [|p0 rest]; [discriminate|]. destruct (s_dx p0); [|discriminate].
    destruct b; [|discriminate]. destruct rest as [|p1 [|p2 rest]]; discriminate.
  - unfold gear_get. destruct (_ <=? _)%nat; discriminate.
Qed.

(** * C77: the formulas never lack history *)
Section Reach.
  Variables (o : topts) (m : dfm) (sc : bool) (blen size nv : nat) (tstop hmax : R).
  Variable solve : nat -> R -> vec -> R -> vec -> res (option vec).

  (** The states at the head of the loop. *)
  Inductive reach (st0 : tstate) : nat -> tstate -> Prop :=
  | reach_0 : reach st0 0 st0
  | reach_S : forall r st st', reach st0 r st -> q_time st < tstop ->
      step o m sc blen size nv tstop hmax solve r st = TNext st' -> reach st0 (S r) st'.

  Definition hist_inv (st : tstate) : Prop :=
    length (q_buf st) = Nat.min (S (q_iter st)) blen /\
    (q_iter st = 0%nat \/ (exists p rest dx, q_buf st = p :: rest /\ s_dx p = Some dx)) /\
    (q_iter st = 0%nat \/ exists x, q_x st = Some x).

  Lemma hist_step : forall r st st', (0 < blen)%nat -> hist_inv st ->
    step o m sc blen size nv tstop hmax solve r st = TNext st' -> hist_inv st'.
  Proof.
    intros r st st' B (L & D & X) H. apply step_next in H. destruct H as [R|A].
    - destruct R as (_ & s & x0 & c & -> & _). unfold hist_inv, q_set_step. simpl. auto.
    - destruct A as (d & x0 & x1 & _ & _ & _ & A1 & A2 & _ & A3 & _).
      unfold hist_inv. rewrite A1, A2, A3. cbv zeta. split; [|split; [|right; eauto]].
      + destruct (_ <? _)%nat eqn:Q.
        * apply Nat.ltb_lt in Q. rewrite firstn_length. cbn [length] in *. lia.
        * apply Nat.ltb_ge in Q. cbn [length] in *. lia.
      + right. destruct blen as [|bl]; [lia|].
        destruct (_ <? _)%nat; simpl; do 3 eexists; split; reflexivity.
  Qed.
End Reach.

(** The methods of ahkab ([k >= 1] for Gear). *)
Inductive builtin : dfm -> Prop :=
| b_ie : builtin m_ie
| b_trap : forall inv, builtin (m_trap inv)
| b_gear : forall k, (0 < k)%nat -> builtin (m_gear k).

Theorem C77_history_available : forall o m sc blen size nv tstart tstep tstop x0 solve r st,
  builtin m -> buffer_len m sc = Ok blen ->
  reach o m sc blen size nv tstop tstep solve (tstart_state sc tstart tstep tstop x0) r st ->
  exists d, coeffs m sc st = Ok d /\
    (sc = true -> df_pred d <> None -> exists x, q_x st = Some x).
Proof.
  intros o m sc blen size nv tstart tstep tstop x0 solve r st BI BL RE.
  assert (BP : (0 < blen)%nat).
  { unfold buffer_len in BL. destruct sc; [injection BL as <-; lia|].
    destruct (m_x m), (m_dx m); try discriminate. injection BL as <-. lia. }
  assert (HI : hist_inv blen st).
  { induction RE as [|r st st' RE IH T H].
    - unfold hist_inv, tstart_state. cbn [q_buf q_iter q_x length]. split; [lia|split; left; reflexivity].
    - eapply hist_step; eauto. }
  destruct HI as (L & D & X).
  assert (NE : exists p rest, q_buf st = p :: rest).
  { destruct (q_buf st); [cbn [length] in L; lia|eauto]. }
  destruct NE as (p & rest & NE).
  unfold coeffs. destruct (Nat.ltb_spec (q_iter st) (first_iterations m)) as [F|F].
  - rewrite NE. eexists. split; [reflexivity|]. simpl.
    destruct (sc && _)%bool; intros _ Q; congruence.
  - destruct BI as [|inv|k K]; unfold first_iterations in F;
      cbn [m_ie m_trap m_gear m_x m_dx m_px m_pdx m_get start_pred omax Nat.max] in F |- *;
      unfold start_pred; cbn [m_ie m_trap m_gear m_px m_pdx omax Nat.max].
    + rewrite NE. eexists. split; [reflexivity|]. intros -> Q. simpl in Q.
      destruct X as [X|X]; [|exact X]. rewrite X in Q. cbn in Q. congruence.
    + destruct D as [D|(p' & rest' & dx & D & DX)]; [lia|]. unfold trap_get. rewrite D, DX.
      destruct (sc && (2 <=? q_iter st)%nat) eqn:P.
      * apply andb_true_iff in P. destruct P as [-> P]. apply Nat.leb_le in P.
        unfold buffer_len in BL. simpl in BL. injection BL as <-. rewrite D in L. cbn [length m_trap m_x m_dx m_px m_pdx omax] in L.
        destruct rest' as [|p1 [|p2 rest']]; cbn [length Nat.max] in L; try lia.
        eexists. split; [reflexivity|]. intros _ _. destruct X as [X|X]; [lia|exact X].
      * eexists. split; [reflexivity|]. simpl. congruence.
    + unfold gear_get. replace (length (q_buf st) <=? k)%nat with false.
      * eexists. split; [reflexivity|]. intros _ _. destruct X as [X|X]; [lia|exact X].
      * symmetry. apply Nat.leb_gt. unfold buffer_len in BL. destruct sc; [|discriminate].
        simpl in BL. injection BL as <-. lia.
Qed.
Print Assumptions C77_history_available.

(** * C78: every stored point satisfies the circuit equations with the slope
    given by the formula *)

(** A run, newest point first: each point after the start satisfies the equations
    with the slope that the formula (implicit Euler for the first points) gives
    from the [n] points before it over the actual gap in time. *)
Inductive good_run (m : dfm) (n : nat) (eqs : R -> vec -> vec -> Prop) (t0 : R) (x0 : vec) : list sample -> Prop :=
| gr_start : good_run m n eqs t0 x0 [mkS t0 x0 None]
| gr_point : forall p prev t x d b,
    good_run m n eqs t0 x0 (p :: prev) ->
    (if (length prev <? first_iterations m)%nat
     then ie_get [p] (t - s_t p) b = Ok d
     else m_get m (firstn n (p :: prev)) (t - s_t p) b = Ok d) ->
    eqs t x (fun i => df_C1 d * x i + df_C0 d i) ->
    good_run m n eqs t0 x0 (mkS t x (Some (fun i => df_C1 d * x i + df_C0 d i)) :: p :: prev).

Definition point (p : sample) : R * vec := (s_t p, s_x p).

(** The same with the coefficients that are handed to the solver. *)
Inductive solved_run (m : dfm) (n : nat) (sol : R -> R -> vec -> vec -> Prop) (t0 : R) (x0 : vec) : list sample -> Prop :=
| sr_start : solved_run m n sol t0 x0 [mkS t0 x0 None]
| sr_point : forall p prev t x d b,
    solved_run m n sol t0 x0 (p :: prev) ->
    (if (length prev <? first_iterations m)%nat
     then ie_get [p] (t - s_t p) b = Ok d
     else m_get m (firstn n (p :: prev)) (t - s_t p) b = Ok d) ->
    sol t (df_C1 d) (df_C0 d) x ->
    solved_run m n sol t0 x0 (mkS t x (Some (fun i => df_C1 d * x i + df_C0 d i)) :: p :: prev).

Lemma run_solved : forall o m sc size nv tstart tstep tstop x0 solve fuel rows (sol : R -> R -> vec -> vec -> Prop),
  (forall r c1 c0 t x y, solve r c1 c0 t x = Ok (Some y) -> sol t c1 c0 y) ->
  transient_analysis o m sc size nv tstart tstep tstop x0 solve fuel = Ok (Some rows) ->
  exists n run, buffer_len m sc = Ok n /\ solved_run m n sol tstart x0 run /\ map point (rev run) = (tstart, x0) :: rows.
Proof.
  intros o m sc size nv tstart tstep tstop x0 solve fuel rows sol SO H. unfold transient_analysis in H.
  destruct (Rlt_b tstop tstart); [discriminate|]. destruct (Rlt_b tstep 0); [discriminate|].
  destruct (buffer_len m sc) as [blen|] eqn:BL; [|discriminate].
  destruct (Rlt_b tstart tstop); [|discriminate].
  assert (BP : (0 < blen)%nat).
  { unfold buffer_len in BL. destruct sc; [injection BL as <-; lia|].
    destruct (m_x m), (m_dx m); try discriminate. injection BL as <-. lia. }
  exists blen.
  assert (G : forall f r st p prev, solved_run m blen sol tstart x0 (p :: prev) ->
    q_buf st = firstn blen (p :: prev) -> q_iter st = length prev -> q_time st = s_t p ->
    map point (rev (p :: prev)) = (tstart, x0) :: q_rows st ->
    tloop o m sc blen size nv tstop tstep solve f r st = Ok (Some rows) ->
    exists run, solved_run m blen sol tstart x0 run /\ map point (rev run) = (tstart, x0) :: rows).
  { clear H. induction f as [|f IH]; intros r st p prev GR QB QI QT QR H; simpl in H;
    destruct (Rlt_b (q_time st) tstop) eqn:TT; try discriminate;
    try (injection H as <-; eexists; split; eassumption).
    destruct (step _ _ _ _ _ _ _ _ _ r st) as [st'|rr] eqn:SS.
    - apply step_next in SS. destruct SS as [RJ|AC].
      + destruct RJ as (_ & s & x & c & -> & _). apply (IH (S r) (q_set_step st s x) p prev); auto.
      + destruct AC as (d & x & x1 & C & SV & A1 & _ & A3 & A2 & A4 & _).
        refine (IH (S r) st' _ (p :: prev) _ _ _ _ _ H).
        * apply (sr_point m blen sol tstart x0 p prev (q_time st + q_step st) x1 d
                   (sc && (start_pred m <=? q_iter st)%nat) GR).
          -- unfold coeffs in C. rewrite QI in C at 1.
             replace (q_time st + q_step st - s_t p) with (q_step st) by lra.
             destruct (length prev <? first_iterations m)%nat.
             ++ rewrite QB in C. destruct blen; [lia|]. simpl firstn in C. exact C.
             ++ rewrite QB in C. exact C.
          -- eapply SO; eauto.
        * rewrite A4, QB. cbv zeta.
          destruct blen as [|bl]; [lia|]. rewrite !firstn_cons. cbn [length].
          destruct (Nat.ltb_spec (S bl) (S (S (length (firstn bl prev))))) as [Q|Q].
          -- f_equal. destruct bl as [|bl']; [reflexivity|]. rewrite !firstn_cons. f_equal.
             rewrite firstn_firstn. f_equal. lia.
          -- f_equal. rewrite firstn_length in Q. destruct bl as [|bl']; [lia|]. rewrite firstn_cons.
             f_equal. rewrite !firstn_all2 by lia. reflexivity.
        * rewrite A3, QI. reflexivity.
        * exact A1.
        * change (rev (?a :: p :: prev)) with (rev (p :: prev) ++ [a])%list.
          rewrite map_app, QR, A2. reflexivity.
    - subst rr. exfalso.
      unfold step in SS. destruct (coeffs m sc st) as [d|]; [|discriminate].
      destruct (solve r _ _ _ _) as [[x1|]|]; try discriminate.
      + assert (ACC : forall x0 s, accept o blen st d x0 x1 s = TStop (Ok (Some rows)) -> False).
        { intros xx s A. unfold accept, iter_limit in A. destruct (_ && _) in A; discriminate. }
        destruct sc; [|eapply ACC; eauto]. destruct (df_pred d) as [[g e]|]; [|eapply ACC; eauto].
        destruct (q_x st); [|discriminate]. destruct (check_step _ _ _ _ _); [|discriminate].
        destruct (_ && Rlt_b _ _) in SS; [discriminate|]. eapply ACC; eauto.
      + destruct sc; [|discriminate]. destruct (check_step _ _ _ _ _); [|discriminate].
        unfold iter_limit in SS. destruct (_ && _) in SS; discriminate. }
  destruct (G fuel 0%nat (tstart_state sc tstart tstep tstop x0) (mkS tstart x0 None) []) as (run & R1 & R2); auto.
  - constructor.
  - destruct blen; [lia|rewrite firstn_cons, firstn_nil; reflexivity].
  - exists run. auto.
Qed.
Theorem C78_points_solve_circuit : forall o m sc size nv tstart tstep tstop x0 solve fuel rows
    (eqs : R -> vec -> vec -> Prop),
  (* the solver answers points where the equations hold with dx/dt = c1 x + c0 *)
  (forall r c1 c0 t x y, solve r c1 c0 t x = Ok (Some y) -> eqs t y (fun i => c1 * y i + c0 i)) ->
  transient_analysis o m sc size nv tstart tstep tstop x0 solve fuel = Ok (Some rows) ->
  exists n run, buffer_len m sc = Ok n /\ good_run m n eqs tstart x0 run /\ map point (rev run) = (tstart, x0) :: rows.
Proof.
  intros o m sc size nv tstart tstep tstop x0 solve fuel rows eqs SO H.
  destruct (run_solved _ _ _ _ _ _ _ _ _ _ _ _ (fun t c1 c0 y => eqs t y (fun i => c1 * y i + c0 i)) SO H) as (n & run & B & G & R).
  exists n, run. split; [exact B|]. split; [|exact R]. clear - G. induction G; [constructor|]. econstructor; eassumption.
Qed.
Print Assumptions C78_points_solve_circuit.

(** * C22: fixed step *)

(** The default options (ahkab/options.py). *)
Definition tran_opts : topts := mkTo (1 / 10 ^ 20) 0 true (9/10) true (1 / 10 ^ 6) (1 / 1000) (1 / 1000).

(** With a solver that always answers, the points are tstart + k tstep, up to the
    first at or past tstop. *)
Section Fixed.
  Variables (o : topts) (m : dfm) (blen size nv : nat) (tstop h hmax : R).
  Variable solve : nat -> R -> vec -> R -> vec -> res (option vec).
  Hypothesis MI : t_maxiter o = 0%nat.
  Hypothesis SO : forall r c1 c0 t x, 0 < c1 -> exists y, solve r c1 c0 t x = Ok (Some y).

  Lemma fixed_step : forall r st d, coeffs m false st = Ok d -> 0 < df_C1 d ->
    exists x1 st', step o m false blen size nv tstop hmax solve r st = TNext st' /\
      q_time st' = q_time st + q_step st /\ q_step st' = q_step st /\
      q_rows st' = (q_rows st ++ [(q_time st + q_step st, x1)])%list.
  Proof.
    intros r st d C PC. unfold step. rewrite C.
    match goal with |- context [solve r ?a ?b ?c ?x] => destruct (SO r a b c x PC) as [x1 ->] end.
    unfold accept, iter_limit. rewrite MI. simpl. do 2 eexists. split; [reflexivity|]. simpl. auto.
  Qed.
End Fixed.

Lemma trap_coefficient : forall inv sc st d, coeffs (m_trap inv) sc st = Ok d -> 0 < q_step st -> 0 < df_C1 d.
Proof.
  intros inv sc st d C H. unfold coeffs in C.
  destruct (q_iter st <? _)%nat.
  - destruct (q_buf st); [discriminate|]. injection C as <-. cbn [df_C1]. apply Rdiv_lt_0_compat; lra.
  - cbn [m_get m_trap] in C. unfold trap_get in C. destruct (q_buf st) as [|p rest]; [discriminate|].
    destruct (s_dx p); [|discriminate]. destruct (sc && _); [destruct rest as [|? [|? ?]]; try discriminate|];
      injection C as <-; cbn [df_C1]; apply Rdiv_lt_0_compat; lra.
Qed.

Theorem C22_fixed_step_points_guarded : forall o inv size nv tstart tstep tstop x0 solve n,
  0 < tstep -> t_maxiter o = 0%nat ->
  (forall r c1 c0 t x, 0 < c1 -> exists y, solve r c1 c0 t x = Ok (Some y)) ->
  tstart + INR n * tstep < tstop <= tstart + INR (S n) * tstep ->
  exists rows, transient_analysis o (m_trap inv) false size nv tstart tstep tstop x0 solve (S n) = Ok (Some rows) /\
    map fst rows = map (fun k => tstart + INR (S k) * tstep) (seq 0 (S n)).
Proof.
  intros o inv size nv tstart tstep tstop x0 solve n SP MI SO [B1 B2]. unfold transient_analysis.
  assert (T : tstart < tstop) by (pose proof (pos_INR n); nra).
  replace (Rlt_b tstop tstart) with false by (symmetry; apply Rlt_b_false; lra).
  replace (Rlt_b tstep 0) with false by (symmetry; apply Rlt_b_false; lra).
  cbn [buffer_len m_x m_dx m_trap].
  replace (Rlt_b tstart tstop) with true by (symmetry; apply Rlt_b_true; lra).
  set (st0 := tstart_state false tstart tstep tstop x0).
  set (blen := S (Nat.max 0 0)).
  assert (G : forall j r st, reach o (m_trap inv) false blen size nv tstop tstep solve st0 r st ->
    (j <= S n)%nat -> q_step st = tstep -> q_time st = tstart + INR (S n - j) * tstep ->
    exists rows, tloop o (m_trap inv) false blen size nv tstop tstep solve j r st = Ok (Some (q_rows st ++ rows)%list) /\
      map fst rows = map (fun k => tstart + INR (S k) * tstep) (seq (S n - j) j)).
  { induction j as [|j IH]; intros r st RE J QS QT.
    - exists []. rewrite Nat.sub_0_r in QT. simpl tloop.
      replace (Rlt_b (q_time st) tstop) with false by (symmetry; apply Rlt_b_false; lra).
      rewrite app_nil_r. auto.
    - assert (LT : q_time st < tstop).
      { rewrite QT. assert (INR (S n - S j) <= INR n) by (apply le_INR; lia). nra. }
      destruct (C77_history_available o (m_trap inv) false blen size nv tstart tstep tstop x0 solve r st
                  (b_trap inv) eq_refl RE) as (d & C & _).
      destruct (fixed_step o (m_trap inv) blen size nv tstop tstep solve MI SO r st d C
                  (trap_coefficient inv false st d C (eq_ind_r (fun q => 0 < q) SP QS)))
        as (x1 & st' & S1 & S2 & S3 & S4).
      cbn [tloop]. replace (Rlt_b (q_time st) tstop) with true by (symmetry; apply Rlt_b_true; exact LT).
      rewrite S1. destruct (IH (S r) st') as (rows & E1 & E2).
      + eapply reach_S; eauto.
      + lia.
      + congruence.
      + rewrite S2, QS, QT. replace (S n - j)%nat with (S (S n - S j)) by lia. rewrite (S_INR (S n - S j)). ring.
      + exists ((q_time st + q_step st, x1) :: rows). rewrite E1, S4, <- app_assoc. split; [reflexivity|].
        cbn [map fst seq]. rewrite E2. replace (S n - j)%nat with (S (S n - S j)) by lia.
        f_equal. rewrite QS, QT, (S_INR (S n - S j)). ring. }
  destruct (G (S n) 0%nat st0) as (rows & E1 & E2); auto.
  - constructor.
  - simpl. rewrite Nat.sub_diag. simpl. ring.
  - exists rows. simpl in E1. rewrite Nat.sub_diag in E2. split; [exact E1|exact E2].
Qed.
Print Assumptions C22_fixed_step_points_guarded.

(** 0 to 1 by 0.4 computes the point at 1.2. *)
Theorem C22_within_tstop_refuted : forall inv, exists solve rows,
  transient_analysis tran_opts (m_trap inv) false 1 2 0 (4/10) 1 vzero solve 3 = Ok (Some rows) /\
  map fst rows = [4/10; 8/10; 12/10].
Proof.
  intros inv.
  destruct (C22_fixed_step_points_guarded tran_opts inv 1 2 0 (4/10) 1 vzero (fun _ _ _ _ _ => Ok (Some vzero)) 2)
    as (rows & E & M); try lra; try reflexivity.
  - intros. eauto.
  - simpl. lra.
  - exists (fun _ _ _ _ _ => Ok (Some vzero)), rows. split; [exact E|]. rewrite M. simpl. apply f_equal2; [lra|]; apply f_equal2; [lra|]; apply f_equal2; [lra|reflexivity].
Qed.
Print Assumptions C22_within_tstop_refuted.

(** * C76: every method can be run with a fixed step, on every interval *)
Theorem C76_fixed_step_refuted : forall o size nv tstart tstep tstop x0 solve fuel k,
  tstart <= tstop -> 0 <= tstep ->
  transient_analysis o m_ie false size nv tstart tstep tstop x0 solve fuel = Err TypeError /\
  transient_analysis o (m_gear k) false size nv tstart tstep tstop x0 solve fuel = Err TypeError.
Proof.
  intros. unfold transient_analysis.
  replace (Rlt_b tstop tstart) with false by (symmetry; apply Rlt_b_false; lra).
  replace (Rlt_b tstep 0) with false by (symmetry; apply Rlt_b_false; lra). split; reflexivity.
Qed.
Print Assumptions C76_fixed_step_refuted.

Theorem C76_empty_interval_refuted : forall o inv size nv t tstep x0 solve fuel, 0 <= tstep ->
  transient_analysis o (m_trap inv) true size nv t tstep t x0 solve fuel = Err UnboundLocal.
Proof.
  intros. unfold transient_analysis.
  replace (Rlt_b t t) with false by (symmetry; apply Rlt_b_false; lra).
  replace (Rlt_b tstep 0) with false by (symmetry; apply Rlt_b_false; lra). reflexivity.
Qed.
Print Assumptions C76_empty_interval_refuted.

(** * C21: the last step may go past the end *)

(** The limit on the step is computed before the time advances.  At rest (all
    zero) from 0 to 9999 s with a generous maximum step, implicit Euler stores a
    last point at 14095 s. *)
Definition at_rest : nat -> R -> vec -> R -> vec -> res (option vec) := fun _ _ _ _ _ => Ok (Some vzero).
Definition zs (t : R) (dx : option vec) : sample := mkS t vzero dx.

Lemma rest_coeff : forall o m size nv x lte, (forall i, lte i = 0) -> step_coeff o m size nv x lte = 2.
Proof.
  intros o m size nv x lte Z. unfold step_coeff.
  match goal with |- fold_left ?F _ _ = _ => assert (G : forall l c, fold_left F l c = c) end; [|apply G].
  induction l as [|i l IH]; intros c; [reflexivity|]. cbn [fold_left]. rewrite IH, Z.
  destruct (Req_EM_T 0 0); [reflexivity|congruence].
Qed.

(** A round at rest, after the first. *)
Lemma rest_round : forall r st p1 p2 rest s,
  (0 < q_iter st)%nat -> q_buf st = p1 :: p2 :: rest -> (forall i, s_x p1 i = 0) -> (forall i, s_x p2 i = 0) ->
  (exists x, q_x st = Some x) ->
  check_step (t_hmin tran_opts) (q_step st * 2) (q_time st) 9999 20000 = Ok s ->
  exists st' p, step tran_opts m_ie true 2 1 2 9999 20000 at_rest r st = TNext st' /\
    q_time st' = q_time st + q_step st /\ q_step st' = s /\ (0 < q_iter st')%nat /\
    q_buf st' = [p; p1] /\ (forall i, s_x p i = 0) /\ (exists x, q_x st' = Some x) /\
    q_rows st' = (q_rows st ++ [(q_time st + q_step st, vzero)])%list.
Proof.
  intros r st p1 p2 rest s IT BU Z1 Z2 [x QX] CK. unfold step, coeffs.
  cbn [first_iterations m_x m_dx m_ie start_pred m_px m_pdx omax m_get andb Nat.max].
  destruct (q_iter st) as [|n] eqn:QI; [lia|]. cbn [Nat.ltb Nat.leb].
  rewrite BU. cbn [ie_get df_pred df_C1 df_C0 df_lte at_rest]. rewrite QX.
  rewrite rest_coeff.
  2:{ intros i. unfold lte_of. rewrite Z1, Z2. unfold vzero.
      replace (_ * _) with 0; [apply Rabs_R0|]. unfold Rdiv. ring. }
  rewrite CK. cbn [t_apost t_thr tran_opts andb].
  replace (Rlt_b 2 (9/10)) with false by (symmetry; apply Rlt_b_false; lra).
  unfold accept, iter_limit. rewrite QI, BU. cbn [t_maxiter tran_opts Nat.ltb Nat.leb andb length firstn].
  do 2 eexists. split; [reflexivity|]. cbn [q_time q_step q_iter q_buf q_x q_rows].
  repeat split; auto; try lia. eauto.
Qed.

Lemma rest_check : forall s t r, t_hmin tran_opts <= r -> r <= 20000 -> r = s \/ (r = 9999 - t /\ 9999 - t < s /\ s <= 20000) ->
  (r = s -> s <= 9999 - t) ->
  check_step (t_hmin tran_opts) s t 9999 20000 = Ok r.
Proof.
  intros s t r H1 H2 H3 H4. unfold check_step. destruct H3 as [->|(-> & A & B)].
  - replace (Rlt_b 20000 s) with false by (symmetry; apply Rlt_b_false; lra).
    specialize (H4 eq_refl).
    replace (Rlt_b (9999 - t) s) with false by (symmetry; apply Rlt_b_false; lra).
    replace (Rlt_b s (t_hmin tran_opts)) with false by (symmetry; apply Rlt_b_false; lra). reflexivity.
  - replace (Rlt_b 20000 s) with false by (symmetry; apply Rlt_b_false; lra).
    replace (Rlt_b (9999 - t) s) with true by (symmetry; apply Rlt_b_true; lra). reflexivity.
Qed.

Theorem C21_ends_at_tstop_refuted : exists rows,
  transient_analysis tran_opts m_ie true 1 2 0 20000 9999 vzero at_rest 20 = Ok (Some rows) /\
  last_from 0 (map fst rows) = 14095.
Proof.
  assert (HS : t_hmin tran_opts <= 1).
  { simpl. assert (1 <= 10 ^ 20) by (apply pow_R1_Rle; lra).
    apply Rmult_le_reg_r with (10 ^ 20); [lra|]. unfold Rdiv. rewrite Rmult_assoc, Rinv_l by lra. lra. }
  unfold transient_analysis.
  replace (Rlt_b 9999 0) with false by (symmetry; apply Rlt_b_false; lra).
  replace (Rlt_b 20000 0) with false by (symmetry; apply Rlt_b_false; lra).
  cbn [buffer_len m_x m_dx m_px m_pdx m_ie omax Nat.max].
  replace (Rlt_b 0 9999) with true by (symmetry; apply Rlt_b_true; lra).
  (* doubling: j more rounds from time = step = 2^(12 - j) *)
  assert (G : forall j r st p1 p2 rest, (j <= 12)%nat ->
    (0 < q_iter st)%nat -> q_buf st = p1 :: p2 :: rest -> (forall i, s_x p1 i = 0) -> (forall i, s_x p2 i = 0) ->
    (exists x, q_x st = Some x) -> q_time st = 2 ^ (12 - j) -> q_step st = 2 ^ (12 - j) ->
    exists rows, tloop tran_opts m_ie true 2 1 2 9999 20000 at_rest (j + 2) r st = Ok (Some rows) /\
      last_from 0 (map fst rows) = 14095).
  { induction j as [|j IH]; intros r st p1 p2 rest J IT BU Z1 Z2 QX QT QS.
    - simpl Nat.sub in *.
      assert (E12 : 2 ^ 12 = 4096) by (simpl; lra). rewrite E12 in *.
      destruct (rest_round r st p1 p2 rest 5903 IT BU Z1 Z2 QX) as (st1 & q1 & S1 & T1 & P1 & I1 & B1 & Y1 & X1 & R1).
      { rewrite QT, QS. apply rest_check; lra. }
      destruct (rest_round (S r) st1 q1 p1 [] (9999 - 8192) I1 B1 Y1 Z1 X1) as (st2 & q2 & S2 & T2 & P2 & I2 & B2 & Y2 & X2 & R2).
      { rewrite T1, P1, QT, QS. apply rest_check; lra. }
      exists (q_rows st2). cbn [tloop Nat.add].
      replace (Rlt_b (q_time st) 9999) with true by (symmetry; apply Rlt_b_true; lra). rewrite S1.
      replace (Rlt_b (q_time st1) 9999) with true by (symmetry; apply Rlt_b_true; lra). rewrite S2.
      replace (Rlt_b (q_time st2) 9999) with false by (symmetry; apply Rlt_b_false; lra).
      split; [reflexivity|]. rewrite R2, map_app. simpl. rewrite last_from_app. lra.
    - assert (PB : 1 <= 2 ^ (12 - S j) <= 2048).
      { split; [apply pow_R1_Rle; lra|]. replace 2048 with (2 ^ 11) by (simpl; lra). apply Rle_pow; [lra|lia]. }
      assert (PD : 2 ^ (12 - j) = 2 * 2 ^ (12 - S j)).
      { replace (12 - j)%nat with (S (12 - S j)) by lia. reflexivity. }
      destruct (rest_round r st p1 p2 rest (2 ^ (12 - j)) IT BU Z1 Z2 QX) as (st1 & q1 & S1 & T1 & P1 & I1 & B1 & Y1 & X1 & R1).
      { rewrite QT, QS, PD. apply rest_check; lra. }
      destruct (IH (S r) st1 q1 p1 []) as (rows & E & LA); auto; try lia; try lra.
      exists rows. split; [|exact LA]. cbn [tloop Nat.add].
      replace (Rlt_b (q_time st) 9999) with true by (symmetry; apply Rlt_b_true; lra). rewrite S1. exact E. }
  (* the first round has no prediction *)
  set (st0 := tstart_state true 0 20000 9999 vzero).
  assert (QS0 : q_step st0 = 1).
  { unfold st0. simpl. rewrite Rmin_left; lra. }
  assert (S0 : exists st1 p, step tran_opts m_ie true 2 1 2 9999 20000 at_rest 0 st0 = TNext st1 /\
    q_time st1 = 1 /\ q_step st1 = 1 /\ (0 < q_iter st1)%nat /\ q_buf st1 = [p; mkS 0 vzero None] /\
    (forall i, s_x p i = 0) /\ (exists x, q_x st1 = Some x)).
  { unfold step, coeffs. cbn. unfold st0, tstart_state in QS0. cbn in QS0. rewrite QS0.
    do 2 eexists. split; [reflexivity|]. cbn. repeat split; eauto; lra. }
  destruct S0 as (st1 & p & S1 & T1 & P1 & I1 & B1 & Y1 & X1).
  destruct (G 12%nat 1%nat st1 p (mkS 0 vzero None) [] (le_n _) I1 B1 Y1 (fun _ => eq_refl) X1) as (rows & E & LA).
  { rewrite T1. reflexivity. } { rewrite P1. reflexivity. }
  exists rows. split; [|exact LA].
  assert (ML : tloop tran_opts m_ie true 2 1 2 9999 20000 at_rest (14 + 5) 1 st1 = Ok (Some rows)).
  { rewrite loop_mono; [exact E|]. simpl Nat.add in E. rewrite E. discriminate. }
  change 20%nat with (S (14 + 5)). cbn [tloop].
  replace (q_time st0) with 0 by reflexivity.
  replace (Rlt_b 0 9999) with true by (symmetry; apply Rlt_b_true; lra). rewrite S1. exact ML.
Qed.
Print Assumptions C21_ends_at_tstop_refuted.

(** ** Examples *)

(** x' = -x, one trapezoidal-analysis round (started with implicit Euler) of step
    1 from x = 1: the stored point is x(1) = 1/2. *)
Definition decay : nat -> R -> vec -> R -> vec -> res (option vec) :=
  fun _ c1 c0 _ _ => if Req_EM_T (c1 + 1) 0 then Ok None else Ok (Some (fun i => - c0 i / (c1 + 1))).
Definition decay_eqs (t : R) (x dx : vec) : Prop := forall i, dx i = - x i.

Lemma decay_sound : forall r c1 c0 t x y, decay r c1 c0 t x = Ok (Some y) ->
  decay_eqs t y (fun i => c1 * y i + c0 i).
Proof.
  intros r c1 c0 t x y H i. unfold decay in H. destruct (Req_EM_T (c1 + 1) 0); [discriminate|].
  injection H as <-. field. assumption.
Qed.

Example C78_example : forall inv, exists t y,
  transient_analysis tran_opts (m_trap inv) false 1 2 0 1 1 (fun _ => 1) decay 1 = Ok (Some [(t, y)]) /\
  t = 1 /\ y 0%nat = 1/2.
Proof.
  intros inv. unfold transient_analysis.
  replace (Rlt_b 1 0) with false by (symmetry; apply Rlt_b_false; lra).
  cbn [buffer_len m_x m_dx m_trap].
  replace (Rlt_b 0 1) with true by (symmetry; apply Rlt_b_true; lra).
  cbn [tloop q_time tstart_state]. replace (Rlt_b 0 1) with true by (symmetry; apply Rlt_b_true; lra).
  unfold step, coeffs. cbn. unfold decay. destruct (Req_EM_T (1 / 1 + 1) 0) as [E|E]; [lra|].
  unfold accept, iter_limit. cbn.
  replace (Rlt_b (0 + 1) 1) with false by (symmetry; apply Rlt_b_false; lra).
  do 2 eexists. split; [reflexivity|]. cbn. split; lra.
Qed.

Example C75_example : exists fuel,
  transient_analysis tran_opts m_ie true 1 2 0 20000 9999 vzero at_rest fuel <> Err OutOfFuel.
Proof.
  apply C75_step_control_terminates; try (simpl; lra).
  - rewrite Rmin_left by lra. cbn [t_hmin tran_opts]. assert (1 <= 10 ^ 20) by (apply pow_R1_Rle; lra).
    apply Rmult_le_reg_r with (10 ^ 20); [lra|]. unfold Rdiv at 1. rewrite Rmult_assoc, Rinv_l by lra. lra.
  - intros. discriminate.
  - intros pv h b. apply (builtin_no_fuel pv h b (fun M => M) 1%nat).
Qed.

(** * C132: the step control keeps the error within the tolerances *)

(** What is asked of the component [i], given the previous point [x]. *)
Definition tolerance (o : topts) (nv : nat) (x : vec) (i : nat) : R :=
  t_vea o + (if (i <? nv - 1)%nat then t_ver o else t_ier o) * Rabs (x i).

Lemma coeff_error : forall o m size nv x lte i, (i < size)%nat -> 0 < t_vea o -> 0 <= t_ver o -> 0 <= t_ier o -> 0 <= lte i ->
  lte i * step_coeff o m size nv x lte ^ S (m_order m) <= tolerance o nv x i.
Proof.
  intros o m size nv x lte i L VE VR IR LI.
  assert (RE : forall j, 0 < t_vea o + rerr o nv j * Rabs (x j)).
  { intros j. pose proof (Rabs_pos (x j)). assert (0 <= rerr o nv j) by (unfold rerr; destruct (j <? nv - 1)%nat; assumption).
    pose proof (Rmult_le_pos _ _ H0 H). lra. }
  unfold tolerance. fold (rerr o nv i). destruct (Req_EM_T (lte i) 0) as [Z|NZ]; [rewrite Z, Rmult_0_l; apply Rlt_le, RE|].
  set (v := Rpower ((t_vea o + rerr o nv i * Rabs (x i)) / lte i) (1 / (INR (m_order m) + 1))).
  assert (C : 0 < step_coeff o m size nv x lte <= v).
  { split; [apply step_coeff_bounds|]. unfold step_coeff.
    match goal with |- fold_left ?F _ _ <= _ => assert (M : forall l c, fold_left F l c <= c) end.
    { induction l as [|j l IH]; intros c; [apply Rle_refl|]. cbn [fold_left]. eapply Rle_trans; [apply IH|].
      destruct (Req_EM_T (lte j) 0); [lra|]. match goal with |- (if Rlt_b ?a c then _ else _) <= _ => destruct (Rlt_b a c) eqn:Q end; [apply Rlt_b_spec in Q; lra|lra]. }
    assert (IN : In i (seq 0 size)) by (apply in_seq; lia). revert IN.
    match goal with |- In i ?l -> fold_left ?F _ ?c <= _ => generalize c; generalize l end.
    induction l as [|j l IH]; intros c IN; [destruct IN|]. cbn [fold_left]. destruct IN as [->|IN]; [|apply IH; exact IN].
    eapply Rle_trans; [apply M|]. destruct (Req_EM_T (lte i) 0); [contradiction|]. fold v.
    destruct (Rlt_b v c) eqn:Q; [lra|apply Rlt_b_false in Q; lra]. }
  assert (P : v ^ S (m_order m) = (t_vea o + rerr o nv i * Rabs (x i)) / lte i).
  { rewrite <- Rpower_pow by apply exp_pos. unfold v. rewrite Rpower_mult.
    replace (1 / (INR (m_order m) + 1) * INR (S (m_order m))) with 1 by (rewrite S_INR; field; pose proof (pos_INR (m_order m)); lra).
    apply Rpower_1. apply Rdiv_lt_0_compat; [apply RE|lra]. }
  pose proof (pow_incr (step_coeff o m size nv x lte) v (S (m_order m)) ltac:(lra)) as Q. rewrite P in Q.
  apply (Rmult_le_compat_l (lte i)) in Q; [|lra]. eapply Rle_trans; [exact Q|]. right. field. lra.
Qed.

(** A point that is stored: the estimate of the error of each component (see C73),
    weighed with the threshold, is within the tolerance. *)
Theorem C132_stored_points : forall o m blen size nv tstop hmax solve r st st' d x x1 i v,
  0 < t_vea o -> 0 <= t_ver o -> 0 <= t_ier o -> t_apost o = true -> 0 <= t_thr o ->
  step o m true blen size nv tstop hmax solve r st = TNext st' -> q_rows st' <> q_rows st ->
  coeffs m true st = Ok d -> q_x st = Some x -> q_x st' = Some x1 ->
  (i < size)%nat -> lte_estimate d (x1 i) i = Some v ->
  v * t_thr o ^ S (m_order m) <= tolerance o nv x i.
Proof.
  intros o m blen size nv tstop hmax solve r st st' d x x1 i v VE VR IR AP TH ST NR CO QX QX' L EV.
  unfold step in ST. rewrite CO in ST. set (x0 := match t_predx0 o && true with true => _ | false => _ end) in ST.
  destruct (solve r _ _ _ x0) as [[y|]|]; [| |discriminate ST].
  2:{ destruct (check_step _ _ _ _ _); [|discriminate ST]. apply iter_limit_next in ST. subst st'. exfalso. apply NR. reflexivity. }
  unfold lte_estimate in EV. destruct (df_pred d) as [[f e]|]; [|discriminate EV]. injection EV as <-. rewrite QX in ST.
  destruct (check_step _ _ _ _ _) as [s|] eqn:K; [|discriminate ST].
  rewrite AP in ST. cbn [andb] in ST. destruct (Rlt_b _ (t_thr o)) eqn:C in ST; [injection ST as <-; exfalso; apply NR; reflexivity|].
  unfold accept in ST. apply iter_limit_next in ST. subst st'. cbn [q_x] in QX'. injection QX' as <-. apply Rlt_b_false in C.
  pose proof (coeff_error o m size nv x (lte_of (df_lte d) e f y) i L VE VR IR (Rabs_pos _)) as B.
  pose proof (pow_incr _ _ (S (m_order m)) (conj TH C)) as Q. change (Rabs (df_lte d / (e - df_lte d) * (f i - y i))) with (lte_of (df_lte d) e f y i).
  eapply Rle_trans; [|exact B]. apply Rmult_le_compat_l; [apply Rabs_pos|exact Q].
Qed.
Print Assumptions C132_stored_points.

(** The step tried next: if the error goes as the power [order + 1] of the step it will
    be within the tolerance. *)
Theorem C132_next_step : forall o m blen size nv tstop hmax solve r st st' d x,
  0 < t_vea o -> 0 <= t_ver o -> 0 <= t_ier o -> 0 < q_step st -> q_time st < tstop -> 0 < hmax ->
  step o m true blen size nv tstop hmax solve r st = TNext st' ->
  coeffs m true st = Ok d -> q_x st = Some x ->
  exists x0, forall x1 i v, solve r (df_C1 d) (df_C0 d) (q_time st + q_step st) x0 = Ok (Some x1) ->
  (i < size)%nat -> lte_estimate d (x1 i) i = Some v ->
  v * (q_step st' / q_step st) ^ S (m_order m) <= tolerance o nv x i /\ q_step st' <= 2 * q_step st.
Proof.
  intros o m blen size nv tstop hmax solve r st st' d x VE VR IR SP TL HM ST CO QX.
  unfold step in ST. rewrite CO in ST. set (x0 := match t_predx0 o && true with true => _ | false => _ end) in ST.
  exists x0. intros x1 i v SO L EV. rewrite SO in ST.
  unfold lte_estimate in EV. destruct (df_pred d) as [[f e]|]; [|discriminate EV]. injection EV as <-. rewrite QX in ST.
  set (c := step_coeff o m size nv x (lte_of (df_lte d) e f x1)) in ST.
  pose proof (step_coeff_bounds o m size nv x (lte_of (df_lte d) e f x1)) as CB. fold c in CB.
  destruct (check_step _ _ _ _ _) as [s|] eqn:K; [|discriminate ST].
  assert (S : q_step st' = s).
  { destruct (t_apost o && Rlt_b c (t_thr o)); [injection ST as <-; reflexivity|]. unfold accept in ST. apply iter_limit_next in ST. subst st'. reflexivity. }
  rewrite S. apply check_step_inv in K. destruct K as (K1 & _ & _ & _ & K5).
  assert (0 < s) by (apply K5; [apply Rmult_lt_0_compat; lra|lra|lra]). split; [|nra].
  pose proof (coeff_error o m size nv x (lte_of (df_lte d) e f x1) i L VE VR IR (Rabs_pos _)) as B. fold c in B.
  change (Rabs (df_lte d / (e - df_lte d) * (f i - x1 i))) with (lte_of (df_lte d) e f x1 i).
  eapply Rle_trans; [|exact B]. apply Rmult_le_compat_l; [apply Rabs_pos|]. apply pow_incr.
  split; [apply Rlt_le, Rdiv_lt_0_compat; lra|]. apply (Rmult_le_reg_r (q_step st)); [lra|]. unfold Rdiv. rewrite Rmult_assoc, Rinv_l by lra. lra.
Qed.
Print Assumptions C132_next_step.

(** The tolerance of the currents is the one of the voltages: with the default options
    (vea = 1e-6, iea = 1e-9, threshold 0.9) a current with an error of 1e-6, a thousand
    times the tolerance of the option, is stored. *)
Theorem C132_current_tolerance_refuted : exists st st' solve d x1, let iea := 1 / 10 ^ 9 in
  step tran_opts m_ie true 2 1 1 10 10 solve 1 st = TNext st' /\ coeffs m_ie true st = Ok d /\ q_x st = Some vzero /\
  q_rows st' = (q_rows st ++ [(1, x1)])%list /\
  lte_estimate d (x1 0%nat) 0 = Some (1 / 10 ^ 6) /\ iea + t_ier tran_opts * Rabs (vzero 0%nat) < 1 / 10 ^ 6 * t_thr tran_opts ^ 2.
Proof.
  set (x1 := fun _ : nat => 3 / 10 ^ 6).
  assert (EST : forall f : vec, f 0%nat = 0 -> lte_of (1/2 * 1) (- (1/2) * 1 * (0 + 1 - -1)) f x1 0 = 1 / 10 ^ 6).
  { intros f F0. unfold lte_of, x1. rewrite F0. replace (_ * (0 - 3 / 10 ^ 6)) with (1 / 10 ^ 6) by field. apply Rabs_right. lra. }
  exists (mkT 0 1 (Some vzero) vzero 1 [zs 0 None; zs (-1) None] []). eexists. exists (fun _ _ _ _ _ => Ok (Some x1)). eexists. exists x1. cbv zeta.
  split; [|split; [reflexivity|]].
  - unfold step, coeffs. cbn [first_iterations m_x m_dx m_ie start_pred m_px m_pdx omax m_get andb Nat.max q_iter Nat.ltb Nat.leb q_buf q_step].
    cbn [ie_get df_pred df_C1 df_C0 df_lte q_x s_x s_t zs]. unfold step_coeff. cbn [seq fold_left m_order m_ie].
    rewrite EST by (unfold vzero; field). destruct (Req_EM_T (1 / 10 ^ 6) 0) as [Z|_]; [exfalso; lra|].
    cbn [t_vea tran_opts rerr Nat.ltb Nat.leb Nat.sub t_ier]. cbv zeta. change (Rabs (vzero 0%nat)) with (Rabs 0). rewrite Rabs_R0.
    replace ((1 / 10 ^ 6 + 1 / 1000 * 0) / (1 / 10 ^ 6)) with 1 by (field; lra).
    replace (Rpower 1 (1 / (INR 1 + 1))) with 1 by (unfold Rpower; rewrite ln_1, Rmult_0_r, exp_0; reflexivity).
    replace (Rlt_b 1 2) with true by (symmetry; apply Rlt_b_true; lra).
    cbv zeta iota. unfold check_step. cbn [q_time t_hmin tran_opts t_apost t_thr andb].
    replace (Rlt_b 10 (1 * 1)) with false by (symmetry; apply Rlt_b_false; lra).
    replace (Rlt_b (10 - 0) (1 * 1)) with false by (symmetry; apply Rlt_b_false; lra).
    replace (Rlt_b (1 * 1) (1 / 10 ^ 20)) with false by (symmetry; apply Rlt_b_false; lra).
    replace (Rlt_b 1 (9 / 10)) with false by (symmetry; apply Rlt_b_false; lra). reflexivity.
  - split; [reflexivity|]. split; [cbn [q_rows app q_time q_step]; do 2 f_equal; f_equal; lra|]. split.
    + unfold lte_estimate. transitivity (Some (lte_of (1/2 * 1) (- (1/2) * 1 * (0 + 1 - -1)) (fun i => (vzero i - vzero i) / (0 - -1) * 1 + vzero i) x1 0)); [reflexivity|].
      f_equal. apply EST. unfold vzero. field.
    + unfold vzero. rewrite Rabs_R0. cbn [t_ier t_thr tran_opts]. lra.
Qed.
Print Assumptions C132_current_tolerance_refuted.
