(** From the text of a netlist to the results of a periodic steady state analysis
    (C202, C203). *)
From Coq Require Import Ascii String Reals List Bool Arith ZArith Lia Lra Psatz.
From Verif Require Import Base BaseFacts Str Units Directive Lines Reader Netlist ModelLines Nodes NodesFacts Circuit CircuitFacts Rsum Mna MnaSpec MnaFacts DcSolve DcSolveFacts
  Newton NewtonFacts DynFacts Lagrange Df PropsDf Tran TranFacts PropsTran Csv PropsCsv Results PropsReader PropsNetlist PropsResults PropsDc Sweep PropsSweep PropsMna PropsAc Session Simulate
  PropsSimulate SimulateAc PropsSimulateAc SimulateDc PropsSimulateDc PropsSimulateOp SimulateTran PropsSimulateTran SimulateNl Pss PropsPss TimeFun Waves PropsWaves SimulatePss.
Import ListNotations.
Open Scope R_scope.

(** * Lemmas *)

(** ** Step and points *)
Lemma steps_ok : forall step points period d pts h, check_step_and_points step points period d = Ok (pts, h) -> 0 < period ->
  (forall st, step = Some st -> 0 < st <= period) -> (2 <= pts)%nat /\ 0 < h /\ INR (pts - 1) * h = period.
Proof.
  intros step points period d pts h H P ST.
  assert (PT : forall n, match n with S _ => if (n =? 1)%nat then Err ZeroDivision else Ok (n, period / (INR n - 1)) | O => Err TypeError end = Ok (pts, h) ->
    (2 <= pts)%nat /\ 0 < h /\ INR (pts - 1) * h = period).
  { intros [|[|n]] E; try discriminate E. cbn [Nat.eqb] in E. injection E as <- EH. assert (HH : h = period / (INR (S (S n)) - 1)) by (symmetry; exact EH). clear EH. rewrite HH. clear HH. split; [lia|].
    replace (INR (S (S n) - 1)) with (INR (S (S n)) - 1) by (rewrite minus_INR by lia; reflexivity).
    assert (1 <= INR (S (S n)) - 1) by (rewrite !S_INR; pose proof (pos_INR n); lra). split; [apply Rdiv_lt_0_compat; lra|field; lra]. }
  destruct step as [st|].
  - destruct (C16_step_given period st (proj1 (ST st eq_refl)) (proj2 (ST st eq_refl))) as (n & st' & E & N & S & Q & _).
    assert (E' : Ok (n, st') = Ok (pts, h)) by (rewrite <- E, <- H; destruct points; reflexivity). injection E' as <- <-.
    split; [exact N|]. split; [exact S|]. rewrite minus_INR by lia. exact Q.
  - destruct points as [n|]; [|specialize (PT d)].
    + apply (PT n). rewrite <- H. destruct n; reflexivity.
    + apply PT. rewrite <- H. destruct d; reflexivity.
Qed.

(** ** The points *)

(** A sample and the one a step before it. *)
Definition pss_point (t : ntab) (es : list lelem) (h time : R) (x xp : vec) : tpoint :=
  point_of t es (mkS time x (Some (fun j => (x j - xp j) / h))).

Lemma pss_p_V : forall t es h time x xp n i, at_node t n (S i) ->
  p_V (pss_point t es h time x xp) n = x i /\ p_dV (pss_point t es h time x xp) n = (x i - xp i) / h.
Proof. intros t es h time x xp n i At. destruct (point_V t es n i (mkS time x (Some (fun j => (x j - xp j) / h))) At) as (A & B). split; [exact A|exact B]. Qed.

Section Points.
  Variables (t : ntab) (parts : list pelem) (es : list lelem).
  Hypothesis GR : grounded t.
  Hypothesis PL_ : Forall2 (placed written_dc t) parts es.
  Hypothesis SO : Forall (proper parts) parts.
  Hypothesis SC : Forall (ac_sound parts) parts.
  Hypothesis ND : NoDup (map pid parts).
  Let nv := get_nodes_number t.
  Let size := op_size t es.
  Variables (cmin : R) (m : mat) (N : vec) (D : mat).
  Hypothesis GE : generate_mna_and_N nv es = Ok (m, N).
  Hypothesis GD : generate_D cmin nv es = Ok D.
  Variable at_time : str -> R -> R.
  Let src time := driven (fun id => at_time id time) written_dc.

  Lemma pss_p_I : forall h time x xp id k, nth_error (current_ids parts) k = Some id ->
    p_I (pss_point t es h time x xp) id = x (nv - 1 + k)%nat /\ p_dI (pss_point t es h time x xp) id = (x (nv - 1 + k)%nat - xp (nv - 1 + k)%nat) / h.
  Proof. intros h time x xp id k H. destruct (point_I t parts es GR PL_ SO ND id k (mkS time x (Some (fun j => (x j - xp j) / h))) H) as (A & B). split; [exact A|exact B]. Qed.

  (** The discretised equations are the laws. *)
  Lemma pss_laws : forall h time x xp,
    (forall i, (i < size)%nat -> euler_eq size (reduce_mat m) (reduce_mat D) (reduce_vec N) (pss_term at_time t es) [] h time x xp i = 0) ->
    let q := pss_point t es h time x xp in tr_laws (src time) 0 (Rmax 0 cmin) parts (p_V q) (p_I q) (p_dV q) (p_dI q).
  Proof.
    intros h time x xp H q.
    apply (system_laws t parts es GR PL_ SO SC ND cmin 0 m N D GE GD (fun id => at_time id time) x (fun j => (x j - xp j) / h)).
    intros i Hi. specialize (H i Hi). unfold euler_eq in H. change (snd (J_and_T [] x) i) with 0 in H. unfold tr_row. fold nv. change (op_size t es) with size.
    unfold pss_term in H. fold nv in H. destruct (i <? nv - 1)%nat; lra.
  Qed.

  (** Samples that follow each other. *)
  Lemma pss_marches : forall h (tm : nat -> R) (x : nat -> vec) xp k, 0 < h -> (forall j, tm (S j) = tm j + h) ->
    (forall j i, (S j <= k)%nat -> (i < size)%nat -> euler_eq size (reduce_mat m) (reduce_mat D) (reduce_vec N) (pss_term at_time t es) [] h (tm (S j)) (x (S j)) (x j) i = 0) ->
    marches src 0 (Rmax 0 cmin) parts DImplicitEuler
      (rev (map (fun j => pss_point t es h (tm j) (x j) (match j with O => xp | S j' => x j' end)) (seq 0 (S k)))).
  Proof.
    intros h tm x xp k HP TM. induction k as [|k IH]; intros EQ; [split; exact Logic.I|].
    rewrite seq_S, map_app, rev_app_distr. cbn [map rev app].
    assert (IH' : marches src 0 (Rmax 0 cmin) parts DImplicitEuler
      (rev (map (fun j => pss_point t es h (tm j) (x j) (match j with O => xp | S j' => x j' end)) (seq 0 (S k))))) by (apply IH; intros j i J; apply EQ; lia).
    rewrite seq_S, map_app, rev_app_distr in IH' |- *. cbn [map rev app] in *. change (0 + S k)%nat with (S k). change (0 + k)%nat with k in *.
    set (past := rev (map (fun j => pss_point t es h (tm j) (x j) (match j with O => xp | S j' => x j' end)) (seq 0 k))) in *.
    split; [|exact IH']. split; [cbn [pss_point point_of p_t s_t]; rewrite TM; lra|]. split.
    { apply pss_laws. intros i Hi. apply EQ; [lia|exact Hi]. }
    assert (DT : forall y yp, p_t (pss_point t es h (tm (S k)) (x (S k)) (x k)) - p_t (pss_point t es h (tm k) y yp) = h) by (intros; cbn [pss_point point_of p_t s_t]; rewrite TM; ring).
    split.
    - intros n IN NG. destruct (tr_nodes t parts es GR PL_ SO n IN NG) as (i & At & _). cbn [slope_rule]. rewrite DT.
      rewrite (proj2 (pss_p_V t es h _ _ _ n i At)), (proj1 (pss_p_V t es h _ (x (S k)) _ n i At)), (proj1 (pss_p_V t es h _ (x k) _ n i At)). reflexivity.
    - intros id IN. apply In_nth_error in IN. destruct IN as (q & NQ). cbn [slope_rule]. rewrite DT.
      rewrite (proj2 (pss_p_I h _ _ _ id q NQ)), (proj1 (pss_p_I h _ (x (S k)) _ id q NQ)), (proj1 (pss_p_I h _ (x k) _ id q NQ)). reflexivity.
  Qed.
End Points.

(** ** The table *)
Lemma pss_table : forall t es nodes ids rows,
  names_of t (seq 1 (get_nodes_number t - 1)) = Ok nodes -> map (fun e => list_ascii_of_string (lid e)) (filter is_vde es) = ids ->
  distinct nodes -> distinct ids -> Forall PropsResults.plain nodes -> Forall PropsResults.plain ids -> op_size t es = (List.length nodes + List.length ids)%nat ->
  (forall name, slower name = lit "t" -> pss_report t es rows name = Ok (map fst rows)) /\
  (forall k n name, nth_error nodes k = Some n -> slower name = slower (lit "V" ++ n) -> pss_report t es rows name = Ok (map (fun r => snd r k) rows)) /\
  (forall j id name, nth_error ids j = Some id -> slower name = slower (lit "I(" ++ id ++ lit ")") ->
     pss_report t es rows name = Ok (map (fun r => snd r (List.length nodes + j)%nat) rows)).
Proof.
  intros t es nodes ids rows NS IDS DN DI PN PI_ SZ.
  assert (BL : Forall (PropsCsv.block (pss_vars nodes ids)) [pss_block (op_size t es) rows]).
  { constructor; [|constructor]. split; unfold pss_block, pss_vars; cbn [fst snd List.length].
    - rewrite app_length, !map_length, seq_length. f_equal. exact SZ.
    - constructor; [apply map_length|]. apply Forall_map. apply Forall_forall. intros; apply map_length. }
  destruct (C36_pss R 0 nodes ids _ _ DN DI PN PI_ BL) as ((F1 & F2 & _) & F0). cbv zeta in F1, F2, F0.
  assert (SM : forall k, (k < op_size t es)%nat -> samples [pss_block (op_size t es) rows] (S k) = map (fun r => snd r k) rows).
  { intros k K. unfold samples, pss_block. cbn [map concat snd nth]. rewrite app_nil_r.
    rewrite (nth_indep _ [] (map (fun r => snd r 0%nat) rows)) by (rewrite map_length, seq_length; exact K).
    rewrite (map_nth (fun i => map (fun r => snd r i) rows)), seq_nth by exact K. reflexivity. }
  unfold pss_report, pss_file. rewrite NS, IDS. cbn [bindr]. unfold written in F0, F1, F2. cbn [fold_left] in F0, F1, F2. split; [|split].
  - intros name E. rewrite F0 by exact E. f_equal. unfold samples, pss_block. cbn [map concat snd nth]. apply app_nil_r.
  - intros k n name H E. rewrite (F1 k n name H E). f_equal. apply SM. rewrite SZ. apply Nat.lt_lt_add_r. apply nth_error_Some. congruence.
  - intros j id name H E. rewrite (F2 j id name H E). f_equal. apply SM. rewrite SZ. apply Nat.add_lt_mono_l. apply nth_error_Some. congruence.
Qed.

Lemma no_ports : forall square current conductance t all parts, Forall (sound all) parts -> pss_ports square current conductance t parts = Ok [].
Proof.
  intros square current conductance t all parts H. induction H as [|e l He H IH]; [reflexivity|]. cbn [pss_ports].
  replace (out_port e) with (@None (str * str)); [exact IH|]. destruct e; try reflexivity; destruct He.
Qed.

(** * What is looked up *)

(** The table has the columns of the points. *)
Definition shows (report : str -> res (list R)) (parts : list pelem) (points : list tpoint) : Prop :=
  (forall name, slower name = lit "t" -> report name = Ok (map p_t points)) /\
  (forall n name, In n (node_list parts) -> n <> lit "0" -> slower name = slower (lit "V" ++ n) -> report name = Ok (map (fun p => p_V p n) points)) /\
  (forall id name, In id (current_ids parts) -> slower name = slower (lit "I(" ++ id ++ lit ")") -> report name = Ok (map (fun p => p_I p id) points)).
(** The times are 0, h, 2 h, .., and the last one is the period. *)
Definition spans (period h : R) (points : list tpoint) : Prop :=
  (2 <= List.length points)%nat /\ 0 < h /\ map p_t points = map (fun k => INR k * h) (seq 0 (List.length points)) /\ INR (List.length points - 1) * h = period.

Section Shown.
  Variables (t : ntab) (parts : list pelem) (es : list lelem) (ns : list str).
  Hypothesis GR : grounded t.
  Hypothesis PL_ : Forall2 (placed written_dc t) parts es.
  Hypothesis SO : Forall (proper parts) parts.
  Hypothesis ND : NoDup (map pid parts).
  Hypothesis NS : names_of t (seq 1 (get_nodes_number t - 1)) = Ok ns.
  Hypothesis LN : List.length ns = (get_nodes_number t - 1)%nat.
  Hypothesis IDX : forall n, In n (node_list parts) -> n <> lit "0" -> exists i, nth_error ns i = Some n /\ at_node t n (S i).
  Hypothesis IDS : map (fun e => list_ascii_of_string (lid e)) (filter is_vde es) = current_ids parts.
  Hypothesis DN : distinct ns.
  Hypothesis DI : distinct (current_ids parts).
  Hypothesis PN : Forall PropsResults.plain ns.
  Hypothesis PI_ : Forall PropsResults.plain (current_ids parts).
  Hypothesis SZ : op_size t es = (List.length ns + List.length (current_ids parts))%nat.
  Lemma pss_shows : forall pts h x (xp : nat -> vec),
    shows (pss_report t es (pss_rows pts h x)) parts (map (fun k => pss_point t es h (INR k * h) (x k) (xp k)) (seq 0 pts)).
  Proof.
    intros pts h x xp. destruct (pss_table t es ns (current_ids parts) (pss_rows pts h x) NS IDS DN DI PN PI_ SZ) as (T0 & T1 & T2). split; [|split].
    - intros name E. rewrite (T0 name E). unfold pss_rows. rewrite !map_map. reflexivity.
    - intros n name IN NG E. destruct (IDX n IN NG) as (i & NI & At). rewrite (T1 i n name NI E). unfold pss_rows. rewrite !map_map. f_equal. apply map_ext.
      intros k. cbn [snd]. symmetry. apply (pss_p_V t es h _ _ _ n i At).
    - intros id name IN E. apply In_nth_error in IN. destruct IN as (q & NQ). rewrite (T2 q id name NQ E). unfold pss_rows. rewrite !map_map. f_equal. apply map_ext.
      intros k. cbn [snd]. rewrite LN. symmetry. apply (pss_p_I t parts es GR PL_ SO ND h _ _ _ id q NQ).
  Qed.
End Shown.

Lemma pss_spans : forall t es pts h period x xp, (2 <= pts)%nat -> 0 < h -> INR (pts - 1) * h = period ->
  spans period h (map (fun k => pss_point t es h (INR k * h) (x k) (xp k)) (seq 0 pts)).
Proof.
  intros t es pts h period x xp P H E. unfold spans. rewrite map_length, seq_length. split; [exact P|]. split; [exact H|]. split; [|exact E]. rewrite map_map. reflexivity.
Qed.

(** * C202 *)
Theorem C202_brute_force : forall fs other fuel filename parts t es, load fs other fuel filename = Ok (parts, t, es) ->
  (* nothing is said of subcircuits and user-defined elements, except that names are words in lower case *)
  (forall line l, other line = Ok l -> Forall word_names l) ->
  Forall (ac_sound parts) parts ->
  forall solve msolve minv square current conductance locked tdo tol cmin at_time bf_default limit bf_iter JT check o maxit fuel' top gmin inv modules has_module rounds
    sh_default sh_iter method period step npoints x0 rows,
  (forall n, solves n (solve n)) ->
  0 < period -> (forall st, step = Some st -> 0 < st <= period) ->
  lower method = "brute-force"%string ->
  pss_analysis solve msolve minv square current conductance locked tdo tol cmin at_time bf_default limit bf_iter JT check o maxit fuel' top gmin inv modules has_module rounds
    sh_default sh_iter method t parts es period step npoints x0 = Ok (Some rows) ->
  let src time := driven (fun id => at_time id time) written_dc in
  exists h first rest,
    check_step_and_points step npoints period bf_default = Ok (S (List.length rest), h) /\
    (* the points are a period apart in time, and are what is reported *)
    spans period h (first :: rest) /\ shows (pss_report t es rows) parts (first :: rest) /\
    (* at each point after the first the laws hold, the derivatives being backward differences *)
    marches src 0 (Rmax 0 cmin) parts DImplicitEuler (rev (first :: rest)) /\
    (* the last point is the first *)
    (forall n, In n (node_list parts) -> n <> lit "0" -> p_V (last rest first) n = p_V first n) /\
    (forall id, In id (current_ids parts) -> p_I (last rest first) id = p_I first id).
Proof.
  intros fs other fuel filename parts t es LD OT SC solve msolve minv square current conductance locked tdo tol cmin at_time bf_default limit bf_iter JT check o maxit fuel' top gmin inv
    modules has_module rounds sh_default sh_iter method period step npoints x0 rows SS PP ST ME RUN src.
  assert (OL : forall line l, other line = Ok l -> Forall lower_case l) by (intros line l H; eapply Forall_impl; [|exact (OT line l H)]; intros e He; apply He).
  assert (OP : forall line l, other line = Ok l -> Forall plain_names l) by (intros line l H; eapply Forall_impl; [|exact (OT line l H)]; intros e He; apply He).
  assert (SO : Forall (proper parts) parts).
  { pose proof (load_lower _ _ _ _ _ _ _ OL LD) as LC. apply Forall_forall. rewrite Forall_forall in SC, LC. intros e H. split; [auto|apply SC; exact H]. }
  pose proof (load_plain _ _ _ _ _ _ _ OP LD) as PN.
  destruct (load_facts _ _ _ _ _ _ _ LD) as (G & NV & PL & ND & MEN).
  destruct (result_names t parts es G PL SO PN ND MEN) as (ns & NS & LN & DN & PNS & IDS & DI & PIS & LEN & REGD & IDX).
  pose proof (grounded_number t G) as NZ.
  assert (SZ : op_size t es = (List.length ns + List.length (current_ids parts))%nat) by (unfold op_size; lia).
  assert (NL := proj2 (proj2 (proj2 (proper_wf written_dc t parts es G PL SO)))).
  assert (PO : pss_ports square current conductance t parts = Ok []).
  { apply (no_ports _ _ _ _ parts). eapply Forall_impl; [|exact SO]. intros e H. apply H. }
  unfold pss_analysis in RUN. rewrite ME in RUN. cbn [String.eqb Ascii.eqb Bool.eqb] in RUN. unfold bfpss_run in RUN. rewrite PO in RUN.
  destruct (generate_mna_and_N (get_nodes_number t) es) as [[m N]|] eqn:GE; [|discriminate RUN]. cbn [bindr fst snd] in RUN.
  destruct (generate_D cmin (get_nodes_number t) es) as [D|] eqn:GD; [|discriminate RUN]. cbn [bindr] in RUN.
  destruct (check_step_and_points step npoints period bf_default) as [[pts h]|] eqn:CS; [|discriminate RUN]. cbn [bindr] in RUN.
  destruct (steps_ok _ _ _ _ _ _ CS PP ST) as (P2 & HP & SP).
  unfold ports in RUN. rewrite NL in RUN. set (n := op_size t es) in *.
  match type of RUN with match ?b with _ => _ end = _ => destruct b as [|ex|[x|]] eqn:BS; try discriminate RUN end. injection RUN as <-.
  assert (PS : periodic_solution n pts (reduce_mat m) (reduce_mat D) h (reduce_vec N) (pss_term at_time t es) [] x).
  { destruct (Nat.eq_dec n 0) as [Z|Z]; [rewrite Z; split; intros; lia|].
    assert (BL : exists left, bf_loop n pts (reduce_mat m) (reduce_mat D) h (reduce_vec N) (pss_term at_time t es) [] (solve (pts * n)%nat) (fun dx => get_td tdo n dx [] None)
      (bf_check tol n pts (get_nodes_number t - 1)) left (bf_start n x0) = BDone (Some x)).
    { exists bf_iter. unfold bf_solve in BS. destruct (limit <? n * pts)%nat; [exact BS|]. unfold bf_dense in BS. destruct (msolve _ _ _); [|discriminate BS].
      destruct (max_rows _ _); [exact BS|discriminate BS]. }
    destruct BL as (left & BL). eapply bf_periodic; [lia|exact P2|apply SS|exact BL]. }
  destruct PS as (P0 & PK). destruct pts as [|k]; [lia|].
  set (P k := pss_point t es h (INR k * h) (Pss.sample n x k) (match k with O => vzero | S k' => Pss.sample n x k' end)).
  exists h, (P 0%nat), (map P (seq 1 k)). change (P 0%nat :: map P (seq 1 k)) with (map P (seq 0 (S k))).
  assert (LA : last (map P (seq 1 k)) (P 0%nat) = P k).
  { clear. destruct k as [|k]; [reflexivity|]. rewrite seq_S, map_app. apply last_last. }
  split; [rewrite map_length, seq_length; reflexivity|]. split; [apply pss_spans; assumption|]. split.
  { apply (pss_shows t parts es ns); assumption. }
  split.
  { apply (pss_marches t parts es G PL SO SC ND cmin m N D GE GD at_time h (fun k => INR k * h) (Pss.sample n x)); [exact HP|intros j; rewrite S_INR; ring|].
    intros j i J I. fold n. specialize (PK (S j) i ltac:(lia) I). replace (S j - 1)%nat with j in PK by lia. exact PK. }
  rewrite LA. replace (S k - 1)%nat with k in P0 by lia. split.
  - intros a IN NG. destruct (tr_nodes t parts es G PL SO a IN NG) as (i & At & Hi). unfold P.
    rewrite !(proj1 (pss_p_V t es h _ _ _ a i At)). symmetry. apply P0. unfold n, op_size. lia.
  - intros id IN. apply In_nth_error in IN. destruct IN as (q & NQ). unfold P.
    rewrite !(proj1 (pss_p_I t parts es G PL SO ND h _ _ _ id q NQ)). symmetry. apply P0. rewrite SZ, LN. apply Nat.add_lt_mono_l. apply nth_error_Some. congruence.
Qed.
Print Assumptions C202_brute_force.

(** * C203 *)
Theorem C203_shooting : forall fs other fuel filename parts t es, load fs other fuel filename = Ok (parts, t, es) ->
  (* nothing is said of subcircuits and user-defined elements, except that names are words in lower case *)
  (forall line l, other line = Ok l -> Forall word_names l) ->
  Forall (ac_sound parts) parts ->
  forall solve msolve minv square current conductance locked tdo tol cmin at_time bf_default limit bf_iter JT check o maxit fuel' top gmin inv modules has_module rounds
    sh_default sh_iter method period step npoints x0 rows,
  (forall n, solves n (solve n)) -> (forall n, msolves n (msolve n)) -> (forall n, inverts n (minv n)) ->
  0 < period -> (forall st, step = Some st -> 0 < st <= period) ->
  lower method = "shooting"%string ->
  pss_analysis solve msolve minv square current conductance locked tdo tol cmin at_time bf_default limit bf_iter JT check o maxit fuel' top gmin inv modules has_module rounds
    sh_default sh_iter method t parts es period step npoints x0 = Ok (Some rows) ->
  let src time := driven (fun id => at_time id time) written_dc in
  exists h first rest before,
    check_step_and_points step npoints period sh_default = Ok (S (List.length rest), h) /\
    (* the points are a period apart in time, and are what is reported *)
    spans period h (first :: rest) /\ shows (pss_report t es rows) parts (first :: rest) /\
    (* at each point the laws hold, the derivatives being backward differences; a step before the first point the values are
       those of the last one *)
    marches src 0 (Rmax 0 cmin) parts DImplicitEuler (rev (before :: first :: rest)) /\ p_t before = - h /\
    (forall n, In n (node_list parts) -> n <> lit "0" -> p_V before n = p_V (last rest first) n) /\
    (forall id, In id (current_ids parts) -> p_I before id = p_I (last rest first) id).
Proof.
  intros fs other fuel filename parts t es LD OT SC solve msolve minv square current conductance locked tdo tol cmin at_time bf_default limit bf_iter JT check o maxit fuel' top gmin inv
    modules has_module rounds sh_default sh_iter method period step npoints x0 rows SS SM SI PP ST ME RUN src.
  assert (OL : forall line l, other line = Ok l -> Forall lower_case l) by (intros line l H; eapply Forall_impl; [|exact (OT line l H)]; intros e He; apply He).
  assert (OP : forall line l, other line = Ok l -> Forall plain_names l) by (intros line l H; eapply Forall_impl; [|exact (OT line l H)]; intros e He; apply He).
  assert (SO : Forall (proper parts) parts).
  { pose proof (load_lower _ _ _ _ _ _ _ OL LD) as LC. apply Forall_forall. rewrite Forall_forall in SC, LC. intros e H. split; [auto|apply SC; exact H]. }
  pose proof (load_plain _ _ _ _ _ _ _ OP LD) as PN.
  destruct (load_facts _ _ _ _ _ _ _ LD) as (G & NV & PL & ND & MEN).
  destruct (result_names t parts es G PL SO PN ND MEN) as (ns & NS & LN & DN & PNS & IDS & DI & PIS & LEN & REGD & IDX).
  pose proof (grounded_number t G) as NZ.
  assert (SZ : op_size t es = (List.length ns + List.length (current_ids parts))%nat) by (unfold op_size; lia).
  assert (NL := proj2 (proj2 (proj2 (proper_wf written_dc t parts es G PL SO)))).
  assert (PO : pss_ports square current conductance t parts = Ok []).
  { apply (no_ports _ _ _ _ parts). eapply Forall_impl; [|exact SO]. intros e H. apply H. }
  unfold pss_analysis in RUN. rewrite ME in RUN. cbn [String.eqb Ascii.eqb Bool.eqb] in RUN. unfold shooting_run in RUN. rewrite PO in RUN.
  destruct (generate_mna_and_N (get_nodes_number t) es) as [[m N]|] eqn:GE; [|discriminate RUN]. cbn [bindr fst snd] in RUN.
  destruct (generate_D cmin (get_nodes_number t) es) as [D|] eqn:GD; [|discriminate RUN]. cbn [bindr] in RUN.
  destruct (check_step_and_points step npoints period sh_default) as [[pts h]|] eqn:CS; [|discriminate RUN]. cbn [bindr] in RUN.
  destruct (steps_ok _ _ _ _ _ _ CS PP ST) as (P2 & HP & SP).
  match type of RUN with bindr ?b _ = _ => destruct b as [[tr|]|]; try discriminate RUN end. cbn [bindr] in RUN.
  destruct (List.length (last_samples pts vzero tr) =? pts)%nat eqn:LS; [|discriminate RUN]. apply Nat.eqb_eq in LS. cbn [negb] in RUN.
  unfold ports in RUN. rewrite NL in RUN. set (n := op_size t es) in *.
  match type of RUN with match ?b with _ => _ end = _ => destruct b as [|[r|]] eqn:BS; try discriminate RUN end. injection RUN as <-.
  destruct (C47_wrap n (solve n) (msolve n) (minv n) (SS n) (SM n) (SI n) (reduce_mat m) (reduce_mat D) (reduce_vec N) (pss_term at_time t es) h tdo _ sh_iter 0%nat (last_samples pts vzero tr) r ltac:(lia) BS) as (LR & EQ).
  rewrite LS in LR, EQ. clear BS. destruct pts as [|k]; [lia|].
  set (x j := match j with O => nth k r vzero | S j' => nth j' r vzero end).
  set (tm j := match j with O => - h | S j' => INR j' * h end).
  set (F j := pss_point t es h (tm j) (x j) (match j with O => vzero | S j' => x j' end)).
  set (P j := pss_point t es h (INR j * h) (nth j r vzero) (x j)).
  exists h, (P 0%nat), (map P (seq 1 k)), (F 0%nat). change (P 0%nat :: map P (seq 1 k)) with (map P (seq 0 (S k))).
  assert (LA : last (map P (seq 1 k)) (P 0%nat) = P k).
  { clear. destruct k as [|k]; [reflexivity|]. rewrite seq_S, map_app. apply last_last. }
  split; [rewrite map_length, seq_length; reflexivity|]. split; [apply pss_spans; assumption|]. split.
  { apply (pss_shows t parts es ns); assumption. }
  split.
  { assert (E : F 0%nat :: map P (seq 0 (S k)) = map F (seq 0 (S (S k)))).
    { change (seq 0 (S (S k))) with (0%nat :: seq 1 (S k)). cbn [map]. f_equal. rewrite <- (seq_shift (S k) 0), map_map. reflexivity. }
    rewrite E. apply (pss_marches t parts es G PL SO SC ND cmin m N D GE GD at_time h tm x); [exact HP| |].
    - intros [|j]; unfold tm; [simpl; ring|]. rewrite S_INR. ring.
    - intros j i J I. fold n. specialize (EQ j i ltac:(lia) I). destruct j as [|j]; [|exact EQ].
      cbn [before] in EQ. replace (S k - 1)%nat with k in EQ by lia. exact EQ. }
  split; [reflexivity|]. rewrite LA. split.
  - intros a IN NG. destruct (tr_nodes t parts es G PL SO a IN NG) as (i & At & Hi). unfold P, F.
    rewrite !(proj1 (pss_p_V t es h _ _ _ a i At)). reflexivity.
  - intros id IN. apply In_nth_error in IN. destruct IN as (q & NQ). unfold P, F.
    rewrite !(proj1 (pss_p_I t parts es G PL SO ND h _ _ _ id q NQ)). reflexivity.
Qed.
Print Assumptions C203_shooting.

(** * Examples and what does not hold *)

(** ** One unknown: the shooting method finds its samples from any start *)
Section OneUnknown.
  Variables (m D : mat) (Tf : vec) (Tt : R -> vec) (h : R) (o : tdopts).
  Hypothesis HP : 0 < h.
  Hypothesis M0 : 0 < m 0%nat 0%nat.
  Hypothesis D0 : 0 <= D 0%nat 0%nat.
  Let d := D 0%nat 0%nat / h.
  Let q := m 0%nat 0%nat + d.
  Lemma one_d : 0 <= d.
  Proof. unfold d. apply Rmult_le_pos; [exact D0|]. left. apply Rinv_0_lt_compat. exact HP. Qed.
  Lemma one_q : 0 < q.
  Proof. unfold q. pose proof one_d. lra. Qed.
  Let c := d / q.
  Lemma one_c : 0 <= c < 1.
  Proof.
    pose proof one_d. pose proof one_q. unfold c. split; [apply Rmult_le_pos; [lra|left; apply Rinv_0_lt_compat; lra]|].
    apply (Rmult_lt_reg_r q); [lra|]. unfold Rdiv. rewrite Rmult_assoc, Rinv_l by lra. unfold q. lra.
  Qed.
  Lemma one_pow : forall k, c ^ S k < 1.
  Proof. intros k. apply pow_lt_1_compat; [apply one_c|lia]. Qed.

  Notation stp := (shoot_step 1 PropsPss.solve1 msolve1 inv1 m D Tf Tt [] h (fun dx => get_td o 1 dx [] None)).
  Let B := MB D h.
  Lemma one_B : B 0%nat 0%nat = - d.
  Proof. unfold B, MB, mscale, C0, d, Rdiv. ring. Qed.
  Definition one_ready (p : mat * vec) : Prop := fst p 0%nat 0%nat = q.
  Lemma one_points : forall xs k xp, Forall one_ready (points_from 1 m D Tf Tt [] h k xp xs).
  Proof.
    induction xs as [|x xs IH]; intros k xp; cbn [points_from]; constructor; [|apply IH].
    unfold one_ready, point. change (J_and_T [] x) with (mzero, vzero). cbv iota. cbn [fst].
    unfold mplus, mzero, mscale, C1, q, d, Rdiv. ring.
  Qed.
  Lemma one_solve : forall p v, one_ready p -> exists y, PropsPss.solve1 (fst p) v = Some y.
  Proof. intros p v E. unfold PropsPss.solve1. destruct Req_EM_T as [Z|]; [exfalso; pose proof one_q; unfold one_ready in E; lra|eauto]. Qed.
  Lemma one_chain1 : forall l w, Forall one_ready l -> exists P, chain1 1 msolve1 B l w = Some P /\ P 0%nat 0%nat = c ^ List.length l * w 0%nat 0%nat.
  Proof.
    induction l as [|[A T] l IH]; intros w F; [exists w; split; [reflexivity|simpl; ring]|]. inversion F as [|p l' FA FL]; subst. unfold one_ready in FA. cbn [fst] in FA.
    cbn [chain1]. unfold msolve1 at 1. destruct Req_EM_T as [Z|_]; [pose proof one_q; lra|].
    destruct (IH (mneg (fun _ _ => mmul 1 B w 0%nat 0%nat / A 0%nat 0%nat)) FL) as (P & E & V). exists P. split; [exact E|]. rewrite V, FA.
    unfold mneg, mmul. cbn [rsum List.length]. rewrite one_B. simpl pow. unfold c. pose proof one_q. field. lra.
  Qed.
  Lemma one_chain3 : forall l v, Forall one_ready l -> exists y, chain3 1 PropsPss.solve1 B l v = Some y.
  Proof.
    induction l as [|[A T] l IH]; intros v F; [exists v; reflexivity|]. inversion F as [|p l' FA FL]; subst. cbn [chain3].
    destruct (one_solve (A, T) (mvec 1 B v) FA) as (y & E). cbn [fst] in E. rewrite E. apply IH, FL.
  Qed.
  Lemma one_sum2 : forall l v, Forall one_ready l -> exists y, sum2 1 PropsPss.solve1 B l v = Some y.
  Proof.
    induction l as [|[A T] l IH]; intros v F; [exists v; reflexivity|]. inversion F as [|p l' FA FL]; subst. cbn [sum2].
    destruct (one_solve (A, T) T FA) as (y & E). cbn [fst] in E. rewrite E. destruct (one_chain3 l (vneg y) FL) as (z & Z). rewrite Z. apply IH, FL.
  Qed.
  Lemma one_dx : forall l v, Forall one_ready l -> exists y, dx_loop 1 PropsPss.solve1 B l v = Some y.
  Proof.
    induction l as [|[A T] l IH]; intros v F; [exists []; reflexivity|]. inversion F as [|p l' FA FL]; subst. cbn [dx_loop]. unfold compute_dx.
    destruct (one_solve (A, T) (vplus (mvec 1 B v) T) FA) as (y & E). cbn [fst] in E. rewrite E. destruct (IH (vneg y) FL) as (z & Z). rewrite Z. eauto.
  Qed.
  Lemma one_step : forall xs, (0 < List.length xs)%nat -> exists dxs xs', stp xs = Some (dxs, xs').
  Proof.
    intros xs L. unfold shoot_step, lin_points, updates, compute_dxN. fold B.
    pose proof (one_points xs 0 (last xs vzero)) as F. pose proof (proj1 (lin_points_spec 1 m D Tf Tt [] h xs)) as LL. unfold lin_points in LL.
    set (l := points_from 1 m D Tf Tt [] h 0 (last xs vzero) xs) in *.
    destruct (one_chain1 l eye F) as (P & EP & VP). rewrite EP. destruct (one_sum2 l vzero F) as (s & ES). rewrite ES.
    unfold inv1. destruct Req_EM_T as [Z|_].
    - exfalso. unfold mplus, mneg, eye in Z. rewrite VP in Z. unfold eye in Z. rewrite dlt_same in Z. rewrite LL in Z. destruct (List.length xs) as [|k]; [lia|].
      pose proof (one_pow k). lra.
    - assert (F' : Forall one_ready (firstn (pred (List.length l)) l)).
      { apply Forall_forall. rewrite Forall_forall in F. intros p IN. apply F. rewrite <- (firstn_skipn (pred (List.length l)) l). apply in_or_app. left. exact IN. }
      destruct (one_dx _ (mvec 1 (fun _ _ => / mplus eye (mneg P) 0%nat 0%nat) s) F') as (ds & DS). rewrite DS. eauto.
  Qed.

  (** Samples that satisfy the equations stay where they are. *)
  Definition one_solved (xs : list vec) : Prop := forall k i, (k < List.length xs)%nat -> (i < 1)%nat ->
    euler_eq 1 m D Tf Tt [] h (INR k * h) (nth k xs vzero) (nth (before (List.length xs) k) xs vzero) i = 0.
  Lemma one_still : forall xs dxs xs', stp xs = Some (dxs, xs') -> (0 < List.length xs)%nat -> one_solved xs ->
    List.length dxs = List.length xs /\ forall k, (k < List.length xs)%nat -> nth k dxs vzero 0%nat = 0.
  Proof.
    intros xs dxs xs' H L E. destruct (C46_residual 1 _ _ _ solves1 msolves1 inverts1 m D Tf Tt [] h _ _ _ _ H L) as (LD & F). split; [exact LD|].
    assert (Q : forall k, (k < List.length xs)%nat -> nth k dxs vzero 0%nat = c * nth (before (List.length xs) k) dxs vzero 0%nat).
    { intros k K. specialize (F k 0%nat K ltac:(lia)). cbv zeta in F. rewrite (E k 0%nat K) in F by lia. repeat change (J_and_T [] _) with (mzero, vzero) in F. cbn [fst] in F.
      unfold row, mzero in F. cbn [rsum] in F. pose proof one_q as Q0. apply (Rmult_eq_reg_l q); [|lra]. unfold c. 
      set (u := nth k dxs vzero 0%nat) in *. set (w := nth (before (List.length xs) k) dxs vzero 0%nat) in *.
      replace (q * (d / q * w)) with (d * w) by (field; lra). unfold q. unfold d, Rdiv in *. lra. }
    assert (P : forall k, (k < List.length xs)%nat -> nth k dxs vzero 0%nat = c ^ S k * nth (List.length xs - 1) dxs vzero 0%nat).
    { induction k as [|k IH]; intros K; [rewrite Q by exact K; cbn [before]; simpl; ring|]. rewrite Q by exact K. cbn [before]. rewrite IH by lia. simpl. ring. }
    assert (Z : nth (List.length xs - 1) dxs vzero 0%nat = 0).
    { pose proof (P (List.length xs - 1)%nat ltac:(lia)) as Y. pose proof (one_pow (List.length xs - 1)) as X. set (u := nth (List.length xs - 1) dxs vzero 0%nat) in *. nra. }
    intros k K. rewrite P by exact K. rewrite Z. ring.
  Qed.
  Lemma norm_zero : forall l, (forall k, (k < List.length l)%nat -> nth k l vzero 0%nat = 0) -> norm_all 1 l = 0.
  Proof.
    intros l. unfold norm_all. induction l as [|v l IH]; intros H; [reflexivity|]. cbn [fold_left].
    assert (V : v 0%nat = 0) by (apply (H 0%nat); simpl; lia). cbn [vmax] in *. rewrite V, Rabs_R0. replace (Rmax 0 0) with 0 by (rewrite Rmax_left; lra).
    replace (if Rlt_b 0 0 then 0 else 0) with 0 by (destruct (Rlt_b 0 0); reflexivity). apply IH. intros k K. apply (H (S k)). simpl. lia.
  Qed.
  Lemma one_settles : forall er ea, 0 <= er -> 0 < ea -> forall left conv xs, (0 < List.length xs)%nat -> one_solved xs -> (conv <= 3)%nat -> (3 - conv <= left)%nat ->
    exists r, shoot_loop 1 PropsPss.solve1 msolve1 inv1 m D Tf Tt [] h (fun dx => get_td o 1 dx [] None) (small_test 1 er ea) left conv xs = SDone (Some r).
  Proof.
    intros er ea Her Hea. induction left as [|left IH]; intros conv xs L E Hc Hl; cbn [shoot_loop];
      destruct (one_step xs L) as (dxs & xs' & H); rewrite H;
      destruct (one_still _ _ _ H L E) as (LD & Z);
      assert (Sm : small_test 1 er ea dxs xs' = true)
        by (unfold small_test; rewrite norm_zero by (intros k K; apply Z; lia); unfold Rlt_b; destruct Rlt_dec as [|F]; [reflexivity|];
            exfalso; apply F; pose proof (Rmult_le_pos er (norm_all 1 xs') Her (norm_all_nonneg 1 xs')); lra);
      rewrite Sm; cbn [andb]; destruct (conv =? 3)%nat eqn:C3; try (eexists; reflexivity).
    - apply Nat.eqb_neq in C3. lia.
    - apply Nat.eqb_neq in C3. destruct (C46_linear 1 _ _ _ solves1 msolves1 inverts1 m D Tf Tt h o xs dxs xs' L H) as (L' & E').
      apply IH; [lia| |lia|lia]. unfold one_solved. rewrite L'. exact E'.
  Qed.
  Lemma one_converges : forall er ea xs left, 0 <= er -> 0 < ea -> (0 < List.length xs)%nat -> (4 <= left)%nat ->
    exists r, shoot_loop 1 PropsPss.solve1 msolve1 inv1 m D Tf Tt [] h (fun dx => get_td o 1 dx [] None) (small_test 1 er ea) left 0 xs = SDone (Some r).
  Proof.
    intros er ea xs left Her Hea L HL. destruct left as [|left]; [lia|]. cbn [shoot_loop]. destruct (one_step xs L) as (dxs & xs' & H). rewrite H.
    change (0 =? 3)%nat with false. rewrite andb_false_r. destruct (C46_linear 1 _ _ _ solves1 msolves1 inverts1 m D Tf Tt h o xs dxs xs' L H) as (L' & E').
    apply one_settles; auto; [lia|unfold one_solved; rewrite L'; exact E'|destruct small_test; lia|destruct small_test; lia].
  Qed.
End OneUnknown.

(** ** A sinusoidal current of period 1 into a resistor and a capacitor, three points *)
Definition swing : list str := [lit "swing"; lit "I1 0 a type=sin 0.5 0.5 1 -0.25 0"; lit "R1 a 0 1"; lit "C1 a 0 1"; lit ".pss 1 points=3"].
Definition swing_f : tfun := (lit "sin", [(lit "vo", VNum (5, -1)%Z); (lit "va", VNum (5, -1)%Z); (lit "freq", VNum (1, 0)%Z); (lit "td", VNum (-25, -2)%Z); (lit "theta", VNum (0, 0)%Z)]).
Definition swing_parts : list pelem :=
  [PI (lit "i1") (lit "0") (lit "a") None None (Some swing_f); PR (lit "r1") (lit "a") (lit "0") (1, 0)%Z; PC (lit "c1") (lit "a") (lit "0") (1, 0)%Z None].
Definition swing_t : ntab := mkNtab [(KInt 0, KStr "0"); (KStr "0", KInt 0); (KInt 1, KStr "a"); (KStr "a", KInt 1)] 0.
Definition swing_es : list lelem := [EI "i1" 0 1 0 true; ER "r1" 1 0 (dR (1, 0)%Z); EC "c1" 1 0 (dR (1, 0)%Z)].
Lemma swing_load : load (fun _ => Some swing) (fun _ => Err NetlistParseError) 1 (lit "f") = Ok (swing_parts, swing_t, swing_es).
Proof.
  unfold load.
  match goal with |- context [read_netlist ?a ?b ?c] => let r := eval vm_compute in (read_netlist a b c) in change (read_netlist a b c) with r end. cbn [bindr r_models r_lines map parse_models fst snd].
  match goal with |- context [main_netlist_parser ?a ?b ?c ?d] => let r := eval vm_compute in (main_netlist_parser a b c d) in change (main_netlist_parser a b c d) with r end. cbn [bindr].
  cbv -[dR]. reflexivity.
Qed.
Lemma swing_mats : exists m N D, generate_mna_and_N 2 swing_es = Ok (m, N) /\ generate_D 0 2 swing_es = Ok D /\ m 1%nat 1%nat = 1 /\ D 1%nat 1%nat = 1.
Proof.
  do 3 eexists. split; [reflexivity|]. split; [reflexivity|]. split.
  - cbn [fst]. simpl. unfold madd, mset, mzero. simpl. rewrite dR_0. field.
  - unfold add_cmin. destruct (Rlt_dec 0 0); [lra|]. simpl. unfold madd, mset, mzero. simpl. rewrite dR_0. ring.
Qed.
Lemma swing_wave : forall t, 0 <= t -> wave_of swing_parts (lit "i1") t = (1 + cos (2 * Rtrigo1.PI * t)) / 2.
Proof.
  intros t T. change (wave_of swing_parts (lit "i1") t) with (sin_call (dR (5, -1)%Z) (dR (5, -1)%Z) (dR (1, 0)%Z) (dR (-25, -2)%Z) (dR (0, 0)%Z) 0 t).
  assert (E5 : dR (5, -1)%Z = 1 / 2) by (unfold dR; simpl; lra). assert (E1 : dR (1, 0)%Z = 1) by (unfold dR; simpl; lra).
  assert (E25 : dR (-25, -2)%Z = - (1 / 4)) by (unfold dR; simpl; lra). assert (E0 : dR (0, 0)%Z = 0) by (unfold dR; simpl; lra). rewrite E5, E1, E25, E0.
  unfold sin_call, Rlt_b. destruct (Rlt_dec t (- (1 / 4))); [lra|]. rewrite Rmult_0_r, exp_0.
  replace (2 * Rtrigo1.PI * 1 * (t - - (1 / 4)) + Rtrigo1.PI * 0 / 180) with (Rtrigo1.PI / 2 + 2 * Rtrigo1.PI * t) by field. rewrite <- cos_sin. lra.
Qed.

(** The solvers of one unknown, at size one. *)
Definition only1 {A B C} (f : A -> B -> option C) (n : nat) : A -> B -> option C := if (n =? 1)%nat then f else fun _ _ => None.
Definition only1' {A C} (f : A -> option C) (n : nat) : A -> option C := if (n =? 1)%nat then f else fun _ => None.
Lemma only1_solves : forall n, solves n (only1 PropsPss.solve1 n).
Proof. intros n. unfold only1. destruct (Nat.eqb_spec n 1) as [->|]; [exact solves1|intros A b x H; discriminate H]. Qed.
Lemma only1_msolves : forall n, msolves n (only1 msolve1 n).
Proof. intros n. unfold only1. destruct (Nat.eqb_spec n 1) as [->|]; [exact msolves1|intros A b x H; discriminate H]. Qed.
Lemma only1_inverts : forall n, inverts n (only1' inv1 n).
Proof. intros n. unfold only1'. destruct (Nat.eqb_spec n 1) as [->|]; [exact inverts1|intros A x H; discriminate H]. Qed.

Lemma swing_run : forall square current conductance locked tol JT check inv modules has_module bf_default limit bf_iter sh_default sh_iter gmin at_time x0,
  0 < gmin -> 0 <= Rmin (Newton.t_ver tol) (Newton.t_ier tol) -> 0 < Rmin (Newton.t_vea tol) (Newton.t_iea tol) -> (4 <= sh_iter)%nat ->
  exists rows, pss_analysis (only1 PropsPss.solve1) (only1 msolve1) (only1' inv1) square current conductance locked (mkTd false true 0) tol 0 at_time bf_default limit bf_iter JT check
    PropsDc.default_opts 20 30 tran_opts gmin inv modules has_module 30 sh_default sh_iter "shooting" swing_t swing_parts swing_es 1 None (Some 3%nat) x0 = Ok (Some rows).
Proof.
  intros square current conductance locked tol JT check inv modules has_module bf_default limit bf_iter sh_default sh_iter gmin at_time x0 GM ER EA SI.
  assert (SO : Forall (ac_sound swing_parts) swing_parts) by (repeat constructor).
  assert (DS : Forall dissipative swing_parts) by (repeat constructor; cbn [dissipative]; unfold dR; simpl; lra).
  assert (NL : no_source_loop swing_parts).
  { intros I _ id a b dc ac f IN. cbn in IN. destruct IN as [IN|[IN|[IN|[]]]]; discriminate IN. }
  assert (SZ : op_size swing_t swing_es = 1%nat) by reflexivity.
  destruct (C196_found _ _ _ _ _ _ _ swing_load ltac:(discriminate) SO DS NL (only1 PropsPss.solve1) JT check locked PropsDc.default_opts (mkTd false true 0) 20 29 tran_opts 0 gmin
    at_time inv modules has_module 0 (1 / 2) 15 None 29) as (tr & RUN & TIM & _); try reflexivity; try (rewrite SZ; first [exact solve1_ok|exact solve1_none]); try lia; try lra.
  { simpl. lra. }
  destruct swing_mats as (m & N & D & GE & GD & M1 & D1).
  assert (HS : (1 / (INR 3 - 1)) = 1 / 2) by (simpl; lra).
  assert (LT : List.length tr = 30%nat) by (rewrite <- (map_length fst), TIM, map_length, seq_length; reflexivity).
  assert (LS : List.length (last_samples 3 vzero tr) = 3%nat) by (unfold last_samples; rewrite skipn_length; cbn [List.length]; rewrite map_length, LT; reflexivity).
  destruct (one_converges (reduce_mat m) (reduce_mat D) (reduce_vec N) (pss_term at_time swing_t swing_es) (1 / 2) (mkTd false true 0) ltac:(lra)) with
    (er := Rmin (Newton.t_ver tol) (Newton.t_ier tol)) (ea := Rmin (Newton.t_vea tol) (Newton.t_iea tol)) (xs := last_samples 3 vzero tr) (left := sh_iter) as (r & R); try assumption.
  { unfold reduce_mat. rewrite M1. lra. }
  { unfold reduce_mat. rewrite D1. lra. }
  { lia. }
  exists (pss_rows 3 (1 / 2) (fun k => nth k r vzero)).
  unfold pss_analysis. change (String.eqb (lower "shooting") "shooting") with true. cbv iota. unfold shooting_run. change (get_nodes_number swing_t) with 2%nat. rewrite GE, GD. cbn [bindr fst snd].
  unfold check_step_and_points. cbn [Nat.eqb]. rewrite HS. cbn [bindr].
  change (pss_ports square current conductance swing_t swing_parts) with (@Ok (list nlport) []). cbn [bindr].
  replace (INR (10 * 3) * (1 / 2)) with 15 by (simpl; lra). rewrite RUN. cbn [bindr]. rewrite LS. change (negb (3 =? 3)%nat) with false. cbv iota. rewrite SZ.
  change (ports locked swing_es) with (@nil (nat * nat)%type).
  match goal with |- context [shoot_loop ?a ?b ?c ?d ?e ?f ?g ?h ?i ?j ?k ?l ?m ?n ?o] => replace (shoot_loop a b c d e f g h i j k l m n o) with (SDone (Some r)) by (symmetry; exact R) end.
  reflexivity.
Qed.

Lemma swing_point : forall at_time past p, 0 <= p_t p ->
  (forall t, 0 <= t -> at_time (lit "i1") t = (1 + cos (2 * Rtrigo1.PI * t)) / 2) ->
  marches (fun time => driven (fun id => at_time id time) written_dc) 0 (Rmax 0 0) swing_parts DImplicitEuler (p :: past) ->
  match past with q :: _ => p_V p (lit "a") + (p_V p (lit "a") - p_V q (lit "a")) / (p_t p - p_t q) = (1 + cos (2 * Rtrigo1.PI * p_t p)) / 2 | [] => True end.
Proof.
  intros at_time past p T W MAR. destruct past as [|q past]; [exact Logic.I|].
  assert (NA : In (lit "a") (node_list swing_parts)) by (right; left; reflexivity). assert (AZ : lit "a" <> lit "0") by discriminate.
  cbn [marches] in MAR. destruct MAR as ((_ & (G0 & D0 & KCL & _) & SL & _) & _).
  specialize (SL _ NA AZ). cbn [slope_rule] in SL. specialize (KCL _ NA AZ).
  unfold swing_parts in KCL. cbn [tr_leaving] in KCL. unfold tr_leaving1 in KCL. cbn [first_end second_end tr_through through] in KCL.
  change (streqb (lit "a") (lit "a")) with true in KCL. change (streqb (lit "a") (lit "0")) with false in KCL. change (streqb (lit "0") (lit "a")) with false in KCL. cbv iota in KCL.
  change (driven (fun id => at_time id (p_t p)) written_dc (PI (lit "i1") (lit "0") (lit "a") None None (Some swing_f))) with (at_time (lit "i1") (p_t p)) in KCL.
  rewrite (W _ T), G0, D0, (Rmax_left 0 0), SL in KCL by lra.
  assert (E1 : dR (1, 0)%Z = 1) by (unfold dR; simpl; lra). rewrite E1 in KCL. replace ((p_V p (lit "a") - 0) / 1) with (p_V p (lit "a")) in KCL by field. lra.
Qed.

(** The current is periodic.  The analysis succeeds, and the voltage reported for the end of
    the period is not the one reported for its start. *)
Theorem C203_refuted : load (fun _ => Some swing) (fun _ => Err NetlistParseError) 1 (lit "f") = Ok (swing_parts, swing_t, swing_es) /\
  Forall (ac_sound swing_parts) swing_parts /\
  (forall t, 0 <= t -> wave_of swing_parts (lit "i1") (t + 1) = wave_of swing_parts (lit "i1") t) /\
  forall square current conductance locked tol JT check inv modules has_module bf_default limit bf_iter sh_default sh_iter gmin x0,
  0 < gmin -> 0 <= Rmin (Newton.t_ver tol) (Newton.t_ier tol) -> 0 < Rmin (Newton.t_vea tol) (Newton.t_iea tol) -> (4 <= sh_iter)%nat ->
  exists rows, pss_analysis (only1 PropsPss.solve1) (only1 msolve1) (only1' inv1) square current conductance locked (mkTd false true 0) tol 0 (wave_of swing_parts) bf_default limit bf_iter JT check
      PropsDc.default_opts 20 30 tran_opts gmin inv modules has_module 30 sh_default sh_iter "shooting" swing_t swing_parts swing_es 1 None (Some 3%nat) x0 = Ok (Some rows) /\
    pss_report swing_t swing_es rows (lit "T") = Ok [0; 1 / 2; 1] /\ pss_report swing_t swing_es rows (lit "VA") = Ok [15 / 19; 10 / 19; 13 / 19].
Proof.
  assert (SO : Forall (ac_sound swing_parts) swing_parts) by (repeat constructor).
  split; [exact swing_load|]. split; [exact SO|]. split.
  { intros t T. rewrite !swing_wave by lra. replace (2 * Rtrigo1.PI * (t + 1)) with (2 * Rtrigo1.PI * t + 2 * INR 1 * Rtrigo1.PI) by (simpl; ring). rewrite cos_period. reflexivity. }
  intros square current conductance locked tol JT check inv modules has_module bf_default limit bf_iter sh_default sh_iter gmin x0 GM ER EA SI.
  destruct (swing_run square current conductance locked tol JT check inv modules has_module bf_default limit bf_iter sh_default sh_iter gmin (wave_of swing_parts) x0 GM ER EA SI) as (rows & RUN).
  exists rows. split; [exact RUN|].
  assert (STP : forall st, @None R = Some st -> 0 < st <= 1) by discriminate.
  destruct (C203_shooting _ _ _ _ _ _ _ swing_load ltac:(discriminate) SO _ _ _ _ _ _ _ _ _ _ _ _ _ _ _ _ _ _ _ _ _ _ _ _ _ _ _ _ _ _ _ _ _ only1_solves only1_msolves only1_inverts
    Rlt_0_1 STP (eq_refl : lower "shooting" = "shooting"%string) RUN) as (h & p0 & rest & pb & CS & (_ & _ & TM & _) & (RT & RV & _) & MAR & TB & VB & _).
  unfold check_step_and_points in CS. cbn [Nat.eqb] in CS. assert (LR : Ok (3%nat, 1 / (INR 3 - 1)) = Ok (S (List.length rest), h)) by exact CS. clear CS.
  assert (L2 : List.length rest = 2%nat) by congruence. assert (HH : h = 1 / (INR 3 - 1)) by congruence. assert (H2 : h = 1 / 2) by (rewrite HH; simpl; lra). clear LR HH.
  destruct rest as [|p1 [|p2 [|]]]; try discriminate L2. clear L2.
  cbn [List.length seq map] in TM. injection TM as T0 T1 T2. rewrite H2 in *. clear H2 h.
  assert (NA : In (lit "a") (node_list swing_parts)) by (right; left; reflexivity). assert (AZ : lit "a" <> lit "0") by discriminate.
  specialize (VB _ NA AZ). cbn [last] in VB.
  assert (E0 : p_t p0 = 0) by (rewrite T0; simpl; lra). assert (E1 : p_t p1 = 1 / 2) by (rewrite T1; simpl; lra). assert (E2 : p_t p2 = 1) by (rewrite T2; simpl; lra).
  rewrite (RT (lit "T") eq_refl), (RV (lit "a") (lit "VA") NA AZ eq_refl). cbn [map]. rewrite E0, E1, E2. split; [reflexivity|].
  cbn [rev app] in MAR. assert (P0 : 0 <= p_t p0) by lra. assert (P1 : 0 <= p_t p1) by lra. assert (P2 : 0 <= p_t p2) by lra.
  pose proof (swing_point _ _ p2 P2 swing_wave MAR) as K2. destruct MAR as (_ & MAR1). cbv beta iota in K2.
  pose proof (swing_point _ _ p1 P1 swing_wave MAR1) as K1. destruct MAR1 as (_ & MAR0). cbv beta iota in K1.
  pose proof (swing_point _ _ p0 P0 swing_wave MAR0) as K0. cbv beta iota in K0.
  rewrite E2, E1 in K2. rewrite E1, E0 in K1. rewrite E0, TB, VB in K0.
  replace (2 * Rtrigo1.PI * 1) with (2 * Rtrigo1.PI) in K2 by ring. replace (2 * Rtrigo1.PI * (1 / 2)) with Rtrigo1.PI in K1 by field. rewrite Rmult_0_r in K0.
  rewrite cos_2PI in K2. rewrite cos_PI in K1. rewrite cos_0 in K0.
  replace (1 - 1 / 2) with (1 / 2) in K2 by lra. replace (1 / 2 - 0) with (1 / 2) in K1 by lra. replace (0 - - (1 / 2)) with (1 / 2) in K0 by lra.
  f_equal. f_equal; [lra|]. f_equal; [lra|]. f_equal. lra.
Qed.
Print Assumptions C203_refuted.

(** ** C202: 7 A out of a resistor and a capacitor in parallel, two points *)
Definition solve2 (A : mat) (b : vec) : option vec :=
  let det := A 0%nat 0%nat * A 1%nat 1%nat - A 0%nat 1%nat * A 1%nat 0%nat in
  if Req_EM_T det 0 then None
  else Some (fun i => match i with O => (b 0%nat * A 1%nat 1%nat - A 0%nat 1%nat * b 1%nat) / det | _ => (A 0%nat 0%nat * b 1%nat - A 1%nat 0%nat * b 0%nat) / det end).
Definition only2 (n : nat) : mat -> vec -> option vec := if (n =? 2)%nat then solve2 else fun _ _ => None.
Lemma only2_solves : forall n, solves n (only2 n).
Proof.
  intros n. unfold only2. destruct (Nat.eqb_spec n 2) as [->|]; [|intros A b x H; discriminate H].
  intros A b x H. unfold solve2 in H. destruct (Req_EM_T _ 0) as [|NZ]; [discriminate H|]. injection H as <-. unfold row. cbn [rsum].
  split.
  - intros [|[|i]] Hi; [field; exact NZ|field; exact NZ|lia].
  - intros y Y. assert (Y0 := Y 0%nat ltac:(lia)). assert (Y1 := Y 1%nat ltac:(lia)). clear Y.
    intros [|[|i]] Hi; [| |lia]; rewrite <- Y0, <- Y1; field; exact NZ.
Qed.
Lemma tank_bf : forall (m D : mat) Tf Tt o, m 0%nat 0%nat = 1 -> D 0%nat 0%nat = 1 -> Tf 0%nat = 7 -> (forall t, Tt t 0%nat = 0) ->
  forall x, exists dx x', bf_step 1 2 m D 1 Tf Tt [] (only2 (2 * 1)) (fun dx => get_td o 1 dx [] None) x = Some (dx, x') /\
    x' 0%nat = - 7 /\ x' 1%nat = - 7 /\ x' 0%nat = x 0%nat + dx 0%nat /\ x' 1%nat = x 1%nat + dx 1%nat.
Proof.
  intros m D Tf Tt o M1 D1 T7 TT x.
  destruct (bf_step 1 2 m D 1 Tf Tt [] (only2 (2 * 1)) (fun dx => get_td o 1 dx [] None) x) as [[dx x']|] eqn:E.
  - exists dx, x'. split; [reflexivity|].
    destruct (bf_step_periodic 1 2 m D 1 Tf Tt (only2 (2 * 1)) o ltac:(lia) ltac:(lia) (only2_solves _) _ _ _ E) as ((P0 & P1) & X).
    specialize (P0 0%nat ltac:(lia)). specialize (P1 1%nat 0%nat ltac:(lia) ltac:(lia)). unfold euler_eq in P1. change (J_and_T [] (Pss.sample 1 x' 1)) with (mzero, vzero) in P1.
    unfold row, vzero in P1. cbn [rsum snd] in P1. rewrite TT, T7, M1, D1 in P1. unfold Pss.sample in P0, P1. simpl in P0, P1.
    rewrite <- P0 in *. rewrite !X in *. split; [lra|]. split; [lra|]. split; lra.
  - exfalso. unfold bf_step in E. change (only2 (2 * 1)) with solve2 in E. unfold solve2 in E. 
    match type of E with match (if Req_EM_T ?d 0 then _ else _) with _ => _ end = _ => assert (DT : d <> 0) end.
    { unfold mplus, big_J. simpl. unfold CMAT. simpl. unfold put, Pss.block, set_sub. simpl. unfold mneg, mplus, mscale, eye, C0, C1. simpl. rewrite M1, D1. unfold mzero, dlt. simpl. lra. }
    destruct (Req_EM_T _ 0); [contradiction|discriminate E].
Qed.
Example C202_example : forall msolve minv square current conductance locked tdo tol at_time bf_default bf_iter JT check o maxit fuel' top gmin inv modules has_module rounds sh_default sh_iter,
  0 <= Newton.t_ver tol -> 0 < Newton.t_vea tol ->
  load (fun _ => Some tank) (fun _ => Err NetlistParseError) 1 (lit "f") = Ok (tank_parts, shunt_t, tank_es) /\
  exists rows, pss_analysis only2 msolve minv square current conductance locked tdo tol 0 at_time bf_default 1 (S bf_iter) JT check o maxit fuel' top gmin inv modules has_module rounds
      sh_default sh_iter "Brute-Force" shunt_t tank_parts tank_es 1 (Some 1) None None = Ok (Some rows) /\
    pss_report shunt_t tank_es rows (lit "T") = Ok [0; 1] /\ pss_report shunt_t tank_es rows (lit "VA") = Ok [- 7; - 7].
Proof.
  intros msolve minv square current conductance locked tdo tol at_time bf_default bf_iter JT check o maxit fuel' top gmin inv modules has_module rounds sh_default sh_iter ER EA.
  split; [exact tank_load|].
  assert (SO : Forall (ac_sound tank_parts) tank_parts) by (repeat constructor).
  assert (CS : check_step_and_points (Some 1) None 1 bf_default = Ok (2%nat, 1)).
  { destruct (C16_step_given 1 1 ltac:(lra) ltac:(lra)) as (n & st & E & N & S & Q & Q1 & _).
    assert (N2 : n = 2%nat).
    { destruct (Nat.eq_dec n 2) as [|NE]; [assumption|exfalso]. assert (T3 : INR 3 <= INR n) by (apply le_INR; lia). change (INR 3) with (1 + 1 + 1) in T3. nra. }
    subst n. change (INR 2) with (1 + 1) in Q. assert (S1 : st = 1) by lra. rewrite S1 in E. exact E. }
  assert (RUN : exists rows, pss_analysis only2 msolve minv square current conductance locked tdo tol 0 at_time bf_default 1 (S bf_iter) JT check o maxit fuel' top gmin inv modules has_module rounds
      sh_default sh_iter "Brute-Force" shunt_t tank_parts tank_es 1 (Some 1) None None = Ok (Some rows)).
  { unfold pss_analysis. change (String.eqb (lower "Brute-Force") "shooting") with false. change (String.eqb (lower "Brute-Force") "brute-force") with true. cbv iota.
    unfold bfpss_run. rewrite CS.
    assert (MN : exists m N D, generate_mna_and_N (get_nodes_number shunt_t) tank_es = Ok (m, N) /\ generate_D 0 (get_nodes_number shunt_t) tank_es = Ok D /\ m 1%nat 1%nat = 1 /\ D 1%nat 1%nat = 1 /\ N 1%nat = 7).
    { do 3 eexists. split; [reflexivity|]. split; [reflexivity|]. split; [|split].
      - cbn [fst]. simpl. unfold madd, mset, mzero. simpl. rewrite dR_0. field.
      - unfold add_cmin. destruct (Rlt_dec 0 0); [lra|]. simpl. unfold madd, mset, mzero. simpl. rewrite dR_0. ring.
      - simpl. unfold vadd, vset, vzero. simpl. unfold dR. simpl. lra. }
    destruct MN as (m & N & D & GE & GD & M1 & D1 & N1). rewrite GE, GD. cbn [bindr fst snd].
    change (pss_ports square current conductance shunt_t tank_parts) with (@Ok (list nlport) []). cbn [bindr]. change (op_size shunt_t tank_es) with 1%nat. change (get_nodes_number shunt_t - 1)%nat with 1%nat.
    change (ports locked tank_es) with (@nil (nat * nat)%type).
    set (Tt := pss_term at_time shunt_t tank_es).
    pose proof (tank_bf (reduce_mat m) (reduce_mat D) (reduce_vec N) Tt tdo M1 D1 N1 (fun t => eq_refl)) as STEP.
    unfold bf_solve. change (1 <? 1 * 2)%nat with true. cbv iota. cbn [bf_loop].
    destruct (STEP (bf_start 1 None)) as (dx & x1 & E1 & A1 & B1 & _). rewrite E1. destruct (bf_check tol 1 2 1 dx x1); [eexists; reflexivity|].
    destruct (STEP x1) as (dy & x2 & E2 & A2 & B2 & S2 & T2).
    assert (CK : bf_check tol 1 2 1 dy x2 = true).
    { unfold bf_check. change (indices 1 2 1 (1 - 1)) with (@nil nat). change (indices 1 2 0 1) with [0%nat; 1%nat]. cbn [List.length Nat.eqb orb]. rewrite andb_true_r. cbn [vmax_of].
      replace (dy 0%nat) with 0 by lra. replace (dy 1%nat) with 0 by lra. rewrite A2, B2, Rabs_R0. replace (Rabs (- 7)) with 7 by (rewrite Rabs_left; lra).
      rewrite !(Rmax_left 7 0), !(Rmax_left 0 0), !(Rmax_left 7 7) by lra. unfold Rlt_b. destruct (Rlt_dec _ _); [reflexivity|]. nra. }
    destruct bf_iter; cbn [bf_loop]; rewrite E2, CK; eexists; reflexivity. }
  destruct RUN as (rows & RUN). exists rows. split; [exact RUN|].
  destruct (C202_brute_force _ _ _ _ _ _ _ tank_load ltac:(discriminate) SO _ _ _ _ _ _ _ _ _ _ _ _ _ _ _ _ _ _ _ _ _ _ _ _ _ _ _ _ _ _ _ _ _ only2_solves
    Rlt_0_1 (fun st (E : Some 1 = Some st) => match E in _ = s return match s with Some y => 0 < y <= 1 | None => True end with eq_refl => conj Rlt_0_1 (Rle_refl 1) end)
    (eq_refl : lower "Brute-Force" = "brute-force"%string) RUN) as (h & p0 & rest & CS' & (_ & _ & TM & _) & (RT & RV & _) & MAR & PV & _).
  rewrite CS in CS'. assert (L2 : List.length rest = 1%nat) by congruence. assert (H1 : h = 1) by congruence.
  destruct rest as [|p1 [|]]; try discriminate L2. clear L2 CS'. cbn [List.length seq map] in TM. injection TM as T0 T1. rewrite H1 in *. clear H1 h.
  assert (E0 : p_t p0 = 0) by (rewrite T0; simpl; lra). assert (E1 : p_t p1 = 1) by (rewrite T1; simpl; lra).
  assert (NA : In (lit "a") (node_list tank_parts)) by (left; reflexivity). assert (AZ : lit "a" <> lit "0") by discriminate.
  specialize (PV _ NA AZ). cbn [last] in PV.
  rewrite (RT (lit "T") eq_refl), (RV (lit "a") (lit "VA") NA AZ eq_refl). cbn [map]. rewrite E0, E1, PV. split; [reflexivity|].
  cbn [rev app marches] in MAR. destruct MAR as ((_ & (G0 & D0 & KCL & _) & SL & _) & _).
  specialize (SL _ NA AZ). cbn [slope_rule] in SL. specialize (KCL _ NA AZ).
  unfold tank_parts in KCL. cbn [tr_leaving] in KCL. unfold tr_leaving1 in KCL. cbn [first_end second_end tr_through through] in KCL.
  change (streqb (lit "a") (lit "a")) with true in KCL. change (streqb (lit "a") (lit "0")) with false in KCL. cbv iota in KCL.
  match type of KCL with context [driven ?f ?g ?e] => change (driven f g e) with (dR (7, 0)%Z) in KCL end.
  rewrite G0, D0, (Rmax_left 0 0), SL, PV, E1, E0 in KCL by lra. assert (F1 : dR (1, 0)%Z = 1) by (unfold dR; simpl; lra). assert (F7 : dR (7, 0)%Z = 7) by (unfold dR; simpl; lra). rewrite F1, F7 in KCL.
  assert (V7 : p_V p0 (lit "a") = - 7) by lra. rewrite V7. reflexivity.
Qed.
