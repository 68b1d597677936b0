(** From the text of a netlist with diodes and transistors to the results of a periodic
    steady state analysis (C205). *)
From Coq Require Import Ascii String Reals List Bool Arith ZArith Lia Lra Psatz.
From Verif Require Import Base BaseFacts Str Units Directive Lines Reader Netlist ModelLines Nodes NodesFacts Circuit CircuitFacts Rsum Mna MnaSpec MnaFacts DcSolve DcSolveFacts
  Newton NewtonFacts DynFacts Lagrange Df PropsDf Tran TranFacts PropsTran Csv PropsCsv Results PropsReader PropsNetlist PropsResults PropsDc Sweep PropsSweep PropsMna PropsAc Session Simulate
  PropsSimulate SimulateAc PropsSimulateAc SimulateDc PropsSimulateDc PropsSimulateOp SimulateTran PropsSimulateTran SimulateNl PropsSimulateNl SimulateAcNl PropsSimulateAcNl
  Pss PropsPss SimulatePss PropsSimulatePss.
Import ListNotations.
Open Scope R_scope.

(** * The laws with the devices replaced by their tangents *)
Section Tangents.
  Variables (square : pelem -> bool) (current : pelem -> list R -> R) (conductance : pelem -> list R -> nat -> R).
  (** The current at [V0], plus the conductances there times the changes of the controlling
      voltages. *)
  Definition tangent (V0 V : str -> R) (e : pelem) : R :=
    dev_current square current V0 e + port_current (conductance e (bias_of square V0 e)) (controls square e) 0 (fun n => V n - V0 n).
  Definition tan_leaving1 (V0 V : str -> R) (n : str) (e : pelem) : R :=
    match channel e with
    | Some (a, b) => (if streqb n a then tangent V0 V e else 0) - (if streqb n b then tangent V0 V e else 0)
    | None => 0
    end.
  Fixpoint tan_leaving (V0 V : str -> R) (n : str) (l : list pelem) : R :=
    match l with [] => 0 | e :: l' => tan_leaving1 V0 V n e + tan_leaving V0 V n l' end.
  Definition tan_laws (src : pelem -> R) (c : R) (parts : list pelem) (V0 V I dV dI : str -> R) : Prop :=
    V (lit "0") = 0 /\ dV (lit "0") = 0 /\
    (forall n, In n (node_list parts) -> n <> lit "0" -> tr_leaving src V I dV n parts + tan_leaving V0 V n parts + c * dV n = 0) /\
    (forall e, In e parts -> has_current e = true -> tr_gap src parts V I dI e = 0).
End Tangents.

(** The samples [V], [I] on the way, by the parts [k], from [V0], [I0] to [V1], [I1]. *)
Definition reports (report : str -> res (list R)) (parts : list pelem) (pts : nat) (h : R) (V I : nat -> str -> R) : Prop :=
  (forall name, slower name = lit "t" -> report name = Ok (map (fun k => INR k * h) (seq 0 pts))) /\
  (forall n name, In n (node_list parts) -> n <> lit "0" -> slower name = slower (lit "V" ++ n) -> report name = Ok (map (fun k => V k n) (seq 0 pts))) /\
  (forall id name, In id (current_ids parts) -> slower name = slower (lit "I(" ++ id ++ lit ")") -> report name = Ok (map (fun k => I k id) (seq 0 pts))).

(** * Lemmas *)
Definition chan_leaving1 (f : pelem -> R) (n : str) (e : pelem) : R :=
  match channel e with Some (a, b) => (if streqb n a then f e else 0) - (if streqb n b then f e else 0) | None => 0 end.
Fixpoint chan_leaving (f : pelem -> R) (n : str) (l : list pelem) : R :=
  match l with [] => 0 | e :: l' => chan_leaving1 f n e + chan_leaving f n l' end.

Section Ports.
  Variables (square : pelem -> bool) (current : pelem -> list R -> R) (conductance : pelem -> list R -> nat -> R).
  Variables (t : ntab) (es : list lelem).
  Hypothesis GR : grounded t.
  Let size := op_size t es.
  Let V (x : vec) := volt t (with_ground x).
  Lemma SZ : (get_nodes_number t - 1 <= size)%nat.
  Proof. unfold size, op_size. lia. Qed.

  Lemma ports_row : forall G (f : pelem -> R) parts devs,
    (forall e a b n1 n2 dp, port_numbers t (drive_ports square e) = Ok dp -> out_port e = Some (a, b) -> G (mkPort (n1, n2) dp (current e) (conductance e)) = f e) ->
    pss_ports square current conductance t parts = Ok devs ->
    (forall n i, at_node t n (S i) -> lsum (fun p => (gdlt i (fst (np_out p)) - gdlt i (snd (np_out p))) * G p) devs = chan_leaving f n parts) /\
    (forall i, (forall n k, at_node t n k -> (k < S i)%nat) -> lsum (fun p => (gdlt i (fst (np_out p)) - gdlt i (snd (np_out p))) * G p) devs = 0).
  Proof.
    intros G f parts. induction parts as [|e parts IH]; intros devs HG H; cbn [pss_ports] in H.
    { injection H as <-. split; intros; reflexivity. }
    cbn [chan_leaving]. unfold chan_leaving1. rewrite channel_ok. destruct (out_port e) as [[a b]|] eqn:OP.
    - unfold number in H. destruct (ext_node_to_int t (ss a)) as [n1|] eqn:A; [|discriminate H]. cbn [bindr] in H.
      destruct (ext_node_to_int t (ss b)) as [n2|] eqn:B; [|discriminate H]. cbn [bindr] in H.
      destruct (port_numbers t (drive_ports square e)) as [dp|] eqn:DP; [|discriminate H]. cbn [bindr] in H.
      destruct (pss_ports square current conductance t parts) as [r|] eqn:PR_; [|discriminate H]. cbn [bindr] in H. injection H as <-.
      destruct (IH r HG eq_refl) as (I1 & I2). split.
      + intros n i At. cbn [lsum]. rewrite (I1 n i At). cbn [np_out fst snd]. rewrite (HG e a b n1 n2 dp DP OP).
        assert (EQ : forall c k, ext_node_to_int t (ss c) = Ok k -> gdlt i k = if streqb n c then 1 else 0).
        { intros c k C. destruct (list_eq_dec ascii_dec n c) as [->|N].
          - rewrite streqb_refl. pose proof (at_node_fun _ _ _ _ At C). subst k. unfold gdlt, dlt. cbn [Nat.eqb Nat.sub]. rewrite Nat.sub_0_r, Nat.eqb_refl. reflexivity.
          - rewrite streqb_ne by exact N. destruct k as [|k]; unfold gdlt, dlt; cbn [Nat.eqb]; [reflexivity|]. cbn [Nat.sub]. rewrite Nat.sub_0_r.
            destruct (Nat.eqb_spec i k) as [<-|]; [|reflexivity]. exfalso. apply N. eapply at_node_inj; [apply GR|exact At|exact C]. }
        rewrite (EQ a n1 A), (EQ b n2 B). destruct (streqb n a), (streqb n b); ring.
      + intros i FAR. cbn [lsum]. rewrite (I2 i FAR). cbn [np_out fst snd].
        assert (Z : forall c k, ext_node_to_int t (ss c) = Ok k -> gdlt i k = 0).
        { intros c k C. pose proof (FAR _ _ C) as F. destruct k as [|k]; unfold gdlt, dlt; cbn [Nat.eqb]; [reflexivity|]. cbn [Nat.sub]. rewrite Nat.sub_0_r.
          destruct (Nat.eqb_spec i k); [lia|reflexivity]. }
        rewrite (Z a n1 A), (Z b n2 B). ring.
    - destruct (IH devs HG H) as (I1 & I2). split; [|exact I2]. intros n i At. rewrite (I1 n i At). ring.
  Qed.

  Lemma ports_ok : forall parts devs, pss_ports square current conductance t parts = Ok devs -> Forall (port_ok size) devs.
  Proof.
    induction parts as [|e parts IH]; intros devs H; cbn [pss_ports] in H; [injection H as <-; constructor|].
    destruct (out_port e) as [[a b]|]; [|auto].
    destruct (number t a) as [n1|]; [|discriminate H]. cbn [bindr] in H. destruct (number t b) as [n2|]; [|discriminate H]. cbn [bindr] in H.
    destruct (port_numbers t (drive_ports square e)) as [dp|] eqn:DP; [|discriminate H]. cbn [bindr] in H.
    destruct (pss_ports square current conductance t parts) as [r|] eqn:PR_; [|discriminate H]. cbn [bindr] in H. injection H as <-. constructor; [|auto].
    unfold port_ok. cbn [np_drive]. exact (proj2 (port_numbers_row t GR size SZ vzero (fun _ => 0) _ _ 0%nat DP)).
  Qed.

  (** The sum of the residual of the devices and of the product with their derivatives. *)
  Lemma ports_tangent : forall parts devs x d, pss_ports square current conductance t parts = Ok devs ->
    (forall n i, at_node t n (S i) -> snd (J_and_T devs x) i + row size (fst (J_and_T devs x)) i d = tan_leaving square current conductance (V x) (V (fun j => x j + d j)) n parts) /\
    (forall i, (forall n k, at_node t n k -> (k < S i)%nat) -> snd (J_and_T devs x) i + row size (fst (J_and_T devs x)) i d = 0).
  Proof.
    intros parts devs x d H.
    assert (HG : forall e a b n1 n2 dp, port_numbers t (drive_ports square e) = Ok dp -> out_port e = Some (a, b) ->
      (fun p => np_i p (map (drive_v x) (np_drive p)) + gsum (np_g p (map (drive_v x) (np_drive p))) (np_drive p) 0 d) (mkPort (n1, n2) dp (current e) (conductance e))
      = tangent square current conductance (V x) (V (fun j => x j + d j)) e).
    { intros e a b n1 n2 dp DP OP. cbn [np_i np_g np_drive]. unfold tangent, dev_current, bias_of. rewrite controls_ok.
      pose proof (port_numbers_v t x _ _ DP) as BV. fold (V x) in BV. rewrite <- BV. f_equal.
      rewrite (proj1 (port_numbers_row t GR size SZ d (conductance e (map (drive_v x) dp)) _ _ 0%nat DP)).
      assert (E : forall g l k W W', (forall n, W n = W' n) -> port_current g l k W = port_current g l k W').
      { intros g l. induction l as [|q l IH]; intros k W W' WW; cbn [port_current]; [reflexivity|]. rewrite !WW, (IH _ _ _ WW). reflexivity. }
      apply E. intros n. unfold V, volt. destruct (ext_node_to_int t (ss n)) as [[|i]|]; cbn [with_ground]; ring. }
    destruct (ports_row _ _ parts devs HG H) as (A & B).
    pose proof (ports_ok parts devs H) as OKP.
    assert (SP : forall i, snd (J_and_T devs x) i + row size (fst (J_and_T devs x)) i d =
      lsum (fun p => (gdlt i (fst (np_out p)) - gdlt i (snd (np_out p))) * (np_i p (map (drive_v x) (np_drive p)) + gsum (np_g p (map (drive_v x) (np_drive p))) (np_drive p) 0 d)) devs).
    { intros i. destruct (J_and_T_spec size devs x d i OKP) as (-> & ->). clear. induction devs as [|p devs IH]; cbn [lsum]; [ring|]. lra. }
    split.
    - intros n i At. rewrite SP. rewrite (A n i At). clear. induction parts as [|e parts IH]; cbn [chan_leaving tan_leaving]; [reflexivity|]. rewrite IH. reflexivity.
    - intros i FAR. rewrite SP. apply (B i FAR).
  Qed.
End Ports.

Section Rows.
  Variables (square : pelem -> bool) (current : pelem -> list R -> R) (conductance : pelem -> list R -> nat -> R).
  Variables (t : ntab) (parts : list pelem) (es : list lelem).
  Hypothesis GR : grounded t.
  Hypothesis PL_ : Forall2 (placed written_dc t) parts es.
  Hypothesis LC : Forall lower_case parts.
  Hypothesis SO : Forall (nl_sound parts) parts.
  Hypothesis ND : NoDup (map pid parts).
  Hypothesis REG : forall n, In n (node_list parts) -> exists i, at_node t n i.
  Let nv := get_nodes_number t.
  Let size := op_size t es.
  Variables (cmin : R) (m : mat) (N : vec) (D : mat).
  Hypothesis GE : generate_mna_and_N nv es = Ok (m, N).
  Hypothesis GD : generate_D cmin nv es = Ok D.
  Variable at_time : str -> R -> R.
  Variable devs : list nlport.
  Hypothesis DV : pss_ports square current conductance t parts = Ok devs.
  Let V (x : vec) := volt t (with_ground x).
  Let A (x : vec) := amp nv es (with_ground x).

  Lemma V_step : forall (h : R) x y n, V (fun j => (x j - y j) / h) n = (V x n - V y n) / h.
  Proof. intros h x y n. unfold V, volt. destruct (ext_node_to_int t (ss n)) as [[|i]|]; cbn [with_ground]; unfold Rdiv; ring. Qed.
  Lemma A_step : forall (h : R) x y n, A (fun j => (x j - y j) / h) n = (A x n - A y n) / h.
  Proof. intros h x y n. unfold A, amp. destruct (vde_index es (ss n)) as [k|]; [destruct (nv + k)%nat|]; cbn [with_ground]; unfold Rdiv; ring. Qed.

  Lemma tan_rows : forall time x d y,
    (forall i, (i < size)%nat -> row size (reduce_mat m) i (fun j => x j + d j) + row size (reduce_mat D) i y + reduce_vec N i + pss_term at_time t es time i
       + (snd (J_and_T devs x) i + row size (fst (J_and_T devs x)) i d) = 0) ->
    tan_laws square current conductance (driven (fun id => at_time id time) written_dc) (Rmax 0 cmin) parts (V x) (V (fun j => x j + d j)) (A (fun j => x j + d j)) (V y) (A y).
  Proof.
    intros time x d y H. set (z := fun j => x j + d j) in *.
    pose proof (lin_placed written_dc t parts es PL_) as PLL. pose proof (lin_proper parts LC SO) as LP. pose proof (lin_sound parts SO) as LS. pose proof (lin_nodup parts ND) as LN.
    assert (GE' : generate_mna_and_N (get_nodes_number t) (filter linl es) = Ok (m, N)) by (rewrite lin_system; exact GE).
    assert (GD' : generate_D cmin (get_nodes_number t) (filter linl es) = Ok D) by (rewrite lin_dynamic; exact GD).
    pose proof (grounded_number t GR) as NZ. fold nv in NZ.
    assert (SZ : size = (nv - 1 + n_vde es)%nat) by (unfold size, op_size; fold nv; lia).
    assert (V0 : forall w, V w (lit "0") = 0) by (intros w; unfold V, volt; pose proof (proj2 GR) as GZ; unfold at_node in GZ; rewrite GZ; reflexivity).
    assert (RW : forall i, (i < size)%nat -> tr_row t (filter linl es) 0 m N D (fun id => at_time id time) z y i + (snd (J_and_T devs x) i + row size (fst (J_and_T devs x)) i d) = 0).
    { intros i Hi. specialize (H i Hi). unfold tr_row. rewrite lin_size, lin_time. fold size nv. unfold pss_term in H. fold nv in H. destruct (i <? nv - 1)%nat; lra. }
    assert (AA : forall w id, amp nv (filter linl es) (with_ground w) id = A w id) by (intros w id; unfold A, amp; rewrite lin_index; reflexivity).
    destruct (ports_tangent square current conductance t es GR parts devs x d DV) as (PT & PB). fold size in PT, PB.
    split; [apply V0|]. split; [apply V0|]. split.
    - intros n IN NG. destruct (REG n IN) as ([|i] & At); [exfalso; apply NG; apply (grounded_zero t n GR); exact At|].
      assert (Hi : (S i < nv)%nat) by (apply (grounded_range t (S i) GR); eauto). specialize (RW i ltac:(lia)). rewrite (PT n i At) in RW.
      rewrite (node_row_named t (filter linp parts) (filter linl es) GR PLL LP LS LN cmin 0 m N D GE' GD' (fun id => at_time id time) z y n i At) in RW.
      fold nv in RW. rewrite lin_leaving in RW. fold (V z) (V y) in RW.
      rewrite (tr_leaving_ext _ (V z) _ (A z)) in RW by apply AA. fold (V x) in RW. fold z in RW. fold (V z) in RW. lra.
    - intros e IE HC. apply in_split in IE. destruct IE as (pre & post & E).
      assert (LE : linp e = true) by (destruct e; try discriminate HC; reflexivity).
      assert (E' : filter linp parts = (filter linp pre ++ e :: filter linp post)%list) by (rewrite E, filter_app; cbn [filter]; rewrite LE; reflexivity).
      assert (K : (List.length (filter has_current pre) < List.length (current_ids parts))%nat).
      { rewrite E. unfold current_ids. rewrite filter_app, map_app, app_length, !map_length. cbn [filter]. rewrite HC. cbn [List.length]. lia. }
      assert (NLN : List.length (current_ids parts) = n_vde es) by (pose proof (placed_ids written_dc t parts es PL_) as Q; apply (f_equal (@List.length string)) in Q; rewrite !map_length in Q; symmetry; exact Q).
      specialize (RW (nv - 1 + List.length (filter has_current pre))%nat ltac:(lia)). rewrite PB in RW.
      2:{ intros n k At. assert ((k < nv)%nat) by (apply (grounded_range t k GR); eauto). lia. }
      pose proof (branch_row_named t (filter linp parts) (filter linl es) GR PLL LP LS LN cmin 0 m N D GE' GD' (fun id => at_time id time) z y _ e _ E' HC) as B1.
      rewrite lin_currents in B1. fold nv in B1. rewrite B1 in RW. rewrite lin_gap in RW. fold (V z) in RW.
      rewrite (tr_gap_ext _ parts (V z) _ (A z) _ (A y)) in RW by apply AA. lra.
  Qed.
End Rows.

Lemma tr_gap_ext_d : forall src parts V J dJ dJ' e, (forall x, dJ x = dJ' x) -> tr_gap src parts V J dJ e = tr_gap src parts V J dJ' e.
Proof. intros. apply tr_gap_ext; auto. Qed.
Lemma tr_leaving_ext_d : forall src V J dV dV' n l, (forall x, dV x = dV' x) -> tr_leaving src V J dV n l = tr_leaving src V J dV' n l.
Proof.
  intros src V J dV dV' n l H. induction l as [|e l IH]; cbn [tr_leaving]; [reflexivity|]. rewrite IH. f_equal. unfold tr_leaving1.
  assert (T : tr_through src V J dV e = tr_through src V J dV' e) by (destruct e; cbn [tr_through]; rewrite ?H; reflexivity). rewrite T. reflexivity.
Qed.
Lemma tan_ext : forall square current conductance src c parts V0 V J dV dV' dJ dJ', (forall x, dV x = dV' x) -> (forall x, dJ x = dJ' x) ->
  tan_laws square current conductance src c parts V0 V J dV dJ -> tan_laws square current conductance src c parts V0 V J dV' dJ'.
Proof.
  intros square current conductance src c parts V0 V J dV dV' dJ dJ' EV EJ (A & B & C & D). split; [exact A|]. split; [rewrite <- EV; exact B|]. split.
  - intros n IN NG. rewrite <- EV. rewrite <- (tr_leaving_ext_d src V J dV dV' n parts EV). exact (C n IN NG).
  - intros e IN HC. rewrite <- (tr_gap_ext_d src parts V J dJ dJ' e EJ). exact (D e IN HC).
Qed.

Lemma row_sum : forall n A i (x y : vec), row n A i (fun j => x j + y j) = row n A i x + row n A i y.
Proof. intros. apply row_plus_v. Qed.

(** ** The largest component *)
Lemma vmax_of_le : forall l v i, In i l -> Rabs (v i) <= vmax_of l v.
Proof.
  induction l as [|j l IH]; intros v i H; [destruct H|]. cbn [vmax_of]. destruct H as [->|H]; [apply Rmax_l|]. eapply Rle_trans; [apply IH; exact H|apply Rmax_r].
Qed.
Lemma vmax_of_in : forall l v, l <> [] -> exists i, In i l /\ vmax_of l v = Rabs (v i).
Proof.
  induction l as [|j l IH]; intros v N; [congruence|]. cbn [vmax_of]. destruct l as [|j' l].
  - exists j. split; [left; reflexivity|]. cbn [vmax_of]. apply Rmax_left. apply Rabs_pos.
  - destruct (IH v) as (i & I1 & E); [discriminate|]. destruct (Rle_dec (Rabs (v j)) (vmax_of (j' :: l) v)) as [L|L].
    + exists i. split; [right; exact I1|]. rewrite Rmax_right by exact L. exact E.
    + exists j. split; [left; reflexivity|]. apply Rmax_left. lra.
Qed.
Lemma indices_in : forall n pts from count i, In i (indices n pts from count) <-> exists k j, (k < pts)%nat /\ (from <= j < from + count)%nat /\ i = (k * n + j)%nat.
Proof.
  intros n pts from count i. unfold indices. rewrite in_flat_map. split.
  - intros (k & K & H). apply in_map_iff in H. destruct H as (j & <- & J). apply in_seq in K, J. exists k, j. split; [lia|]. split; [lia|reflexivity].
  - intros (k & j & K & J & ->). exists k. split; [apply in_seq; lia|]. apply in_map_iff. exists j. split; [reflexivity|apply in_seq; lia].
Qed.

(** ** Brute force *)
Lemma min_td_range : forall n points td dx, (forall d, 0 < td d <= 1) -> 0 < min_td n points td dx <= 1.
Proof.
  intros n points td dx H. unfold min_td.
  assert (K : forall l a, 0 < a <= 1 -> 0 < fold_left (fun a k => Rmin a (Rabs (td (Pss.sample n dx k)))) l a <= 1).
  { induction l as [|k l IH]; intros a A; [exact A|]. cbn [fold_left]. apply IH. pose proof (H (Pss.sample n dx k)) as T. rewrite (Rabs_right (td _)) by lra.
    unfold Rmin. destruct (Rle_dec _ _); lra. }
  apply K. pose proof (H (Pss.sample n dx 0)) as T. rewrite Rabs_right by lra. exact T.
Qed.
Lemma bf_loop_last : forall n points mna D step Tf Tt devs solve td check left x0 x,
  bf_loop n points mna D step Tf Tt devs solve td check left x0 = BDone (Some x) ->
  exists y dx, bf_step n points mna D step Tf Tt devs solve td y = Some (dx, x) /\ check dx x = true.
Proof.
  intros n points mna D step Tf Tt devs solve td check left. induction left as [|left IH]; intros x0 x H; cbn [bf_loop] in H;
    destruct (bf_step n points mna D step Tf Tt devs solve td x0) as [[dx x']|] eqn:F; try discriminate H; destruct (check dx x') eqn:C; try discriminate H.
  - injection H as <-. eauto.
  - injection H as <-. eauto.
  - eauto.
Qed.

(** The largest of the changes is below the tolerance for the largest of the values. *)
Definition all_small (er ea : R) (pts : nat) (P : str -> Prop) (W W0 W1 : nat -> str -> R) : Prop :=
  (exists k n, (k < pts)%nat /\ P n) ->
  exists k' n', (k' < pts)%nat /\ P n' /\ forall k n, (k < pts)%nat -> P n -> Rabs (W1 k n - W0 k n) < er * Rabs (W k' n') + ea.

(** * C205 *)
Theorem C205_brute_force : forall fs other fuel filename parts t es, load fs other fuel filename = Ok (parts, t, es) ->
  (* nothing is said of subcircuits and user-defined elements, except that names are words in lower case *)
  (forall line l, other line = Ok l -> Forall word_names l) ->
  Forall (nl_sound parts) parts ->
  forall solve msolve minv square current conductance locked tdo tol cmin at_time bf_default limit bf_iter JT check o maxit fuel' top gmin inv modules has_module rounds
    sh_default sh_iter method period step npoints x0 rows,
  (forall n, solves n (solve n)) -> 0 < d_max tdo ->
  0 < period -> (forall st, step = Some st -> 0 < st <= period) ->
  lower method = "brute-force"%string ->
  pss_analysis solve msolve minv square current conductance locked tdo tol cmin at_time bf_default limit bf_iter JT check o maxit fuel' top gmin inv modules has_module rounds
    sh_default sh_iter method t parts es period step npoints x0 = Ok (Some rows) ->
  let src time := driven (fun id => at_time id time) written_dc in
  exists h pts V0 I0 V1 I1 part,
    check_step_and_points step npoints period bf_default = Ok (pts, h) /\ (2 <= pts)%nat /\ 0 < h /\ INR (pts - 1) * h = period /\
    let V k n := V0 k n + part * (V1 k n - V0 k n) in
    let I k id := I0 k id + part * (I1 k id - I0 k id) in
    (* the reported values are a part of the way from the old ones to the new ones *)
    0 < part <= 1 /\ reports (pss_report t es rows) parts pts h V I /\
    (* which is short *)
    all_small (Newton.t_ver tol) (Newton.t_vea tol) pts (fun n => In n (node_list parts) /\ n <> lit "0") V V0 V1 /\
    all_small (Newton.t_ier tol) (Newton.t_iea tol) pts (fun id => In id (current_ids parts)) I I0 I1 /\
    (* the new ones obey the laws with the tangents at the old ones, the derivatives being backward differences *)
    (forall k, (1 <= k < pts)%nat -> tan_laws square current conductance (src (INR k * h)) (Rmax 0 cmin) parts (V0 k) (V1 k) (I1 k)
       (fun n => (V1 k n - V1 (k - 1)%nat n) / h) (fun id => (I1 k id - I1 (k - 1)%nat id) / h)) /\
    (* and are periodic *)
    (forall n, In n (node_list parts) -> n <> lit "0" -> V1 (pts - 1)%nat n = V1 0%nat n) /\
    (forall id, In id (current_ids parts) -> I1 (pts - 1)%nat id = I1 0%nat id).
Proof.
  intros fs other fuel filename parts t es LD OT SO solve msolve minv square current conductance locked tdo tol cmin at_time bf_default limit bf_iter JT check o maxit fuel' top gmin inv
    modules has_module rounds sh_default sh_iter method period step npoints x0 rows SS DM PP ST ME RUN src.
  assert (OL : forall line l, other line = Ok l -> Forall lower_case l) by (intros line l H; eapply Forall_impl; [|exact (OT line l H)]; intros e He; apply He).
  assert (OP : forall line l, other line = Ok l -> Forall plain_names l) by (intros line l H; eapply Forall_impl; [|exact (OT line l H)]; intros e He; apply He).
  pose proof (load_lower _ _ _ _ _ _ _ OL LD) as LC. pose proof (load_registered _ _ _ _ _ _ _ LD) as REG. pose proof (load_plain _ _ _ _ _ _ _ OP LD) as PN.
  destruct (load_facts _ _ _ _ _ _ _ LD) as (G & NV & PL & ND & MEN).
  destruct (nl_names t parts es G PL LC ND MEN REG) as (ns & NS & LN & DN & PNS & IDS & DI & PIS & LEN & IDX). specialize (PNS PN). specialize (PIS PN).
  pose proof (grounded_number t G) as NZ.
  assert (SZ : op_size t es = (List.length ns + List.length (current_ids parts))%nat) by (unfold op_size; lia).
  unfold pss_analysis in RUN. rewrite ME in RUN. cbn [String.eqb Ascii.eqb Bool.eqb] in RUN. unfold bfpss_run in RUN.
  destruct (generate_mna_and_N (get_nodes_number t) es) as [[m N]|] eqn:GE; [|discriminate RUN]. cbn [bindr fst snd] in RUN.
  destruct (generate_D cmin (get_nodes_number t) es) as [D|] eqn:GD; [|discriminate RUN]. cbn [bindr] in RUN.
  destruct (check_step_and_points step npoints period bf_default) as [[pts h]|] eqn:CS; [|discriminate RUN]. cbn [bindr] in RUN.
  destruct (steps_ok _ _ _ _ _ _ CS PP ST) as (P2 & HP & SP).
  destruct (pss_ports square current conductance t parts) as [devs|] eqn:PO; [|discriminate RUN]. cbn [bindr] in RUN.
  set (n := op_size t es) in *.
  match type of RUN with match ?b with _ => _ end = _ => destruct b as [|ex|[x|]] eqn:BS; try discriminate RUN end. injection RUN as <-.
  set (td := fun dx => get_td tdo n dx (ports locked es) None) in *.
  assert (BL : exists left, bf_loop n pts (reduce_mat m) (reduce_mat D) h (reduce_vec N) (pss_term at_time t es) devs (solve (pts * n)%nat) td
    (bf_check tol n pts (get_nodes_number t - 1)) left (bf_start n x0) = BDone (Some x)).
  { exists bf_iter. unfold bf_solve in BS. destruct (limit <? n * pts)%nat; [exact BS|]. unfold bf_dense in BS. destruct (msolve _ _ _); [|discriminate BS].
    destruct (max_rows _ _); [exact BS|discriminate BS]. }
  destruct BL as (left & BL). destruct (bf_loop_last _ _ _ _ _ _ _ _ _ _ _ _ _ _ BL) as (y & dx & STEP & CK).
  pose proof (min_td_range n pts td dx (fun d => proj1 (C10_damping tdo n d (ports locked es) None DM))) as PART. set (part := min_td n pts td dx) in *.
  assert (XV : forall i, x i = y i + part * dx i).
  { clear - STEP. unfold bf_step in STEP. destruct (solve _ _ _) as [d|]; [|discriminate STEP]. injection STEP as <- <-. reflexivity. }
  set (z k := fun j => Pss.sample n y k j + Pss.sample n dx k j).
  exists h, pts, (fun k => volt t (with_ground (Pss.sample n y k))), (fun k => amp (get_nodes_number t) es (with_ground (Pss.sample n y k))),
    (fun k => volt t (with_ground (z k))), (fun k => amp (get_nodes_number t) es (with_ground (z k))), part.
  split; [reflexivity|]. split; [exact P2|]. split; [exact HP|]. split; [exact SP|]. intros V I. split; [exact PART|].
  assert (VI : forall k a i, at_node t a (S i) -> V k a = Pss.sample n x k i /\ volt t (with_ground (z k)) a - volt t (with_ground (Pss.sample n y k)) a = Pss.sample n dx k i).
  { intros k a i At. unfold V, volt. unfold at_node in At. rewrite At. cbn [with_ground]. unfold z, Pss.sample. rewrite XV. split; ring. }
  assert (II : forall k q id, nth_error (current_ids parts) q = Some id -> I k id = Pss.sample n x k (get_nodes_number t - 1 + q)%nat /\
    amp (get_nodes_number t) es (with_ground (z k)) id - amp (get_nodes_number t) es (with_ground (Pss.sample n y k)) id = Pss.sample n dx k (get_nodes_number t - 1 + q)%nat).
  { intros k q id NQ. unfold I. rewrite <- !(nl_XI t parts es G PL LC SO ND _ q id NQ). unfold z, Pss.sample. rewrite XV. split; ring. }
  split; [|split; [|split; [|split; [|split]]]].
  - destruct (pss_table t es ns (current_ids parts) (pss_rows pts h (Pss.sample n x)) NS IDS DN DI PNS PIS SZ) as (T0 & T1 & T2). split; [|split].
    + intros name E. rewrite (T0 name E). unfold pss_rows. rewrite !map_map. reflexivity.
    + intros a name IN NG E. destruct (IDX a IN NG) as (i & NI & At). rewrite (T1 i a name NI E). unfold pss_rows. rewrite !map_map. f_equal. apply map_ext.
      intros k. cbn [snd]. symmetry. apply (VI k a i At).
    + intros id name IN E. apply In_nth_error in IN. destruct IN as (q & NQ). rewrite (T2 q id name NQ E). unfold pss_rows. rewrite !map_map. f_equal. apply map_ext.
      intros k. cbn [snd]. rewrite LN. symmetry. apply (II k q id NQ).
  - intros (k0 & a0 & K0 & IN0 & NG0). unfold bf_check in CK. apply andb_true_iff in CK. destruct CK as (CK & _).
    set (l := indices n pts 0 (get_nodes_number t - 1)) in *. unfold Rlt_b in CK. destruct (Rlt_dec _ _) as [LT|]; [|discriminate CK].
    assert (MEM : forall k a, (k < pts)%nat -> In a (node_list parts) -> a <> lit "0" -> exists i, at_node t a (S i) /\ In (k * n + i)%nat l).
    { intros k a K IN NG. destruct (IDX a IN NG) as (i & NI & At). exists i. split; [exact At|]. apply indices_in. exists k, i. split; [exact K|]. split; [|reflexivity].
      assert (i < List.length ns)%nat by (apply nth_error_Some; congruence). lia. }
    assert (NE : l <> []) by (destruct (MEM k0 a0 K0 IN0 NG0) as (i & _ & IL); intros Z; rewrite Z in IL; destruct IL).
    destruct (vmax_of_in l x NE) as (i & IL & EM). apply indices_in in IL. destruct IL as (k' & j & K' & J & ->).
    destruct (proj1 (grounded_range t (S j) G)) as (a' & At'); [lia|]. pose proof (MEN a' _ At') as IN'.
    assert (NG' : a' <> lit "0") by (intros ->; pose proof (at_node_fun _ _ _ _ At' (proj2 G)) as Q; discriminate Q).
    exists k', a'. split; [exact K'|]. split; [split; assumption|]. intros k a K (IN & NG). destruct (MEM k a K IN NG) as (i & At & IL).
    cbv beta. rewrite (proj2 (VI k a i At)), (proj1 (VI k' a' j At')). unfold Pss.sample at 1 2. rewrite <- EM. eapply Rle_lt_trans; [|exact LT]. apply (vmax_of_le l dx). exact IL.
  - intros (k0 & id0 & K0 & IN0). unfold bf_check in CK. apply andb_true_iff in CK. destruct CK as (_ & CK).
    set (l := indices n pts (get_nodes_number t - 1) (n - (get_nodes_number t - 1))) in *.
    assert (MEM : forall k q id, (k < pts)%nat -> nth_error (current_ids parts) q = Some id -> In (k * n + (get_nodes_number t - 1 + q))%nat l).
    { intros k q id K NQ. apply indices_in. exists k, (get_nodes_number t - 1 + q)%nat. split; [exact K|]. split; [|reflexivity].
      assert (q < List.length (current_ids parts))%nat by (apply nth_error_Some; congruence). lia. }
    apply In_nth_error in IN0. destruct IN0 as (q0 & NQ0).
    assert (NE : l <> []) by (intros Z; pose proof (MEM k0 q0 id0 K0 NQ0) as IL; rewrite Z in IL; destruct IL).
    apply orb_true_iff in CK. destruct CK as [CK|CK]; [destruct l; [congruence|discriminate CK]|]. unfold Rlt_b in CK. destruct (Rlt_dec _ _) as [LT|]; [|discriminate CK].
    destruct (vmax_of_in l x NE) as (i & IL & EM). apply indices_in in IL. destruct IL as (k' & j & K' & J & ->).
    destruct (nth_error (current_ids parts) (j - (get_nodes_number t - 1))) as [id'|] eqn:NQ'; [|apply nth_error_None in NQ'; lia].
    exists k', id'. split; [exact K'|]. split; [eapply nth_error_In; exact NQ'|]. intros k id K IN. apply In_nth_error in IN. destruct IN as (q & NQ).
    cbv beta. rewrite (proj2 (II k q id NQ)), (proj1 (II k' _ id' NQ')). replace (get_nodes_number t - 1 + (j - (get_nodes_number t - 1)))%nat with j by lia.
    unfold Pss.sample at 1 2. rewrite <- EM. eapply Rle_lt_trans; [|exact LT]. apply (vmax_of_le l dx). exact (MEM k q id K NQ).
  - intros k K.
    pose proof (tan_rows square current conductance t parts es G PL LC SO ND REG cmin m N D GE GD at_time devs PO (INR k * h) (Pss.sample n y k) (Pss.sample n dx k)
      (fun j => (z k j - z (k - 1)%nat j) / h)) as TR.
    assert (EXT : forall W W' J J', (forall a, W a = W' a) -> (forall a, J a = J' a) ->
      tan_laws square current conductance (src (INR k * h)) (Rmax 0 cmin) parts (volt t (with_ground (Pss.sample n y k))) (volt t (with_ground (z k))) (amp (get_nodes_number t) es (with_ground (z k))) W J ->
      tan_laws square current conductance (src (INR k * h)) (Rmax 0 cmin) parts (volt t (with_ground (Pss.sample n y k))) (volt t (with_ground (z k))) (amp (get_nodes_number t) es (with_ground (z k))) W' J').
    { intros W W' J J' EW EJ. apply tan_ext; assumption. }
    eapply EXT; [| |apply TR].
    + intros a. apply (V_step t h (z k) (z (k - 1)%nat) a).
    + intros a. apply (A_step t es h (z k) (z (k - 1)%nat) a).
    + fold n. intros i Hi. assert (N0 : (0 < n)%nat) by lia. destruct (C48_newton _ _ _ _ _ _ _ _ _ _ N0 P2 (SS _) _ _ _ STEP) as (_ & NK). specialize (NK k i K Hi).
      unfold euler_eq in NK. unfold z.
      rewrite (row_sum n (reduce_mat m) i).
      assert (RD : row n (reduce_mat D) i (fun j => (Pss.sample n y k j + Pss.sample n dx k j - (Pss.sample n y (k - 1) j + Pss.sample n dx (k - 1) j)) / h)
        = row n (reduce_mat D) i (fun j => (Pss.sample n y k j - Pss.sample n y (k - 1) j) / h) + row n (reduce_mat D) i (fun j => (Pss.sample n dx k j - Pss.sample n dx (k - 1) j) / h)).
      { rewrite <- row_sum. apply row_ext_v. intros j _. unfold Rdiv. ring. }
      rewrite RD. lra.
  - intros a IN NG. destruct (IDX a IN NG) as (i & NI & At). assert (i < List.length ns)%nat by (apply nth_error_Some; congruence).
    assert (N0 : (0 < n)%nat) by lia. destruct (C48_newton _ _ _ _ _ _ _ _ _ _ N0 P2 (SS _) _ _ _ STEP) as (NP & _). specialize (NP i ltac:(lia)).
    unfold volt. unfold at_node in At. rewrite At. cbn [with_ground]. unfold z. symmetry. exact NP.
  - intros id IN. apply In_nth_error in IN. destruct IN as (q & NQ). assert (q < List.length (current_ids parts))%nat by (apply nth_error_Some; congruence).
    assert (N0 : (0 < n)%nat) by lia. destruct (C48_newton _ _ _ _ _ _ _ _ _ _ N0 P2 (SS _) _ _ _ STEP) as (NP & _). specialize (NP (get_nodes_number t - 1 + q)%nat ltac:(lia)).
    rewrite <- !(nl_XI t parts es G PL LC SO ND _ q id NQ). unfold z. symmetry. exact NP.
Qed.
Print Assumptions C205_brute_force.

(** ** Shooting *)
Lemma vmax_le : forall m v i, (i < m)%nat -> Rabs (v i) <= vmax m v.
Proof.
  induction m as [|m IH]; intros v i H; [lia|]. cbn [vmax]. destruct (Nat.eq_dec i m) as [->|N]; [apply Rmax_r|]. eapply Rle_trans; [apply IH; lia|apply Rmax_l].
Qed.
Lemma vmax_in : forall m v, (0 < m)%nat -> exists i, (i < m)%nat /\ vmax m v = Rabs (v i).
Proof.
  induction m as [|m IH]; intros v H; [lia|]. cbn [vmax]. destruct m as [|m].
  - exists 0%nat. split; [lia|]. cbn [vmax]. apply Rmax_right. apply Rabs_pos.
  - destruct (IH v) as (i & Hi & E); [lia|]. destruct (Rle_dec (vmax (S m) v) (Rabs (v (S m)))) as [L|L].
    + exists (S m). split; [lia|]. apply Rmax_right. exact L.
    + exists i. split; [lia|]. rewrite Rmax_left by lra. exact E.
Qed.
Lemma norm_all_le : forall n l k i, (k < List.length l)%nat -> (i < n)%nat -> Rabs (nth k l vzero i) <= norm_all n l.
Proof.
  intros n l. unfold norm_all.
  assert (G : forall l a, a <= fold_left (fun m v => if Rlt_b m (vmax n v) then vmax n v else m) l a /\
    forall k i, (k < List.length l)%nat -> (i < n)%nat -> Rabs (nth k l vzero i) <= fold_left (fun m v => if Rlt_b m (vmax n v) then vmax n v else m) l a).
  { clear. induction l as [|v l IH]; intros a; [split; [apply Rle_refl|intros; cbn [List.length] in *; lia]|]. cbn [fold_left].
    set (a' := if Rlt_b a (vmax n v) then vmax n v else a). destruct (IH a') as (I1 & I2).
    assert (A : a <= a' /\ vmax n v <= a') by (unfold a', Rlt_b; destruct (Rlt_dec a (vmax n v)); lra). split; [lra|].
    intros [|k] i K Hi; cbn [nth]; [|apply I2; [cbn [List.length] in K; lia|exact Hi]]. pose proof (vmax_le n v i Hi). lra. }
  intros k i. apply (proj2 (G l 0)).
Qed.
Lemma norm_all_in : forall n l, (0 < n)%nat -> (0 < List.length l)%nat -> exists k i, (k < List.length l)%nat /\ (i < n)%nat /\ norm_all n l = Rabs (nth k l vzero i).
Proof.
  intros n l N L. unfold norm_all.
  assert (G : forall l a, fold_left (fun m v => if Rlt_b m (vmax n v) then vmax n v else m) l a = a \/
    exists k i, (k < List.length l)%nat /\ (i < n)%nat /\ fold_left (fun m v => if Rlt_b m (vmax n v) then vmax n v else m) l a = Rabs (nth k l vzero i)).
  { clear L. clear l. induction l as [|v l IH]; intros a; [left; reflexivity|]. cbn [fold_left]. destruct (IH (if Rlt_b a (vmax n v) then vmax n v else a)) as [E|(k & i & K & Hi & E)].
    - rewrite E. unfold Rlt_b. destruct (Rlt_dec a (vmax n v)); [|left; reflexivity]. right. destruct (vmax_in n v N) as (i & Hi & M). exists 0%nat, i. cbn [List.length nth]. split; [lia|]. split; assumption.
    - right. exists (S k), i. cbn [List.length nth]. split; [lia|]. split; assumption. }
  destruct (G l 0) as [E|X]; [|exact X]. exists 0%nat, 0%nat. split; [exact L|]. split; [exact N|].
  pose proof (norm_all_le n l 0%nat 0%nat L N) as Q. unfold norm_all in Q. rewrite E in Q |- *. pose proof (Rabs_pos (nth 0 l vzero 0%nat)). lra.
Qed.
Lemma shoot_loop_last : forall n solve msolve inv mna D Tf Tt devs step td small, solves n solve -> msolves n msolve -> inverts n inv ->
  forall left conv xs r, (0 < List.length xs)%nat ->
  shoot_loop n solve msolve inv mna D Tf Tt devs step td small left conv xs = SDone (Some r) ->
  exists ys dxs, shoot_step n solve msolve inv mna D Tf Tt devs step td ys = Some (dxs, r) /\ small dxs r = true /\ List.length ys = List.length xs.
Proof.
  intros n solve msolve inv mna D Tf Tt devs step td small Hs Hm Hi. induction left as [|left IH]; intros conv xs r L H; cbn [shoot_loop] in H;
    destruct (shoot_step n solve msolve inv mna D Tf Tt devs step td xs) as [[dxs xs']|] eqn:E; try discriminate H; destruct (small dxs xs') eqn:C; cbn [andb] in H.
  - destruct (conv =? 3)%nat; [|discriminate H]. injection H as <-. eauto.
  - discriminate H.
  - destruct (conv =? 3)%nat; [injection H as <-; eauto|]. pose proof (shoot_step_length _ _ _ _ _ _ _ _ _ _ _ _ _ _ Hs Hm Hi L E) as LE.
    destruct (IH _ xs' r ltac:(lia) H) as (ys & ds & A & B & C'). exists ys, ds. rewrite C', LE. auto.
  - pose proof (shoot_step_length _ _ _ _ _ _ _ _ _ _ _ _ _ _ Hs Hm Hi L E) as LE.
    destruct (IH _ xs' r ltac:(lia) H) as (ys & ds & A & B & C'). exists ys, ds. rewrite C', LE. auto.
Qed.

(** The changes of the voltages and of the currents are below a tolerance, [er] times the
    largest voltage or current, whichever is larger, plus [ea]. *)
Definition both_small (er ea : R) (pts : nat) (parts : list pelem) (V V0 V1 I I0 I1 : nat -> str -> R) : Prop :=
  exists k' M, (k' < pts)%nat /\
    ((exists n, In n (node_list parts) /\ n <> lit "0" /\ M = V k' n) \/ (exists id, In id (current_ids parts) /\ M = I k' id)) /\
    (forall k n, (k < pts)%nat -> In n (node_list parts) -> n <> lit "0" -> Rabs (V1 k n - V0 k n) < er * Rabs M + ea) /\
    (forall k id, (k < pts)%nat -> In id (current_ids parts) -> Rabs (I1 k id - I0 k id) < er * Rabs M + ea).

Theorem C205_shooting : forall fs other fuel filename parts t es, load fs other fuel filename = Ok (parts, t, es) ->
  (* nothing is said of subcircuits and user-defined elements, except that names are words in lower case *)
  (forall line l, other line = Ok l -> Forall word_names l) ->
  Forall (nl_sound parts) parts ->
  forall solve msolve minv square current conductance locked tdo tol cmin at_time bf_default limit bf_iter JT check o maxit fuel' top gmin inv modules has_module rounds
    sh_default sh_iter method period step npoints x0 rows,
  (forall n, solves n (solve n)) -> (forall n, msolves n (msolve n)) -> (forall n, inverts n (minv n)) -> 0 < d_max tdo ->
  0 < period -> (forall st, step = Some st -> 0 < st <= period) ->
  lower method = "shooting"%string ->
  pss_analysis solve msolve minv square current conductance locked tdo tol cmin at_time bf_default limit bf_iter JT check o maxit fuel' top gmin inv modules has_module rounds
    sh_default sh_iter method t parts es period step npoints x0 = Ok (Some rows) ->
  let src time := driven (fun id => at_time id time) written_dc in
  exists h pts V0 I0 V1 I1 part,
    check_step_and_points step npoints period sh_default = Ok (pts, h) /\ (2 <= pts)%nat /\ 0 < h /\ INR (pts - 1) * h = period /\
    let V k n := V0 k n + part k * (V1 k n - V0 k n) in
    let I k id := I0 k id + part k * (I1 k id - I0 k id) in
    (* the reported values are a part of the way, one for each sample, from the old ones to the new ones *)
    (forall k, (k < pts)%nat -> 0 < part k <= 1) /\ reports (pss_report t es rows) parts pts h V I /\
    (* which is short *)
    both_small (Rmin (Newton.t_ver tol) (Newton.t_ier tol)) (Rmin (Newton.t_vea tol) (Newton.t_iea tol)) pts parts V V0 V1 I I0 I1 /\
    (* the new ones obey the laws with the tangents at the old ones, the derivatives being backward differences; before the
       first sample is the last one *)
    (forall k, (k < pts)%nat -> tan_laws square current conductance (src (INR k * h)) (Rmax 0 cmin) parts (V0 k) (V1 k) (I1 k)
       (fun n => (V1 k n - V1 (before pts k) n) / h) (fun id => (I1 k id - I1 (before pts k) id) / h)).
Proof.
  intros fs other fuel filename parts t es LD OT SO solve msolve minv square current conductance locked tdo tol cmin at_time bf_default limit bf_iter JT check o maxit fuel' top gmin inv
    modules has_module rounds sh_default sh_iter method period step npoints x0 rows SS SM SI DM PP ST ME RUN src.
  assert (OL : forall line l, other line = Ok l -> Forall lower_case l) by (intros line l H; eapply Forall_impl; [|exact (OT line l H)]; intros e He; apply He).
  assert (OP : forall line l, other line = Ok l -> Forall plain_names l) by (intros line l H; eapply Forall_impl; [|exact (OT line l H)]; intros e He; apply He).
  pose proof (load_lower _ _ _ _ _ _ _ OL LD) as LC. pose proof (load_registered _ _ _ _ _ _ _ LD) as REG. pose proof (load_plain _ _ _ _ _ _ _ OP LD) as PN.
  destruct (load_facts _ _ _ _ _ _ _ LD) as (G & NV & PL & ND & MEN).
  destruct (nl_names t parts es G PL LC ND MEN REG) as (ns & NS & LN & DN & PNS & IDS & DI & PIS & LEN & IDX). specialize (PNS PN). specialize (PIS PN).
  pose proof (grounded_number t G) as NZ.
  assert (SZ : op_size t es = (List.length ns + List.length (current_ids parts))%nat) by (unfold op_size; lia).
  unfold pss_analysis in RUN. rewrite ME in RUN. cbn [String.eqb Ascii.eqb Bool.eqb] in RUN. unfold shooting_run in RUN.
  destruct (generate_mna_and_N (get_nodes_number t) es) as [[m N]|] eqn:GE; [|discriminate RUN]. cbn [bindr fst snd] in RUN.
  destruct (generate_D cmin (get_nodes_number t) es) as [D|] eqn:GD; [|discriminate RUN]. cbn [bindr] in RUN.
  destruct (check_step_and_points step npoints period sh_default) as [[pts h]|] eqn:CS; [|discriminate RUN]. cbn [bindr] in RUN.
  destruct (steps_ok _ _ _ _ _ _ CS PP ST) as (P2 & HP & SP).
  destruct (pss_ports square current conductance t parts) as [devs|] eqn:PO; [|discriminate RUN]. cbn [bindr] in RUN.
  match type of RUN with bindr ?b _ = _ => destruct b as [[tr|]|]; try discriminate RUN end. cbn [bindr] in RUN.
  destruct (List.length (last_samples pts vzero tr) =? pts)%nat eqn:LS; [|discriminate RUN]. apply Nat.eqb_eq in LS. cbn [negb] in RUN.
  set (n := op_size t es) in *.
  match type of RUN with match ?b with _ => _ end = _ => destruct b as [|[r|]] eqn:BS; try discriminate RUN end. injection RUN as <-.
  set (td := fun dx => get_td tdo n dx (ports locked es) None) in *.
  assert (L0 : (0 < List.length (last_samples pts vzero tr))%nat) by lia.
  destruct (shoot_loop_last _ _ _ _ _ _ _ _ _ _ _ _ (SS n) (SM n) (SI n) _ _ _ _ L0 BS) as (ys & dxs & STEP & CK & LY). rewrite LS in LY. clear BS LS L0.
  assert (LY0 : (0 < List.length ys)%nat) by lia.
  destruct (C46_residual n (solve n) (msolve n) (minv n) (SS n) (SM n) (SI n) _ _ _ _ _ _ _ _ _ _ STEP LY0) as (LD' & RES). rewrite LY in LD', RES.
  assert (RV : List.length r = pts /\ forall k i, (k < pts)%nat -> nth k r vzero i = td (nth k dxs vzero) * nth k dxs vzero i + nth k ys vzero i).
  { clear - STEP LD' LY. unfold shoot_step in STEP. destruct (updates _ _ _ _ _ _) as [ds|]; [|discriminate STEP]. injection STEP as <- <-.
    rewrite <- LY in LD' |- *. destruct (damp_nth td ds ys LD') as (A & B). split; [exact A|exact B]. }
  destruct RV as (LR & RV).
  assert (PART : forall d, 0 < td d <= 1) by (intros d; exact (proj1 (C10_damping tdo n d (ports locked es) None DM))).
  set (y k := nth k ys vzero) in *. set (dx k := nth k dxs vzero) in *. set (x k := nth k r vzero) in *.
  set (z k := fun j => y k j + dx k j).
  exists h, pts, (fun k => volt t (with_ground (y k))), (fun k => amp (get_nodes_number t) es (with_ground (y k))),
    (fun k => volt t (with_ground (z k))), (fun k => amp (get_nodes_number t) es (with_ground (z k))), (fun k => td (dx k)).
  split; [reflexivity|]. split; [exact P2|]. split; [exact HP|]. split; [exact SP|]. intros V I. split; [intros; apply PART|].
  assert (VI : forall k a i, (k < pts)%nat -> at_node t a (S i) -> V k a = x k i /\ volt t (with_ground (z k)) a - volt t (with_ground (y k)) a = dx k i).
  { intros k a i K At. unfold V, volt. unfold at_node in At. rewrite At. cbn [with_ground]. unfold z, x. rewrite (RV k i K). fold (dx k) (y k). split; ring. }
  assert (II : forall k q id, (k < pts)%nat -> nth_error (current_ids parts) q = Some id -> I k id = x k (get_nodes_number t - 1 + q)%nat /\
    amp (get_nodes_number t) es (with_ground (z k)) id - amp (get_nodes_number t) es (with_ground (y k)) id = dx k (get_nodes_number t - 1 + q)%nat).
  { intros k q id K NQ. unfold I. rewrite <- !(nl_XI t parts es G PL LC SO ND _ q id NQ). unfold z, x. rewrite (RV k _ K). fold (dx k) (y k). split; ring. }
  split; [|split].
  - destruct (pss_table t es ns (current_ids parts) (pss_rows pts h x) NS IDS DN DI PNS PIS SZ) as (T0 & T1 & T2). split; [|split].
    + intros name E. rewrite (T0 name E). unfold pss_rows. rewrite !map_map. reflexivity.
    + intros a name IN NG E. destruct (IDX a IN NG) as (i & NI & At). rewrite (T1 i a name NI E). unfold pss_rows. rewrite !map_map. f_equal. apply map_ext_in.
      intros k K. apply in_seq in K. cbn [snd]. symmetry. apply (VI k a i ltac:(lia) At).
    + intros id name IN E. apply In_nth_error in IN. destruct IN as (q & NQ). rewrite (T2 q id name NQ E). unfold pss_rows. rewrite !map_map. f_equal. apply map_ext_in.
      intros k K. apply in_seq in K. cbn [snd]. rewrite LN. symmetry. apply (II k q id ltac:(lia) NQ).
  - unfold small_test, Rlt_b in CK. destruct (Rlt_dec _ _) as [LT|]; [|discriminate CK].
    assert (N0 : (0 < n)%nat) by lia. destruct (norm_all_in n r N0 ltac:(lia)) as (k' & j & K' & J & EM). rewrite LR in K'. exists k', (x k' j). split; [exact K'|]. split; [|split].
    + destruct (Nat.lt_ge_cases j (get_nodes_number t - 1)) as [JL|JG].
      * left. destruct (proj1 (grounded_range t (S j) G)) as (a' & At'); [lia|]. exists a'. split; [exact (MEN a' _ At')|].
        split; [intros ->; pose proof (at_node_fun _ _ _ _ At' (proj2 G)) as Q; discriminate Q|]. symmetry. apply (VI k' a' j K' At').
      * right. destruct (nth_error (current_ids parts) (j - (get_nodes_number t - 1))) as [id'|] eqn:NQ'; [|apply nth_error_None in NQ'; lia].
        exists id'. split; [eapply nth_error_In; exact NQ'|]. rewrite (proj1 (II k' _ id' K' NQ')). f_equal. lia.
    + intros k a K IN NG. destruct (IDX a IN NG) as (i & NI & At). assert (i < List.length ns)%nat by (apply nth_error_Some; congruence).
      cbv beta. rewrite (proj2 (VI k a i K At)). unfold x. rewrite <- EM. eapply Rle_lt_trans; [|exact LT]. apply norm_all_le; lia.
    + intros k id K IN. apply In_nth_error in IN. destruct IN as (q & NQ). assert (q < List.length (current_ids parts))%nat by (apply nth_error_Some; congruence).
      cbv beta. rewrite (proj2 (II k q id K NQ)). unfold x. rewrite <- EM. eapply Rle_lt_trans; [|exact LT]. apply norm_all_le; lia.
  - intros k K.
    pose proof (tan_rows square current conductance t parts es G PL LC SO ND REG cmin m N D GE GD at_time devs PO (INR k * h) (y k) (dx k)
      (fun j => (z k j - z (before pts k) j) / h)) as TR.
    eapply tan_ext; [| |apply TR].
    + intros a. apply (V_step t h (z k) (z (before pts k)) a).
    + intros a. apply (A_step t es h (z k) (z (before pts k)) a).
    + fold n. intros i Hi. specialize (RES k i K Hi). cbv zeta in RES. fold (y k) (dx k) (y (before pts k)) (dx (before pts k)) in RES.
      unfold euler_eq in RES. unfold z. rewrite (row_sum n (reduce_mat m) i).
      assert (RD : row n (reduce_mat D) i (fun j => (y k j + dx k j - (y (before pts k) j + dx (before pts k) j)) / h)
        = row n (reduce_mat D) i (fun j => (y k j - y (before pts k) j) / h) + row n (reduce_mat D) i (fun j => (dx k j - dx (before pts k) j) / h)).
      { rewrite <- row_sum. apply row_ext_v. intros j _. unfold Rdiv. ring. }
      rewrite RD. lra.
Qed.
Print Assumptions C205_shooting.

(** * Examples and what does not hold *)

(** ** A current of 1 A through a diode with [IS] = 1e-14 A at about 290 K, with the default
    tolerances and damping.  The last step of the brute force method is short enough to be
    the last, and no test is made of what is left of the currents. *)
Definition junction : list str := [lit "junction"; lit "D1 A 0 dm"; lit "I1 0 a type=idc idc=1"; lit ".model diode dm"; lit ".OP"].
Definition junction_parts : list pelem := [PD (lit "d1") (lit "a") (lit "0") (lit "dm") None None; PI (lit "i1") (lit "0") (lit "a") (Some (1, 0)%Z) None None].
Definition junction_es : list lelem := [ENL "d1" 1 0; EI "i1" 0 1 1 false].
Definition junction_is : R := / 10 ^ 14.
Definition junction_vt : R := / 40.
Definition junction_i (e : pelem) (v : list R) : R := junction_is * (exp (hd 0 v / junction_vt) - 1).
Definition junction_g (e : pelem) (v : list R) (k : nat) : R := junction_is / junction_vt * exp (hd 0 v / junction_vt).
Definition default_tols : tols := mkTols (/ 10 ^ 6) (/ 10 ^ 3) (/ 10 ^ 9) (/ 10 ^ 3).
Lemma junction_load : load (fun _ => Some junction) (fun _ => Err NetlistParseError) 1 (lit "f") = Ok (junction_parts, shunt_t, junction_es).
Proof.
  transitivity (@Ok (list pelem * ntab * list lelem) (junction_parts, shunt_t, [ENL "d1" 1 0; EI "i1" 0 1 (dR (1, 0)%Z) false])).
  - unfold load.
    match goal with |- context [read_netlist ?a ?b ?c] => let r := eval vm_compute in (read_netlist a b c) in change (read_netlist a b c) with r end. cbn [bindr r_models r_lines map].
    match goal with |- context [parse_models ?a ?b] => let r := eval vm_compute in (parse_models a b) in change (parse_models a b) with r end. cbn [bindr r_models r_lines map fst snd].
    match goal with |- context [main_netlist_parser ?a ?b ?c ?d] => let r := eval vm_compute in (main_netlist_parser a b c d) in change (main_netlist_parser a b c d) with r end. cbn [bindr].
    cbv -[dR]. reflexivity.
  - rewrite !dR_0. reflexivity.
Qed.
(** [junction_g] is the derivative of [junction_i]. *)
Lemma junction_slope : forall e v, derivable_pt_lim (fun x => junction_i e [x]) v (junction_g e [v] 0%nat).
Proof.
  intros e v. unfold junction_i, junction_g. cbn [hd].
  replace (junction_is / junction_vt * exp (v / junction_vt)) with (junction_is * (exp (v / junction_vt) * (/ junction_vt) - 0)) by (unfold Rdiv; ring).
  apply (derivable_pt_lim_scal (fun x => exp (x / junction_vt) - 1)). apply derivable_pt_lim_minus; [|apply derivable_pt_lim_const].
  apply (derivable_pt_lim_comp (fun x => x / junction_vt) exp); [|apply derivable_pt_lim_exp].
  replace (/ junction_vt) with (1 * / junction_vt + v * 0) by ring. apply (derivable_pt_lim_mult (fun x => x) (fun _ => / junction_vt)); [apply derivable_pt_lim_id|apply derivable_pt_lim_const].
Qed.
(** The conductance of the diode at the guess, times the thermal voltage. *)
Definition junction_G : R := (1 + junction_is) / (1 + / 100).
Definition junction_v : R := junction_vt * ln (junction_G / junction_is).
Lemma junction_exp : junction_is * exp (junction_v / junction_vt) = junction_G.
Proof.
  assert (A : 0 < junction_is) by (apply Rinv_0_lt_compat, pow_lt; lra). assert (B : 0 < junction_G) by (unfold junction_G; apply Rmult_lt_0_compat; [lra|apply Rinv_0_lt_compat; lra]).
  unfold junction_v. replace (junction_vt * ln (junction_G / junction_is) / junction_vt) with (ln (junction_G / junction_is)) by (unfold junction_vt; field).
  rewrite exp_ln by (apply Rmult_lt_0_compat; [lra|apply Rinv_0_lt_compat; lra]). field. lra.
Qed.
Lemma junction_G_bounds : 99 / 100 < junction_G < 1.
Proof.
  assert (A : 0 < junction_is < / 1000).
  { split; [apply Rinv_0_lt_compat, pow_lt; lra|]. unfold junction_is. apply Rinv_lt_contravar; [|]; simpl; lra. }
  unfold junction_G. replace (1 + / 100) with (101 / 100) by field. replace ((1 + junction_is) / (101 / 100)) with ((1 + junction_is) * (100 / 101)) by field. lra.
Qed.
Lemma junction_v_bound : / 4 < junction_v.
Proof.
  assert (A : 0 < junction_is) by (apply Rinv_0_lt_compat, pow_lt; lra). pose proof junction_G_bounds as B.
  unfold junction_v, junction_vt. assert (C : 10 < ln (junction_G / junction_is)); [|lra].
  rewrite <- (ln_exp 10). apply ln_increasing; [apply exp_pos|].
  assert (E : exp 10 <= 3 ^ 10).
  { replace 10 with (INR 10 * 1) at 1 by (simpl; ring). assert (P : forall n, exp (INR n * 1) <= 3 ^ n); [|apply P].
    induction n as [|n IH]; [simpl; rewrite Rmult_0_l, exp_0; lra|]. rewrite S_INR. replace ((INR n + 1) * 1) with (1 + INR n * 1) by ring. rewrite exp_plus. cbn [pow].
    apply Rmult_le_compat; [left; apply exp_pos|left; apply exp_pos|exact exp_le_3|exact IH]. }
  eapply Rle_lt_trans; [exact E|]. unfold Rdiv, junction_is. rewrite Rinv_inv. apply Rlt_trans with (99 / 100 * 10 ^ 14); [simpl; lra|]. apply Rmult_lt_compat_r; [apply pow_lt; lra|lra].
Qed.
(** One step from the guess moves it by a hundredth of the thermal voltage. *)
Lemma junction_bf : forall (m D : mat) Tf Tt p td, m 0%nat 0%nat = 0 -> D 0%nat 0%nat = 0 -> Tf 0%nat = - 1 -> (forall t, Tt t 0%nat = 0) ->
  p = mkPort (1, 0)%nat [(1, 0)%nat] (junction_i (PD (lit "d1") (lit "a") (lit "0") (lit "dm") None None)) (junction_g (PD (lit "d1") (lit "a") (lit "0") (lit "dm") None None)) ->
  exists dx x', bf_step 1 2 m D 1 Tf Tt [p] (only2 (2 * 1)) td (bf_start 1 (Some (fun _ => junction_v))) = Some (dx, x') /\
    (forall k, (k < 2)%nat -> dx k = junction_vt / 100 /\ x' k = junction_v + min_td 1 2 td dx * (junction_vt / 100)).
Proof.
  intros m D Tf Tt p td M1 D1 T1 TT P. set (y := bf_start 1 (Some (fun _ => junction_v))).
  assert (Y : forall k, y k = junction_v) by (intros k; reflexivity).
  assert (JT : forall k, snd (J_and_T [p] (Pss.sample 1 y k)) 0%nat = junction_G - junction_is /\ fst (J_and_T [p] (Pss.sample 1 y k)) 0%nat 0%nat = junction_G / junction_vt).
  { intros k. assert (OKP : Forall (port_ok 1) [p]) by (rewrite P; constructor; [|constructor]; repeat constructor).
    destruct (J_and_T_spec 1 [p] (Pss.sample 1 y k) (fun _ => 1) 0%nat OKP) as (S2 & S1). rewrite S1. unfold row in S2. cbn [rsum] in S2. rewrite Rmult_1_r, Rplus_0_l in S2. rewrite S2.
    rewrite P. cbn [lsum np_out np_i np_g np_drive map gsum fst snd]. unfold junction_i, junction_g, drive_v, gdlt, dlt. cbn [hd fst snd Nat.eqb Nat.sub].
    unfold Pss.sample. rewrite !Y. rewrite <- junction_exp. rewrite !(Rminus_0_r junction_v). split; [ring|]. unfold Rdiv. ring. }
  destruct (bf_step 1 2 m D 1 Tf Tt [p] (only2 (2 * 1)) td y) as [[dx x']|] eqn:E.
  - exists dx, x'. split; [reflexivity|].
    destruct (C48_newton 1 2 _ _ _ _ _ _ _ _ ltac:(lia) ltac:(lia) (only2_solves _) _ _ _ E) as (P0 & P1).
    specialize (P0 0%nat ltac:(lia)). specialize (P1 1%nat 0%nat ltac:(lia) ltac:(lia)). unfold euler_eq in P1. destruct (JT 1%nat) as (J1 & J2).
    unfold row in P1. cbn [rsum] in P1. rewrite J1, J2, TT, T1, M1, D1 in P1. unfold Pss.sample in P0, P1. simpl in P0, P1. rewrite !Y in P0.
    assert (XV : forall i, x' i = y i + min_td 1 2 td dx * dx i).
    { unfold bf_step in E. destruct (only2 _ _ _) as [d|]; [|discriminate E]. injection E as <- <-. reflexivity. }
    assert (DX : dx 1%nat = junction_vt / 100).
    { pose proof junction_G_bounds as GB. assert (Q : junction_G * (1 + / 100) = 1 + junction_is) by (unfold junction_G; field; lra).
      assert (F : junction_G * (dx 1%nat * / junction_vt - / 100) = 0) by (unfold Rdiv in P1; lra).
      apply Rmult_integral in F. destruct F as [F|F]; [lra|]. unfold junction_vt in *. lra. }
    assert (DX0 : dx 0%nat = dx 1%nat) by lra.
    intros k K. assert (DK : dx k = junction_vt / 100) by (destruct k as [|[|k]]; [lra|exact DX|lia]). split; [exact DK|]. rewrite XV, Y, DK. reflexivity.
  - exfalso. unfold bf_step in E. change (only2 (2 * 1)) with solve2 in E. unfold solve2 in E.
    match type of E with match (if Req_EM_T ?d 0 then _ else _) with _ => _ end = _ => assert (DT : d <> 0) end.
    { unfold mplus, big_J. destruct (JT 1%nat) as (_ & J2). clear - J2 M1 D1. set (JJ := J_and_T [p]) in *. clearbody JJ. simpl. rewrite J2. unfold CMAT. simpl. unfold put, Pss.block, set_sub. simpl. unfold mneg, mplus, mscale, eye, C0, C1. simpl.
      rewrite M1, D1. unfold mzero, dlt. simpl. pose proof junction_G_bounds. unfold junction_vt. lra. }
    destruct (Req_EM_T _ 0); [contradiction|discriminate E].
Qed.

Theorem C205_refuted : let d := PD (lit "d1") (lit "a") (lit "0") (lit "dm") None None in
  (* the equation of the diode and its derivative *)
  (forall v, junction_i d [v] = / 10 ^ 14 * (exp (v / / 40) - 1)) /\ (forall v, derivable_pt_lim (fun x => junction_i d [x]) v (junction_g d [v] 0%nat)) /\
  load (fun _ => Some junction) (fun _ => Err NetlistParseError) 1 (lit "f") = Ok (junction_parts, shunt_t, junction_es) /\
  Forall (nl_sound junction_parts) junction_parts /\
  forall msolve minv square at_time bf_default bf_iter JT check o maxit fuel' top gmin inv modules has_module rounds sh_default sh_iter,
  exists rows v, pss_analysis only2 msolve minv square junction_i junction_g (fun _ => [(1, 0)%nat]) (mkTd false true (4 * / 40)) default_tols 0 at_time bf_default 1 bf_iter JT check o maxit fuel'
      top gmin inv modules has_module rounds sh_default sh_iter "brute-force" shunt_t junction_parts junction_es 1 (Some 1) None (Some (fun _ => junction_v)) = Ok (Some rows) /\
    pss_report shunt_t junction_es rows (lit "VA") = Ok [v; v] /\
    (* the source brings 1 A to the node; what leaves it through the diode is larger, by far more than the tolerance *)
    1 + 20000 * Newton.t_iea default_tols < junction_i d [v].
Proof.
  intros d. split; [reflexivity|]. split; [apply junction_slope|]. split; [exact junction_load|]. split; [repeat constructor; discriminate|].
  intros msolve minv square at_time bf_default bf_iter JT check o maxit fuel' top gmin inv modules has_module rounds sh_default sh_iter.
  assert (CS : check_step_and_points (Some 1) None 1 bf_default = Ok (2%nat, 1)).
  { destruct (C16_step_given 1 1 ltac:(lra) ltac:(lra)) as (n & st & E & N & S & Q & Q1 & _).
    assert (N2 : n = 2%nat).
    { destruct (Nat.eq_dec n 2) as [|NE]; [assumption|exfalso]. assert (T3 : INR 3 <= INR n) by (apply le_INR; lia). change (INR 3) with (1 + 1 + 1) in T3. nra. }
    subst n. change (INR 2) with (1 + 1) in Q. assert (S1 : st = 1) by lra. rewrite S1 in E. exact E. }
  unfold pss_analysis. change (String.eqb (lower "brute-force") "shooting") with false. change (String.eqb (lower "brute-force") "brute-force") with true. cbv iota.
  unfold bfpss_run. rewrite CS.
  assert (MN : exists m N D, generate_mna_and_N (get_nodes_number shunt_t) junction_es = Ok (m, N) /\ generate_D 0 (get_nodes_number shunt_t) junction_es = Ok D /\ m 1%nat 1%nat = 0 /\ D 1%nat 1%nat = 0 /\ N 1%nat = - 1).
  { do 3 eexists. split; [reflexivity|]. split; [reflexivity|]. split; [|split].
    - cbn [fst]. simpl. unfold madd, mset, mzero. simpl. reflexivity.
    - unfold add_cmin. destruct (Rlt_dec 0 0); [lra|]. simpl. unfold madd, mset, mzero. simpl. reflexivity.
    - simpl. unfold vadd, vset, vzero. simpl. lra. }
  destruct MN as (m & N & D & GE & GD & M1 & D1 & N1). rewrite GE, GD. cbn [bindr fst snd].
  change (pss_ports square junction_i junction_g shunt_t junction_parts) with (Ok [mkPort (1, 0)%nat [(1, 0)%nat] (junction_i d) (junction_g d)]). cbn [bindr].
  change (op_size shunt_t junction_es) with 1%nat. change (get_nodes_number shunt_t - 1)%nat with 1%nat.
  change (ports (fun _ => [(1, 0)%nat]) junction_es) with [(1, 0)%nat].
  set (td := fun dx => get_td (mkTd false true (4 * / 40)) 1 dx [(1, 0)%nat] None).
  destruct (junction_bf (reduce_mat m) (reduce_mat D) (reduce_vec N) (pss_term at_time shunt_t junction_es) _ td M1 D1 N1 (fun t => eq_refl) eq_refl) as (dx & x & STEP & X). fold d in STEP.
  assert (TD : min_td 1 2 td dx = 1).
  { assert (T1 : forall k, (k < 2)%nat -> td (Pss.sample 1 dx k) = 1).
    { intros k K. unfold td, get_td. cbn [d_lock td_loop td_first port_move dx_at Nat.eqb d_max]. unfold Pss.sample. replace (k * 1 + 0)%nat with k by lia. rewrite (proj1 (X k K)).
      unfold junction_vt. rewrite Rabs_right by lra. unfold Rlt_b. destruct (Rlt_dec (4 * / 40) (/ 40 / 100)); [lra|]. destruct (Rlt_dec 1 1); [lra|reflexivity]. }
    unfold min_td. cbn [seq fold_left Nat.sub]. rewrite !T1 by lia. rewrite Rabs_R1. apply Rmin_left. lra. }
  rewrite TD in X. destruct (X 0%nat ltac:(lia)) as (DX0 & X0). destruct (X 1%nat ltac:(lia)) as (DX1 & X1). clear X.
  pose proof junction_v_bound as VB. pose proof junction_G_bounds as GB.
  assert (CK : bf_check default_tols 1 2 1 dx x = true).
  { unfold bf_check. change (indices 1 2 1 (1 - 1)) with (@nil nat). change (indices 1 2 0 1) with [0%nat; 1%nat]. cbn [List.length Nat.eqb orb]. rewrite andb_true_r. cbn [vmax_of].
    rewrite DX0, DX1, X0, X1. unfold junction_vt. rewrite (Rabs_right (/ 40 / 100)), (Rabs_right (junction_v + _)) by lra.
    rewrite !(Rmax_left _ 0) by lra. rewrite !Rmax_left by lra. cbn [default_tols Newton.t_ver Newton.t_vea]. unfold Rlt_b. destruct (Rlt_dec _ _) as [|NL]; [reflexivity|]. exfalso. apply NL. simpl. lra. }
  set (v := junction_v + junction_vt / 100).
  exists (pss_rows 2 1 (Pss.sample 1 x)), v. split; [|split].
  - unfold bf_solve. change (1 <? 1 * 2)%nat with true. cbv iota. destruct bf_iter; cbn [bf_loop]; rewrite STEP, CK; reflexivity.
  - unfold pss_report. assert (NM : names_of shunt_t (seq 1 (get_nodes_number shunt_t - 1)) = @Ok (list str) [lit "a"]) by (vm_compute; reflexivity). rewrite NM. cbn [bindr].
    change (op_size shunt_t junction_es) with 1%nat. cbn [filter junction_es is_vde map]. replace v with (x 0%nat) at 1 by (rewrite X0; unfold v; ring). replace v with (x 1%nat) by (rewrite X1; unfold v; ring). reflexivity.
  - unfold junction_i. cbn [hd default_tols Newton.t_iea]. replace (v / junction_vt) with (junction_v / junction_vt + / 100) by (unfold v, junction_vt; field).
    rewrite exp_plus. replace (junction_is * (exp (junction_v / junction_vt) * exp (/ 100) - 1)) with (junction_is * exp (junction_v / junction_vt) * exp (/ 100) - junction_is) by ring. rewrite junction_exp.
    assert (EX : (1 + / 200) * (1 + / 200) <= exp (/ 100)).
    { replace (/ 100) with (/ 200 + / 200) by field. rewrite exp_plus. pose proof (exp_ineq1 (/ 200) ltac:(lra)) as Q. apply Rmult_le_compat; lra. }
    assert (Q : junction_G * (1 + / 100) = 1 + junction_is) by (unfold junction_G; field; lra).
    assert (W : junction_G * ((1 + / 200) * (1 + / 200)) <= junction_G * exp (/ 100)) by (apply Rmult_le_compat_l; lra).
    assert (K : 20000 * / 10 ^ 9 <= / 50000) by (simpl; lra). nra.
Qed.
Print Assumptions C205_refuted.
