(** From the text of a netlist with diodes and transistors to the results of an AC analysis
    (C199, C200). *)
From Coq Require Import Ascii String Reals List Bool Arith ZArith Lia Lra.
From Verif Require Import Base BaseFacts Str Units Directive Lines Reader Netlist ModelLines Nodes NodesFacts Circuit CircuitFacts Rsum Mna MnaSpec MnaFacts DcSolve DcSolveFacts
  Newton NewtonFacts DynFacts Diode Mosq Ac AcFacts Stamp PropsStamp Csv PropsCsv Results PropsReader PropsNetlist PropsResults PropsDc PropsMna PropsAc Session Simulate
  PropsSimulate SimulateAc PropsSimulateAc SimulateDc PropsSimulateDc PropsSimulateOp SimulateTran PropsSimulateTran SimulateNl PropsSimulateNl SimulateAcNl.
Import ListNotations.
Open Scope R_scope.

(** * What a netlist with devices says about phasors *)
Section AcNlLaws.
  (** Whether the model of a transistor is a square-law one, and the derivatives of the
      currents of a device for the voltages of its drive ports: by pairs of terminals
      (in the order of [stamp_nodes]) or by drive port. *)
  Variables (square : pelem -> bool) (stamp : pelem -> list R -> nat -> nat -> R) (conductance : pelem -> list R -> nat -> R).
  (** The voltages of the operating point. *)
  Variable V0 : str -> R.

  Definition bias_of (e : pelem) : list R := map (fun p => V0 (fst p) - V0 (snd p)) (controls square e).
  Fixpoint port_current (g : nat -> R) (ps : list (str * str)) (k : nat) (V : str -> R) : R :=
    match ps with [] => 0 | p :: ps' => g k * (V (fst p) - V (snd p)) + port_current g ps' (S k) V end.
  (** The terminals of the devices described by a matrix of conductances. *)
  Definition terminals (e : pelem) : option (list str) :=
    match e with
    | PD _ anode cathode _ _ _ => Some [anode; cathode]
    | PM _ drain gate source bulk _ _ _ _ _ => if square e then Some [drain; gate; source; bulk] else None
    | _ => None
    end.
  (** The small-signal current that leaves the node called [n] through the device, one
      part (real or imaginary). *)
  Definition small1 (V : str -> R) (n : str) (e : pelem) : R :=
    match channel e with
    | None => 0
    | Some (a, b) =>
        match terminals e with
        | Some l => rsum (List.length l) (fun i => if streqb n (nth i l []) then rsum (List.length l) (fun j => stamp e (bias_of e) i j * V (nth j l [])) else 0)
        | None => ((if streqb n a then 1 else 0) - (if streqb n b then 1 else 0)) * port_current (conductance e (bias_of e)) (controls square e) 0 V
        end
    end.
  Fixpoint small (V : str -> R) (n : str) (l : list pelem) : R := match l with [] => 0 | e :: l' => small1 V n e + small V n l' end.

  Definition ac_nl_laws (w g c : R) (on : bool) (parts : list pelem) (Vr Vi Ir Ii : str -> R) : Prop :=
    Vr (lit "0") = 0 /\ Vi (lit "0") = 0 /\
    (forall n, In n (node_list parts) -> n <> lit "0" ->
       ac_leaving w on Vr Vi Ir Ii fst n parts + small Vr n parts + g * Vr n - w * c * Vi n = 0 /\
       ac_leaving w on Vr Vi Ir Ii snd n parts + small Vi n parts + g * Vi n + w * c * Vr n = 0) /\
    Forall (ac_law w on parts Vr Vi Ir Ii) parts.
  (** The laws have one solution and only one. *)
  Definition ac_nl_well_posed (w g c : R) (parts : list pelem) : Prop :=
    exists Vr Vi Ir Ii, ac_nl_laws w g c true parts Vr Vi Ir Ii /\
      forall Vr' Vi' Ir' Ii', ac_nl_laws w g c true parts Vr' Vi' Ir' Ii' ->
        (forall n, In n (node_list parts) -> Vr' n = Vr n /\ Vi' n = Vi n) /\ (forall id, In id (current_ids parts) -> Ir' id = Ir id /\ Ii' id = Ii id).
End AcNlLaws.
Lemma terminals_ok : forall square e, terminals square e = stamp_nodes square e.
Proof. destruct e; reflexivity. Qed.

(** * Lemmas *)

(** ** The Jacobian, row by row *)
Lemma total_row : forall size ns s i y, Forall (fun n => (n <= size)%nat) ns ->
  rsum size (fun c => PropsStamp.total ns s (S i) (S c) * y c) =
  rsum (List.length ns) (fun a => if (nth a ns 0 =? S i)%nat then rsum (List.length ns) (fun b => s a b * with_ground y (nth b ns 0%nat)) else 0).
Proof.
  intros size ns s i y F. unfold PropsStamp.total.
  transitivity (rsum size (fun c => rsum (List.length ns) (fun a => rsum (List.length ns) (fun b =>
    (if (nth a ns 0 =? S i)%nat && (nth b ns 0 =? S c)%nat then s a b else 0) * y c)))).
  { apply rsum_ext. intros c _. rewrite <- rsum_scal_r. apply rsum_ext. intros a _. rewrite <- rsum_scal_r. reflexivity. }
  rewrite rsum_swap. apply rsum_ext. intros a Ha. rewrite rsum_swap. destruct (nth a ns 0 =? S i)%nat; cbn [andb].
  - apply rsum_ext. intros b Hb. assert (B : (nth b ns 0 <= size)%nat) by (rewrite Forall_forall in F; apply F; apply nth_In; exact Hb).
    destruct (nth b ns 0%nat) as [|q]; cbn [with_ground].
    + rewrite Rmult_0_r. apply rsum_0. intros c _. cbn [Nat.eqb]. ring.
    + rewrite <- (rsum_dlt size q (fun c => s a b * y c)) by lia. apply rsum_ext. intros c _. unfold dlt. cbn [Nat.eqb]. rewrite Nat.eqb_sym.
      destruct (c =? q)%nat; ring.
  - apply rsum_0. intros b _. apply rsum_0. intros c _. ring.
Qed.

Section DevJ.
  Variables (square : pelem -> bool) (current : pelem -> list R -> R) (stamp : pelem -> list R -> nat -> nat -> R) (conductance : pelem -> list R -> nat -> R).
  Variable t : ntab.
  Hypothesis GR : grounded t.
  Variable size : nat.
  Hypothesis SZ : (get_nodes_number t - 1 <= size)%nat.

  Lemma numbers_nth : forall l ns, numbers t l = Ok ns -> List.length ns = List.length l /\ forall i, (i < List.length l)%nat -> at_node t (nth i l []) (nth i ns 0%nat).
  Proof.
    induction l as [|n l IH]; intros ns H; cbn [numbers] in H; [injection H as <-; split; [reflexivity|intros i Hi; cbn in Hi; lia]|].
    unfold number in H. destruct (ext_node_to_int t (ss n)) as [k|] eqn:A; [|discriminate H]. cbn [bindr] in H.
    destruct (numbers t l) as [r|]; [|discriminate H]. cbn [bindr] in H. injection H as <-. destruct (IH r eq_refl) as (L & IH'). cbn [List.length]. split; [congruence|].
    intros [|i] Hi; cbn [nth]; [exact A|apply IH'; lia].
  Qed.
  Lemma node_small : forall n k, at_node t n k -> (k <= size)%nat.
  Proof. intros n k A. assert ((k < get_nodes_number t)%nat) by (apply (grounded_range t k GR); eauto). lia. Qed.
  Lemma node_eq : forall n k c j, at_node t n k -> at_node t c j -> streqb n c = (j =? k)%nat.
  Proof.
    intros n k c j A C. destruct (list_eq_dec ascii_dec n c) as [->|N].
    - rewrite streqb_refl. pose proof (at_node_fun _ _ _ _ A C). subst k. symmetry. apply Nat.eqb_refl.
    - rewrite streqb_ne by exact N. symmetry. apply Nat.eqb_neq. intros ->. apply N. eapply at_node_inj; [apply GR|exact A|exact C].
  Qed.
  Lemma port_numbers_row : forall x g l r k, port_numbers t l = Ok r ->
    gsum g r k x = port_current g l k (volt t (with_ground x)) /\ Forall (fun p => (fst p <= size /\ snd p <= size)%nat) r.
  Proof.
    intros x g l. induction l as [|[a b] l IH]; intros r k H; cbn [port_numbers] in H; [injection H as <-; split; [reflexivity|constructor]|].
    unfold number in H. destruct (ext_node_to_int t (ss a)) as [i|] eqn:A; [|discriminate H]. cbn [bindr] in H.
    destruct (ext_node_to_int t (ss b)) as [j|] eqn:B; [|discriminate H]. cbn [bindr] in H.
    destruct (port_numbers t l) as [r'|]; [|discriminate H]. cbn [bindr] in H. injection H as <-. destruct (IH r' (S k) eq_refl) as (E & F). cbn [gsum port_current fst snd].
    split; [|constructor; [cbn [fst snd]; split; eapply node_small; eassumption|exact F]]. rewrite E. f_equal. f_equal.
    unfold drive_v, volt. rewrite A, B. cbn [fst snd].
    destruct i as [|i], j as [|j]; cbn [with_ground Nat.eqb Nat.sub]; rewrite ?Nat.sub_0_r; reflexivity.
  Qed.

  Let V (x : vec) := volt t (with_ground x).
  Definition small_at (test : str -> bool) (V0 V : str -> R) (e : pelem) : R :=
    match out_port e with
    | None => 0
    | Some (a, b) =>
        match stamp_nodes square e with
        | Some l => rsum (List.length l) (fun i => if test (nth i l []) then rsum (List.length l) (fun j => stamp e (bias_of square V0 e) i j * V (nth j l [])) else 0)
        | None => ((if test a then 1 else 0) - (if test b then 1 else 0)) * port_current (conductance e (bias_of square V0 e)) (drive_ports square e) 0 V
        end
    end.
  Lemma device_J_at : forall test x st st' e i y, device square current stamp conductance t x st e = Ok st' -> (forall c j, at_node t c j -> test c = (j =? S i)%nat) ->
    row size (fst st') i y = row size (fst st) i y + small_at test (V x) (V y) e.
  Proof.
    intros test x st st' e i y H TE. unfold device in H. unfold small_at. destruct (out_port e) as [[a b]|] eqn:OP; [|injection H as <-; ring].
    unfold number in H. destruct (ext_node_to_int t (ss a)) as [n1|] eqn:A; [|discriminate H]. cbn [bindr] in H.
    destruct (ext_node_to_int t (ss b)) as [n2|] eqn:B; [|discriminate H]. cbn [bindr] in H.
    destruct (port_numbers t (drive_ports square e)) as [dp|] eqn:DP; [|discriminate H]. cbn [bindr] in H.
    assert (DV : map (drive_v x) dp = bias_of square (V x) e) by (unfold bias_of; rewrite controls_ok; apply port_numbers_v; exact DP).
    destruct (stamp_nodes square e) as [l|].
    - destruct (numbers t l) as [ns|] eqn:NS; [|discriminate H]. cbn [bindr] in H. destruct (numbers_nth l ns NS) as (LN & NN).
      destruct (fancy_add_mat (fst st) _) as [J|] eqn:FA; [|discriminate H]. cbn [bindr] in H.
      destruct (fancy_add_vec (snd st) _) as [T|]; [|discriminate H]. cbn [bindr] in H. injection H as <-. cbn [fst]. rewrite DV in FA.
      assert (NZ : exists k, In k ns /\ k <> 0%nat).
      { destruct (existsb (fun k => negb (k =? 0)%nat) ns) eqn:EX.
        - apply existsb_exists in EX. destruct EX as (k & K & NK). exists k. split; [exact K|]. apply negb_true_iff, Nat.eqb_neq in NK. exact NK.
        - exfalso. assert (LI : live_indices ns = []).
          { assert (Z : forall k, In k ns -> k = 0%nat).
            { intros k K. destruct (Nat.eq_dec k 0) as [E|E]; [exact E|]. exfalso. assert (existsb (fun k => negb (k =? 0)%nat) ns = true); [|congruence].
              apply existsb_exists. exists k. split; [exact K|]. apply negb_true_iff, Nat.eqb_neq. exact E. }
            unfold live_indices, all_indices. destruct (filter _ _) as [|p l'] eqn:FI; [reflexivity|]. exfalso.
            assert (IP : In p (p :: l')) by (left; reflexivity). rewrite <- FI in IP. apply filter_In in IP. destruct IP as (IP & C).
            apply in_flat_map in IP. destruct IP as (r & R & IP). apply Z in R. subst r. apply in_map_iff in IP. destruct IP as (c & <- & _). discriminate C. }
          unfold gstamp_reduced in FA. rewrite LI in FA. discriminate FA. }
      destruct (C94_gstamp ns (stamp e (bias_of square (V x) e)) (fst st) NZ) as (J' & EJ & VJ). rewrite FA in EJ. injection EJ as <-.
      unfold row. transitivity (rsum size (fun c => fst st i c * y c + PropsStamp.total ns (stamp e (bias_of square (V x) e)) (S i) (S c) * y c)).
      { apply rsum_ext. intros c _. specialize (VJ (S i) (S c) ltac:(lia) ltac:(lia)). cbn [Nat.sub] in VJ. rewrite !Nat.sub_0_r in VJ. rewrite VJ. ring. }
      rewrite rsum_plus. f_equal. rewrite total_row.
      + rewrite LN. apply rsum_ext. intros p Hp. rewrite (TE _ _ (NN p Hp)). destruct (_ =? _)%nat; [|reflexivity].
        apply rsum_ext. intros q Hq. f_equal. unfold V, volt. pose proof (NN q Hq) as AQ. unfold at_node in AQ. rewrite AQ. reflexivity.
      + apply Forall_forall. intros k K. apply In_nth with (d := 0%nat) in K. destruct K as (p & Hp & <-). rewrite LN in Hp. eapply node_small. exact (NN p Hp).
    - injection H as <-. unfold upd_port. cbn [fst np_out snd np_g np_drive]. rewrite DV.
      destruct (port_numbers_row y (conductance e (bias_of square (V x) e)) (drive_ports square e) dp 0%nat DP) as (GS & F).
      rewrite upd_J_val by exact F. rewrite GS. fold (V y). f_equal. rewrite (TE a n1 A), (TE b n2 B). f_equal.
      assert (G : forall k, gdlt i k = if (k =? S i)%nat then 1 else 0).
      { intros [|k]; unfold gdlt, dlt; cbn [Nat.eqb]; [reflexivity|]. cbn [Nat.sub]. rewrite Nat.sub_0_r, Nat.eqb_sym. reflexivity. }
      rewrite !G. reflexivity.
  Qed.
  Lemma device_J : forall x st st' e n i y, device square current stamp conductance t x st e = Ok st' -> at_node t n (S i) ->
    row size (fst st') i y = row size (fst st) i y + small1 square stamp conductance (V x) (V y) n e.
  Proof.
    intros x st st' e n i y H At. unfold small1. rewrite channel_ok, terminals_ok, controls_ok. apply (device_J_at (streqb n) x st st' e i y H). intros c j C. apply node_eq; assumption. Qed.
  Lemma devices_J_row : forall parts x JT n i y, devices square current stamp conductance t parts x = Ok JT -> at_node t n (S i) ->
    row size (fst JT) i y = small square stamp conductance (V x) (V y) n parts.
  Proof.
    intros parts x JT n i y H At. unfold devices in H.
    assert (K : forall l st st', device_loop square current stamp conductance t x l st = Ok st' ->
      row size (fst st') i y = row size (fst st) i y + small square stamp conductance (V x) (V y) n l).
    { induction l as [|e l IH]; intros st st' Q; cbn [device_loop small] in *; [injection Q as <-; ring|].
      destruct (device square current stamp conductance t x st e) as [st1|] eqn:D; [|discriminate Q]. cbn [bindr] in Q.
      rewrite (IH st1 st' Q), (device_J x st st1 e n i y D At). ring. }
    rewrite (K _ _ _ H). cbn [fst]. replace (row size mzero i y) with 0; [ring|]. symmetry. unfold row. apply rsum_0. intros; unfold mzero; ring.
  Qed.
  Lemma devices_J_far : forall parts x JT i y, devices square current stamp conductance t parts x = Ok JT -> (forall n k, at_node t n k -> (k < S i)%nat) ->
    row size (fst JT) i y = 0.
  Proof.
    intros parts x JT i y H FAR. unfold devices in H.
    assert (Z : forall e, small_at (fun _ => false) (V x) (V y) e = 0).
    { intros e. unfold small_at. destruct (out_port e) as [[a b]|]; [|reflexivity]. destruct (stamp_nodes square e); [apply rsum_0; reflexivity|ring]. }
    assert (K : forall l st st', device_loop square current stamp conductance t x l st = Ok st' -> row size (fst st') i y = row size (fst st) i y).
    { induction l as [|e l IH]; intros st st' Q; cbn [device_loop] in *; [injection Q as <-; reflexivity|].
      destruct (device square current stamp conductance t x st e) as [st1|] eqn:D; [|discriminate Q]. cbn [bindr] in Q.
      rewrite (IH st1 st' Q), (device_J_at (fun _ => false) x st st1 e i y D), Z; [ring|].
      intros c j C. apply FAR in C. symmetry. apply Nat.eqb_neq. lia. }
    rewrite (K _ _ _ H). unfold row. apply rsum_0. intros; cbn [fst]; unfold mzero; ring.
  Qed.
End DevJ.

(** ** A matrix as ports *)
Definition as_ports (nv size : nat) (J : mat) : list nlport :=
  map (fun i => mkPort (S i, 0)%nat (map (fun j => (S j, 0)%nat) (seq 0 size)) (fun _ => 0) (fun _ k => J i k)) (seq 0 (nv - 1)).
Lemma as_ports_current : forall g size k0 y, lin_current g (map (fun j => (S j, 0)%nat) (seq k0 size)) k0 (with_ground y) = rsum size (fun j => g (k0 + j)%nat * y (k0 + j)%nat).
Proof.
  intros g size. induction size as [|size IH]; intros k0 y; [reflexivity|]. cbn [seq map lin_current with_ground]. rewrite IH, rsum_shift, Nat.add_0_r. f_equal; [ring|].
  apply rsum_ext. intros j _. rewrite Nat.add_succ_r. reflexivity.
Qed.
Lemma as_ports_row : forall nv size J xop i y, small_signal (as_ports nv size J) xop (S i) (with_ground y) = if (i <? nv - 1)%nat then row size J i y else 0.
Proof.
  intros nv size J xop i y. unfold small_signal, as_ports.
  assert (K : forall m k0, lsum (fun p => ((if (fst (np_out p) =? S i)%nat then 1 else 0) - (if (snd (np_out p) =? S i)%nat then 1 else 0))
    * lin_current (np_g p (map (fun q => xop (fst q) - xop (snd q)) (np_drive p))) (np_drive p) 0 (with_ground y))
    (map (fun i => mkPort (S i, 0)%nat (map (fun j => (S j, 0)%nat) (seq 0 size)) (fun _ => 0) (fun _ k => J i k)) (seq k0 m))
    = if (k0 <=? i)%nat && (i <? k0 + m)%nat then row size J i y else 0).
  { induction m as [|m IH]; intros k0; [cbn [seq map lsum]; destruct (Nat.leb_spec k0 i), (Nat.ltb_spec i (k0 + 0)); cbn [andb]; try reflexivity; lia|].
    cbn [seq map lsum np_out np_g np_drive fst snd]. rewrite IH, as_ports_current. cbn [Nat.eqb].
    destruct (Nat.eqb_spec k0 i) as [->|NE].
    - replace (rsum size (fun j => J i (0 + j)%nat * y (0 + j)%nat)) with (row size J i y) by reflexivity.
      destruct (Nat.leb_spec (S i) i), (Nat.leb_spec i i), (Nat.ltb_spec i (i + S m)); cbn [andb]; try lia; ring.
    - destruct (Nat.leb_spec (S k0) i), (Nat.leb_spec k0 i), (Nat.ltb_spec i (k0 + S m)), (Nat.ltb_spec i (S k0 + m)); cbn [andb]; try lia; ring. }
  rewrite K. cbn [Nat.leb andb Nat.add]. reflexivity.
Qed.

(** ** The points *)
Lemma ac_points_circuit : forall o maxit fuel csolve cmin gmin nv es ph xop J m N AC ws x0 rows,
  let size := (nv + n_vde es - 1)%nat in
  o_std o = true -> csolver_ok size csolve ->
  (0 < nv)%nat -> wf_circ nv es -> NoDup (map (fun e => upper (lid e)) (vdes es)) -> Forall (wf_coupling es) es ->
  generate_mna_and_N nv es = Ok (m, N) -> generate_AC cmin nv es = Ok AC ->
  (forall i y, (nv - 1 <= i)%nat -> row size J i y = 0) ->
  ac_points o false maxit fuel csolve size (reduce_mat m) (reduce_mat AC) J (build_gmin_matrix nv gmin)
    (reduce_vec (fst (generate_Nac nv ph es)), reduce_vec (snd (generate_Nac nv ph es))) ws x0 [] = Ok (Some rows) ->
  map fst rows = map (fun w => w / Rtrigo1.PI / 2) ws /\
  let sol ph g f (x : cvec) := ac_solution nv es (as_ports nv size J) ph (with_ground xop) g (if Rlt_dec 0 cmin then cmin else 0) (2 * Rtrigo1.PI * f)
                                 (with_ground (fst x)) (with_ground (snd x)) in
  forall f x, In (f, x) rows ->
    sol ph gmin f x \/
    sol ph 0 f x /\ exists z i, sol (fun _ => None) gmin f z /\ (i < size)%nat /\ (fst z i <> 0 \/ snd z i <> 0).
Proof.
  intros o maxit fuel csolve cmin gmin nv es ph xop J m N AC ws x0 rows size STD OK P W ND WK G GA JZ AP.
  destruct (ac_points_ok _ _ _ _ _ _ _ _ _ _ OK STD _ _ _ _ AP) as (xs & -> & LEN & F). cbn [app]. split.
  { clear -LEN. revert xs LEN. induction ws as [|w ws IH]; intros [|y xs] LEN; try discriminate LEN; [reflexivity|]. injection LEN as LEN. cbn [map combine fst]. f_equal. apply IH. exact LEN. }
  assert (PO : Forall (port_ok size) (as_ports nv size J)).
  { apply Forall_forall. intros p H. unfold as_ports in H. apply in_map_iff in H. destruct H as (i & <- & _). unfold port_ok. cbn [np_drive]. apply Forall_forall.
    intros q H. apply in_map_iff in H. destruct H as (j & <- & H). apply in_seq in H. cbn [fst snd]. lia. }
  assert (PN : Forall (fun p => (fst (np_out p) < nv /\ snd (np_out p) < nv)%nat) (as_ports nv size J)).
  { apply Forall_forall. intros p H. unfold as_ports in H. apply in_map_iff in H. destruct H as (i & <- & H). apply in_seq in H. cbn [np_out fst snd]. lia. }
  assert (JJ : forall i y, row size J i y = row size (generate_J (as_ports nv size J) xop) i y).
  { intros i y. rewrite small_signal_row by exact PO. rewrite as_ports_row. destruct (Nat.ltb_spec i (nv - 1)); [reflexivity|]. apply JZ. lia. }
  cbv zeta. intros f x IN.
  assert (PT : point_ok size (reduce_mat m) (reduce_mat AC) J (build_gmin_matrix nv gmin) (reduce_vec (fst (generate_Nac nv ph es)), reduce_vec (snd (generate_Nac nv ph es))) (2 * Rtrigo1.PI * f) x).
  { clear -F IN. revert f x IN. induction F as [|w z ws xs P F IH]; intros f y IN; [destruct IN|].
    destruct IN as [E|IN]; [|apply IH; exact IN]. injection E as <- <-.
    replace (2 * Rtrigo1.PI * (w / Rtrigo1.PI / 2)) with w by (field; apply PI_neq0). exact P. }
  destruct PT as [[_ S]|(SG & _ & S)].
  - left. eapply system_is_circuit; eauto.
  - right. split; [eapply system_is_circuit; eauto 6|]. destruct SG as (z & (i & L & NZ) & Z). exists z, i.
    split; [|split; assumption]. eapply system_is_circuit; eauto. exists RStd. split; [left; auto|].
    intros j Lj. destruct (Z j Lj) as [Z1 Z2]. fold size. rewrite Z1, Z2. unfold generate_Nac, reduce_vec. cbn [fst snd re_of im_of].
    change (fun _ : lelem => re_of None) with (fun _ : lelem => @None R). rewrite !no_sources. split; lra.
Qed.

(** ** The linear part *)
Lemma lin_nac : forall nv f es, nac_part nv f (filter linl es) = nac_part nv f es.
Proof.
  intros nv f es. unfold nac_part.
  assert (A : forall l v, fold_left (nac_i f) (filter linl l) v = fold_left (nac_i f) l v).
  { induction l as [|e l IH]; intros v; [reflexivity|]. destruct e; cbn [filter linl fold_left nac_i]; apply IH. }
  rewrite A. generalize 0%nat (fold_left (nac_i f) es vzero). induction es as [|e es IH]; intros k v; [reflexivity|].
  destruct e; cbn [filter linl nac_v is_vde]; apply IH.
Qed.
Lemma lin_AC : forall cmin nv es, generate_AC cmin nv (filter linl es) = generate_AC cmin nv es.
Proof.
  intros cmin nv es. unfold generate_AC. f_equal.
  assert (K : forall l k d, dyn_loop nv (filter linl es) (filter linl l) k d = dyn_loop nv es l k d); [|apply K].
  induction l as [|e l IH]; intros k d; [reflexivity|].
  destruct e; cbn [filter linl dyn_loop is_vde]; try apply IH.
  rewrite lin_couplings, lin_add_couplings. destruct (add_couplings _ _ _ _ _ _); [|reflexivity]. cbn [bindr]. apply IH.
Qed.
Lemma lin_ac_leaving : forall w on Vr Vi Ir Ii part n parts, part (0, 0) = 0 ->
  ac_leaving w on Vr Vi Ir Ii part n (filter linp parts) = ac_leaving w on Vr Vi Ir Ii part n parts.
Proof.
  intros w on Vr Vi Ir Ii part n parts Z. induction parts as [|e parts IH]; [reflexivity|].
  destruct e; cbn [filter linp ac_leaving]; rewrite IH; try reflexivity.
  all: unfold ac_leaving1; cbn [ac_through]; rewrite Z; repeat match goal with |- context [if ?b then _ else _] => destruct b end; ring.
Qed.
Lemma lin_ac_law : forall w on parts Vr Vi Ir Ii, Forall (ac_law w on (filter linp parts) Vr Vi Ir Ii) (filter linp parts) -> Forall (ac_law w on parts Vr Vi Ir Ii) parts.
Proof.
  intros w on parts Vr Vi Ir Ii F. apply Forall_forall. intros e IE. destruct (linp e) eqn:L.
  - assert (K : In e (filter linp parts)) by (apply filter_In; auto). rewrite Forall_forall in F. apply F in K. destruct e; cbn [ac_law] in *; rewrite ?lin_linked in K; exact K.
  - destruct e; try discriminate L; exact Logic.I.
Qed.
Lemma port_current_add : forall g ps k V W, port_current g ps k (fun n => V n + W n) = port_current g ps k V + port_current g ps k W.
Proof. intros g ps. induction ps as [|p ps IH]; intros k V W; cbn [port_current]; [ring|]. rewrite IH. ring. Qed.
Lemma small_add : forall square stamp conductance V0 V W n l, small square stamp conductance V0 (fun n => V n + W n) n l
  = small square stamp conductance V0 V n l + small square stamp conductance V0 W n l.
Proof.
  intros square stamp conductance V0 V W n l. induction l as [|e l IH]; cbn [small]; [ring|]. rewrite IH.
  assert (K : small1 square stamp conductance V0 (fun n => V n + W n) n e = small1 square stamp conductance V0 V n e + small1 square stamp conductance V0 W n e); [|rewrite K; ring].
  unfold small1. destruct (channel e) as [[a b]|]; [|ring]. destruct (terminals square e) as [ns|].
  - rewrite <- rsum_plus. apply rsum_ext. intros i _. destruct (streqb n (nth i ns [])); [|ring]. rewrite <- rsum_plus. apply rsum_ext. intros j _. ring.
  - rewrite port_current_add. ring.
Qed.
Lemma ac_nl_add : forall square stamp conductance V0 w g c parts Vr Vi Ir Ii Zr Zi Yr Yi,
  ac_nl_laws square stamp conductance V0 w g c true parts Vr Vi Ir Ii -> ac_nl_laws square stamp conductance V0 w g c false parts Zr Zi Yr Yi ->
  ac_nl_laws square stamp conductance V0 w g c true parts (fun n => Vr n + Zr n) (fun n => Vi n + Zi n) (fun n => Ir n + Yr n) (fun n => Ii n + Yi n).
Proof.
  intros square stamp conductance V0 w g c parts Vr Vi Ir Ii Zr Zi Yr Yi (A1 & A2 & A3 & A4) (B1 & B2 & B3 & B4).
  split; [lra|]. split; [lra|]. split.
  - intros n H NG. destruct (A3 n H NG), (B3 n H NG). destruct (ac_leaving_add w Vr Vi Ir Ii Zr Zi Yr Yi n parts) as (T1 & T2). rewrite T1, T2, !small_add. lra.
  - rewrite Forall_forall in *. intros e H. apply ac_law_add; auto.
Qed.

(** * C199 *)
Theorem C199_ac_devices : forall fs other fuel filename parts t es, load fs other fuel filename = Ok (parts, t, es) ->
  (* nothing is said of subcircuits and user-defined elements, except that names are words in lower case *)
  (forall line l, other line = Ok l -> Forall word_names l) ->
  Forall (nl_sound parts) parts -> has_device parts ->
  forall square current stamp conductance csolve o maxit fuel' cmin gmin angle op start stop points stype x0 rows,
  csolver_ok (op_size t es) csolve -> is_angle angle -> o_std o = true ->
  ac_nl_run square current stamp conductance csolve o false maxit fuel' cmin gmin parts t es op start stop points stype x0 = Ok (Some rows) ->
  let c := Rmax 0 cmin in
  let report := ac_report angle false t es rows in
  exists ws xop V0, omegas fuel' start stop points stype = Ok ws /\
    (* the operating point: the one supplied, or else the one computed *)
    match x0 with Some x => xop = x | None => op = Ok (Some xop) end /\
    V0 (lit "0") = 0 /\ (forall n name, In n (node_list parts) -> n <> lit "0" -> slower name = slower (lit "V" ++ n) -> op_report t es xop name = Ok (V0 n)) /\
    (* the results *)
    (forall name, slower name = lit "f" -> report name = Ok (map (fun w => (w / (2 * Rtrigo1.PI), 0)) ws)) /\
    ((forall w, In w ws -> ac_nl_well_posed square stamp conductance V0 w gmin c parts) ->
     (forall n name, In n (node_list parts) -> n <> lit "0" -> slower name = slower (lit "V" ++ n) ->
        exists l, report name = Ok l /\
          Forall2 (fun w z => forall Vr Vi Ir Ii, ac_nl_laws square stamp conductance V0 w gmin c true parts Vr Vi Ir Ii -> z = (Vr n, Vi n)) ws l) /\
     (forall id name, In id (current_ids parts) -> slower name = slower (lit "I(" ++ id ++ lit ")") ->
        exists l, report name = Ok l /\
          Forall2 (fun w z => forall Vr Vi Ir Ii, ac_nl_laws square stamp conductance V0 w gmin c true parts Vr Vi Ir Ii -> z = (Ir id, Ii id)) ws l)).
Proof.
  intros fs other fuel filename parts t es LD OT SO HD square current stamp conductance csolve o maxit fuel' cmin gmin angle op start stop points stype x0 rows CS AN OS RUN c report.
  assert (OL : forall line l, other line = Ok l -> Forall lower_case l) by (intros line l H; eapply Forall_impl; [|exact (OT line l H)]; intros e He; apply He).
  assert (OP : forall line l, other line = Ok l -> Forall plain_names l) by (intros line l H; eapply Forall_impl; [|exact (OT line l H)]; intros e He; apply He).
  pose proof (load_lower _ _ _ _ _ _ _ OL LD) as LC. pose proof (load_registered _ _ _ _ _ _ _ LD) as REG. pose proof (load_plain _ _ _ _ _ _ _ OP LD) as PN.
  destruct (load_facts _ _ _ _ _ _ _ LD) as (G & NV & PL & ND & MEN).
  destruct (nl_names t parts es G PL LC ND MEN REG) as (ns & NS & LN & DN & PNS & IDS & DI & PIS & LEN & IDX). specialize (PNS PN). specialize (PIS PN).
  pose proof (grounded_number t G) as NZ. pose proof (device_nonlinear t parts es PL HD) as NLE. set (nv := get_nodes_number t) in *.
  assert (SZ : op_size t es = (List.length ns + List.length (current_ids parts))%nat) by (unfold op_size; fold nv; lia).
  (* the run *)
  unfold ac_nl_run in RUN. fold nv in RUN. destruct (omegas fuel' start stop points stype) as [ws|] eqn:OM; [|discriminate RUN]. cbn [bindr] in RUN.
  destruct (generate_mna_and_N nv es) as [[m N]|] eqn:GE; [|discriminate RUN]. cbn [bindr fst] in RUN.
  destruct (generate_AC cmin nv es) as [AC|] eqn:GA; [|discriminate RUN]. cbn [bindr] in RUN. cbv zeta in RUN. rewrite NLE in RUN.
  assert (XO : exists xop JT, match x0 with Some x => xop = x | None => op = Ok (Some xop) end /\ devices square current stamp conductance t parts xop = Ok JT /\ ws <> [] /\
    ac_points o false maxit fuel' csolve (op_size t es) (reduce_mat m) (reduce_mat AC) (fst JT) (build_gmin_matrix nv gmin)
      (reduce_vec (fst (generate_Nac nv (ac_ph parts) es)), reduce_vec (snd (generate_Nac nv (ac_ph parts) es))) ws (xop, vzero) [] = Ok (Some rows)).
  { assert (K : forall x, bindr (devices_J square current stamp conductance t parts x) (fun J => match ws with [] => Err UnboundLocal
        | _ :: _ => ac_points o false maxit fuel' csolve (op_size t es) (reduce_mat m) (reduce_mat AC) J (build_gmin_matrix nv gmin)
            (reduce_vec (fst (generate_Nac nv (ac_ph parts) es)), reduce_vec (snd (generate_Nac nv (ac_ph parts) es))) ws (x, vzero) [] end) = Ok (Some rows) ->
      exists JT, devices square current stamp conductance t parts x = Ok JT /\ ws <> [] /\
        ac_points o false maxit fuel' csolve (op_size t es) (reduce_mat m) (reduce_mat AC) (fst JT) (build_gmin_matrix nv gmin)
          (reduce_vec (fst (generate_Nac nv (ac_ph parts) es)), reduce_vec (snd (generate_Nac nv (ac_ph parts) es))) ws (x, vzero) [] = Ok (Some rows)).
    { intros x H. unfold devices_J in H. destruct (devices square current stamp conductance t parts x) as [JT|]; [|discriminate H]. cbn [bindr] in H.
      destruct ws; [discriminate H|]. exists JT. split; [reflexivity|]. split; [discriminate|exact H]. }
    destruct x0 as [x|]; cbn [bindr] in RUN.
    - destruct (K x RUN) as (JT & K'). exists x, JT. split; [reflexivity|exact K'].
    - destruct op as [[x|]|]; cbn [bindr] in RUN; try discriminate RUN. destruct (K x RUN) as (JT & K'). exists x, JT. split; [reflexivity|exact K']. }
  destruct XO as (xop & JT & XOP & DEV & WNE & AP). clear RUN.
  set (V := fun (x : vec) n => volt t (with_ground x) n). set (A := fun (x : vec) id => amp nv es (with_ground x) id).
  exists ws, xop, (V xop). split; [reflexivity|]. split; [exact XOP|].
  assert (V0 : forall x, V x (lit "0") = 0) by (intros x; unfold V, volt; pose proof (proj2 G) as GZ; unfold at_node in GZ; rewrite GZ; reflexivity).
  split; [apply V0|].
  assert (XV : forall x n i, at_node t n i -> with_ground x i = V x n) by (intros x n i H; unfold V, volt; unfold at_node in H; rewrite H; reflexivity).
  destruct (op_values t es ns (current_ids parts) xop NS IDS DN DI SZ) as (O1 & _).
  split.
  { intros n name H NG E. destruct (IDX n H NG) as (i & NI & At). rewrite (O1 i n name NI E). f_equal. rewrite <- (XV xop n (S i) At). reflexivity. }
  (* the linear part *)
  pose proof (lin_placed written_dc t parts es PL) as PLL. pose proof (lin_sound parts SO) as LS. pose proof (lin_proper parts LC SO) as LP. pose proof (lin_nodup parts ND) as LND.
  pose proof (proj1 (proper_wf written_dc t _ _ G PLL LP)) as W. pose proof (tr_vdes t _ _ PLL LP LND) as NDV. pose proof (tr_coupling t _ _ PLL LP LS) as WK. fold nv in W.
  assert (SZC : (nv + n_vde (filter linl es) - 1)%nat = op_size t es) by (rewrite lin_n_vde; reflexivity).
  assert (FAR : forall i y, (nv - 1 <= i)%nat -> row (op_size t es) (fst JT) i y = 0).
  { intros i y Hi. apply (devices_J_far square current stamp conductance t G (op_size t es) ltac:(unfold op_size; fold nv; lia) parts xop JT i y DEV).
    intros n k At. assert ((k < nv)%nat) by (apply (grounded_range t k G); eauto). lia. }
  assert (NACE : generate_Nac nv (ac_ph parts) es = generate_Nac nv (ac_ph parts) (filter linl es)) by (unfold generate_Nac; rewrite !lin_nac; reflexivity).
  rewrite NACE in AP.
  pose proof (ac_points_circuit o maxit fuel' csolve cmin gmin nv (filter linl es) (ac_ph parts) xop (fst JT) m N AC ws (xop, vzero) rows) as PC. cbv zeta in PC. rewrite SZC in PC.
  destruct (PC OS CS NZ W NDV WK) as (MF & PT); [rewrite lin_system; exact GE|rewrite lin_AC; exact GA|exact FAR|exact AP|]. clear PC.
  assert (NE : rows <> []) by (intros E; subst rows; destruct ws; [congruence|discriminate MF]).
  destruct (ac_table angle t es ns (current_ids parts) rows AN NS IDS DN DI PNS PIS SZ NE) as (T0 & T1 & T2).
  assert (FW : Forall2 (fun w (r : R * cvec) => 2 * Rtrigo1.PI * fst r = w /\ fst r = w / (2 * Rtrigo1.PI) /\ In r rows) ws rows).
  { assert (K : forall l l', map fst l' = map (fun w => w / Rtrigo1.PI / 2) l -> incl l' rows ->
        Forall2 (fun w (r : R * cvec) => 2 * Rtrigo1.PI * fst r = w /\ fst r = w / (2 * Rtrigo1.PI) /\ In r rows) l l').
    { induction l as [|w l IH]; intros [|r l'] E IN; try discriminate E; constructor.
      - cbn [map] in E. injection E as E _. rewrite E. split; [field; apply PI_neq0|]. split; [field; apply PI_neq0|apply IN; left; reflexivity].
      - cbn [map] in E. injection E as _ E. apply IH; [exact E|]. intros z Z. apply IN. right. exact Z. }
    apply K; [exact MF|apply incl_refl]. }
  split.
  { intros name E. unfold report. rewrite (T0 name E). f_equal. clear - FW. induction FW as [|w r ws' rows' (_ & E & _) F IH]; [reflexivity|]. cbn [map]. rewrite IH, E. reflexivity. }
  intros WP.
  assert (CM : (if Rlt_dec 0 cmin then cmin else 0) = c).
  { unfold c, Rmax. destruct (Rlt_dec 0 cmin), (Rle_dec 0 cmin); lra. }
  rewrite CM in PT.
  assert (INL : forall e, In e (filter linp parts) -> In e parts) by (intros e H; apply filter_In in H; apply H).
  assert (PHon : forall e l, In e (filter linp parts) -> placed written_dc t e l -> ac_ph parts l = if true then ac_field e else None).
  { intros e l IE P. apply ac_ph_ok; [exact ND|apply INL; exact IE|]. apply (placed_lid written_dc t e l P). }
  assert (PHoff : forall (e : pelem) (l : lelem), In e (filter linp parts) -> placed written_dc t e l -> (fun _ => None) l = if false then ac_field e else None) by reflexivity.
  assert (XI : forall x k id, nth_error (current_ids parts) k = Some id -> with_ground x (nv + k)%nat = A x id).
  { intros x k id H. pose proof (nl_XI t parts es G PL LC SO ND x k id H) as Q. cbv beta zeta in Q. fold nv in Q. unfold A. rewrite <- Q. replace (nv + k)%nat with (S (nv - 1 + k)) by lia. reflexivity. }
  assert (XIl : forall x k id, nth_error (current_ids (filter linp parts)) k = Some id -> with_ground x (nv + k)%nat = A x id) by (intros x k id H; rewrite lin_ids in H; apply XI; exact H).
  assert (NAMED : forall (on : bool) (phs : phasors), (forall e l, In e (filter linp parts) -> placed written_dc t e l -> phs l = if on then ac_field e else None) -> forall (g w : R) (x : cvec),
    ac_solution nv (filter linl es) (as_ports nv (op_size t es) (fst JT)) phs (with_ground xop) g c w (with_ground (fst x)) (with_ground (snd x)) ->
    ac_nl_laws square stamp conductance (V xop) w g c on parts (V (fst x)) (V (snd x)) (A (fst x)) (A (snd x))).
  { intros on phs PH g w x SL.
    destruct (ac_named_ports t (filter linp parts) (filter linl es) on phs G PLL LP LS LND PH _ _ _ _ _ _ _ (V (fst x)) (V (snd x)) (A (fst x)) (A (snd x)) (XV _) (XV _) (XIl _) (XIl _) SL) as (K & B).
    split; [apply V0|]. split; [apply V0|]. split; [|apply lin_ac_law; exact B].
    intros n H NG. destruct (nl_nodes t parts es G REG n H NG) as (i & At & Hi). destruct (K n i At) as (K1 & K2).
    rewrite !lin_ac_leaving in K1, K2 by reflexivity. rewrite as_ports_row in K1, K2. fold nv in Hi. rewrite (proj2 (Nat.ltb_lt _ _) Hi) in K1, K2.
    assert (SZN : (get_nodes_number t - 1 <= op_size t es)%nat) by (unfold op_size; fold nv; lia).
    rewrite (devices_J_row square current stamp conductance t G (op_size t es) SZN parts xop JT n i _ DEV At) in K1.
    rewrite (devices_J_row square current stamp conductance t G (op_size t es) SZN parts xop JT n i _ DEV At) in K2. split; assumption. }
  assert (MAIN : forall f x, In (f, x) rows -> ac_nl_well_posed square stamp conductance (V xop) (2 * Rtrigo1.PI * f) gmin c parts ->
    forall Vr Vi Ir Ii, ac_nl_laws square stamp conductance (V xop) (2 * Rtrigo1.PI * f) gmin c true parts Vr Vi Ir Ii ->
      (forall n, In n (node_list parts) -> V (fst x) n = Vr n /\ V (snd x) n = Vi n) /\ (forall id, In id (current_ids parts) -> A (fst x) id = Ir id /\ A (snd x) id = Ii id)).
  { intros f x IN (V1 & V2 & I1 & I2 & L & UN) Vr Vi Ir Ii L'. destruct (UN _ _ _ _ L') as (U1 & U2).
    destruct (PT f x IN) as [SL|(_ & z & i & SL & Hi & NZ')].
    - pose proof (NAMED true (ac_ph parts) PHon _ _ _ SL) as K. destruct (UN _ _ _ _ K) as (U3 & U4).
      split; [intros n H; destruct (U1 n H), (U3 n H)|intros id H; destruct (U2 id H), (U4 id H)]; split; congruence.
    - exfalso.
      pose proof (NAMED false (fun _ => None) PHoff _ _ _ SL) as K. pose proof (ac_nl_add _ _ _ _ _ _ _ _ _ _ _ _ _ _ _ _ L K) as K2. destruct (UN _ _ _ _ K2) as (U3 & U4).
      assert (fst z i = 0 /\ snd z i = 0) as (Q1 & Q2); [|destruct NZ'; congruence].
      destruct (lt_dec (S i) nv) as [IN'|OUT].
      + pose proof (proj1 (grounded_range t (S i) G) IN') as (n & At). destruct (U3 n (MEN n _ At)) as (U5 & U6). cbv beta in U5, U6.
        rewrite <- (XV (fst z) _ _ At) in U5. rewrite <- (XV (snd z) _ _ At) in U6. cbn [with_ground] in U5, U6. lra.
      + assert (Kl : (S i - nv < List.length (current_ids parts))%nat) by (rewrite LEN; unfold op_size in Hi; fold nv in Hi; lia).
        destruct (nth_error (current_ids parts) (S i - nv)) as [id|] eqn:E; [|apply nth_error_None in E; lia].
        destruct (U4 id (nth_error_In _ _ E)) as (U5 & U6). cbv beta in U5, U6.
        rewrite <- (XI (fst z) _ _ E) in U5. rewrite <- (XI (snd z) _ _ E) in U6. replace (nv + (S i - nv))%nat with (S i) in U5, U6 by lia. cbn [with_ground] in U5, U6. lra. }
  split.
  - intros n name H NG E. destruct (IDX n H NG) as (k & Ek & At). eexists. split; [exact (T1 k n name Ek E)|].
    clear - FW MAIN H At XV WP. revert WP. induction FW as [|w r ws' rows' (E1 & _ & IN) F IH]; intros WP; [constructor|]. cbn [map].
    constructor; [|apply IH; intros w' Hw; apply WP; right; exact Hw].
    intros Vr Vi Ir Ii L. destruct r as (f, x). cbn [fst snd] in *. subst w. destruct (MAIN f x IN (WP _ (or_introl eq_refl)) _ _ _ _ L) as (M & _). destruct (M n H) as (M1 & M2).
    rewrite <- (XV (fst x) _ _ At) in M1. rewrite <- (XV (snd x) _ _ At) in M2. cbn [with_ground] in M1, M2. cbn [fst snd]. f_equal; assumption.
  - intros id name H E. apply In_nth_error in H. destruct H as (k & H). eexists. split; [exact (T2 k id name H E)|].
    clear - FW MAIN H XI WP LN NZ. revert WP. induction FW as [|w r ws' rows' (E1 & _ & IN) F IH]; intros WP; [constructor|]. cbn [map].
    constructor; [|apply IH; intros w' Hw; apply WP; right; exact Hw].
    intros Vr Vi Ir Ii L. destruct r as (f, x). cbn [fst snd] in *. subst w. destruct (MAIN f x IN (WP _ (or_introl eq_refl)) _ _ _ _ L) as (_ & M).
    destruct (M id (nth_error_In _ _ H)) as (M1 & M2). rewrite <- (XI (fst x) _ _ H) in M1. rewrite <- (XI (snd x) _ _ H) in M2.
    replace (nv + k)%nat with (S (List.length ns + k)) in M1, M2 by lia. cbn [with_ground] in M1, M2. cbn [fst snd]. f_equal; assumption.
Qed.
Print Assumptions C199_ac_devices.

(** ** Examples: one node, at 1 Hz *)
Lemma one_node_run : forall square current stamp conductance parts es op m N AC xop J, generate_mna_and_N 2 es = Ok (m, N) -> generate_AC 0 2 es = Ok AC -> nonlinear es = true ->
  n_vde es = 0%nat -> op = Ok (Some xop) -> devices_J square current stamp conductance shunt_t parts xop = Ok J -> m 1%nat 1%nat + J 0%nat 0%nat <> 0 ->
  exists x, ac_nl_run square current stamp conductance csolve1 ac_opts false 20 5 0 0 parts shunt_t es op 1 1 1 (Some "lin"%string) None = Ok (Some [(1, x)]).
Proof.
  intros square current stamp conductance parts es op m N AC xop J GE GA NL NV -> DJ NZ.
  unfold ac_nl_run. change (get_nodes_number shunt_t) with 2%nat. rewrite one_omega, GE, GA, NL. cbn [bindr fst]. cbv zeta. rewrite DJ. cbn [bindr].
  assert (SZ : op_size shunt_t es = 1%nat) by (unfold op_size; rewrite NV; reflexivity). rewrite SZ.
  cbn [ac_points]. unfold dc_solve.
  change (set_next_solve_method ac_opts get_solve_methods) with (mkMeths true false false false 0 false false 0).
  cbn [dc_loop current_req std_en length]. unfold mdn_ac at 1. unfold csolve1 at 1.
  assert (E1 : fst (ac_sys (reduce_mat m) (reduce_mat AC) J (build_gmin_matrix 2 0) (2 * Rtrigo1.PI * 1) RStd) 0%nat 0%nat = m 1%nat 1%nat + J 0%nat 0%nat).
  { cbn [ac_sys fst]. unfold reduce_mat. unfold build_gmin_matrix. simpl. unfold mset, mzero. simpl. ring. }
  rewrite E1. match goal with |- context [Req_EM_T ?u 0] => destruct (Req_EM_T u 0) as [Z|_] end.
  { exfalso. match type of Z with ?p * ?p + ?q * ?q = 0 => pose proof (Rle_0_sqr q) as Q; pose proof (Rsqr_pos_lt p NZ) as P; unfold Rsqr in Q, P; lra end. }
  cbn [advance s_en g_en andb app]. replace (2 * Rtrigo1.PI * 1 / Rtrigo1.PI / 2) with 1 by (field; apply PI_neq0). eexists. reflexivity.
Qed.

(** The circuit of C197 with a signal of 8 A: at 1 V the device has a conductance of 3 S. *)
Definition ac_clamp : list str := [lit "clamp"; lit "R1 A 0 1"; lit "I1 0 a type=idc idc=2 iac=8"; lit "D1 a 0 dm"; lit ".model diode dm"; lit ".ac lin 1 1 1"].
Definition ac_clamp_parts : list pelem :=
  [PR (lit "r1") (lit "a") (lit "0") (1, 0)%Z; PI (lit "i1") (lit "0") (lit "a") (Some (2, 0)%Z) (Some (8, 0)%Z) None; PD (lit "d1") (lit "a") (lit "0") (lit "dm") None None].
Definition cube_stamp2 (e : pelem) (v : list R) (i j : nat) : R := if (i =? j)%nat then 3 * (hd 0 v * hd 0 v) else - (3 * (hd 0 v * hd 0 v)).
Lemma ac_clamp_load : load (fun _ => Some ac_clamp) (fun _ => Err NetlistParseError) 1 (lit "f") = Ok (ac_clamp_parts, shunt_t, clamp_es).
Proof.
  transitivity (@Ok (list pelem * ntab * list lelem) (ac_clamp_parts, shunt_t, [ER "r1" 1 0 (dR (1, 0)%Z); EI "i1" 0 1 (dR (2, 0)%Z) false; ENL "d1" 1 0])).
  - unfold load.
    match goal with |- context [read_netlist ?a ?b ?c] => let r := eval vm_compute in (read_netlist a b c) in change (read_netlist a b c) with r end. cbn [bindr r_models r_lines map].
    match goal with |- context [parse_models ?a ?b] => let r := eval vm_compute in (parse_models a b) in change (parse_models a b) with r end. cbn [bindr r_models r_lines map fst snd].
    match goal with |- context [main_netlist_parser ?a ?b ?c ?d] => let r := eval vm_compute in (main_netlist_parser a b c d) in change (main_netlist_parser a b c d) with r end. cbn [bindr].
    cbv -[dR]. reflexivity.
  - rewrite !dR_0. reflexivity.
Qed.
Lemma ac_clamp_mats : exists m N AC, generate_mna_and_N 2 clamp_es = Ok (m, N) /\ generate_AC 0 2 clamp_es = Ok AC /\ m 1%nat 1%nat = 1.
Proof.
  do 3 eexists. split; [reflexivity|]. split; [reflexivity|].
  cbn [fst]. simpl. unfold madd, mset, mzero. simpl. field.
Qed.
Lemma ac_clamp_J : exists J, devices_J (fun _ => false) cube cube_stamp2 (fun _ _ _ => 0) shunt_t ac_clamp_parts (fun _ => 1) = Ok J /\ J 0%nat 0%nat = 3.
Proof.
  unfold devices_J, devices, ac_clamp_parts. cbn [device_loop]. unfold device. cbn [out_port bindr drive_ports stamp_nodes port_numbers numbers].
  change (number shunt_t (lit "a")) with (@Ok nat 1%nat). change (number shunt_t (lit "0")) with (@Ok nat 0%nat). cbn [bindr map].
  change (gstamp_reduced [1; 0]%nat (cube_stamp2 (PD (lit "d1") (lit "a") (lit "0") (lit "dm") None None) [drive_v (fun _ => 1) (1, 0)%nat]))
    with [((1, 1)%nat, cube_stamp2 (PD (lit "d1") (lit "a") (lit "0") (lit "dm") None None) [drive_v (fun _ => 1) (1, 0)%nat] 0%nat 0%nat)].
  change (istamp_reduced 1 0 (cube (PD (lit "d1") (lit "a") (lit "0") (lit "dm") None None) [drive_v (fun _ => 1) (1, 0)%nat]))
    with [(1%nat, cube (PD (lit "d1") (lit "a") (lit "0") (lit "dm") None None) [drive_v (fun _ => 1) (1, 0)%nat])].
  cbn [fancy_add_mat fancy_add_vec bindr fold_left fst snd Nat.sub]. eexists. split; [reflexivity|].
  unfold mset, vset, mzero, vzero, cube_stamp2, drive_v. cbn [hd fst snd Nat.eqb Nat.sub andb]. ring.
Qed.
Lemma ac_clamp_iff : forall V0, V0 (lit "0") = 0 -> V0 (lit "a") = 1 -> forall w Vr Vi Ir Ii, ac_nl_laws (fun _ => false) cube_stamp2 (fun _ _ _ => 0) V0 w 0 0 true ac_clamp_parts Vr Vi Ir Ii <->
  (Vr (lit "0") = 0 /\ Vi (lit "0") = 0 /\ Vr (lit "a") = 2 /\ Vi (lit "a") = 0).
Proof.
  intros V0 Z0 ZA w Vr Vi Ir Ii.
  assert (SM : forall V, V (lit "0") = 0 -> small (fun _ => false) cube_stamp2 (fun _ _ _ => 0) V0 V (lit "a") ac_clamp_parts = 3 * V (lit "a")).
  { intros V E. unfold ac_clamp_parts. cbn [small]. unfold small1. cbn [channel terminals List.length rsum nth]. at_names. cbv iota.
    unfold bias_of, cube_stamp2. cbn [controls map fst snd hd Nat.eqb]. rewrite Z0, ZA, E. ring. }
  split.
  - intros (A & B & C & _). destruct (C (lit "a")) as (K1 & K2); [left; reflexivity|discriminate|].
    rewrite SM in K1, K2 by assumption. unfold ac_clamp_parts in K1, K2. cbn [ac_leaving] in K1, K2. unfold ac_leaving1 in K1, K2. cbn [first_end second_end ac_through fst snd amplitude] in K1, K2.
    at_names_in K1. at_names_in K2. cbv iota in K1, K2. rewrite !dR_0 in *. rewrite A, B in *. repeat split; lra.
  - intros (A & B & E1 & E2). split; [exact A|]. split; [exact B|]. split.
    + intros n H NG. assert (n = lit "a") as ->.
      { cbn in H. repeat (destruct H as [<-|H]; [first [reflexivity | exfalso; apply NG; reflexivity]|]). destruct H. }
      rewrite !SM by assumption. unfold ac_clamp_parts. cbn [ac_leaving]. unfold ac_leaving1. cbn [first_end second_end ac_through fst snd amplitude].
      at_names. cbv iota. rewrite !dR_0, A, B, E1, E2. split; field.
    + repeat constructor.
Qed.
Lemma ac_nl_one : forall square current stamp conductance fs other fuel filename parts es op xop x v (v0 : R), load fs other fuel filename = Ok (parts, shunt_t, es) ->
  (forall line l, other line = Ok l -> Forall word_names l) -> Forall (nl_sound parts) parts -> has_device parts -> In (lit "a") (node_list parts) -> n_vde es = 0%nat ->
  op = Ok (Some xop) -> xop 0%nat = v0 ->
  (forall V0, V0 (lit "0") = 0 -> V0 (lit "a") = v0 -> forall w Vr Vi Ir Ii, ac_nl_laws square stamp conductance V0 w 0 0 true parts Vr Vi Ir Ii <->
     (Vr (lit "0") = 0 /\ Vi (lit "0") = 0 /\ Vr (lit "a") = v /\ Vi (lit "a") = 0)) ->
  (forall n, In n (node_list parts) -> n = lit "a" \/ n = lit "0") -> current_ids parts = [] ->
  ac_nl_run square current stamp conductance csolve1 ac_opts false 20 5 0 0 parts shunt_t es op 1 1 1 (Some "lin"%string) None = Ok (Some [(1, x)]) ->
  op_report shunt_t es xop (lit "VA") = Ok v0 -> forall angle, is_angle angle -> ac_report angle false shunt_t es [(1, x)] (lit "VA") = Ok [(v, 0)].
Proof.
  intros square current stamp conductance fs other fuel filename parts es op xop x v v0 LD OT SO HD IA NV -> XO IFF ND CI RUN OR angle AN.
  assert (SZ : op_size shunt_t es = 1%nat) by (unfold op_size; rewrite NV; reflexivity).
  destruct (C199_ac_devices _ _ _ _ _ _ _ LD OT SO HD square current stamp conductance csolve1 ac_opts 20%nat 5%nat 0 0 angle _ 1 1 1 (Some "lin"%string) None [(1, x)]
    ltac:(rewrite SZ; exact csolve1_ok) AN eq_refl RUN) as (ws & xop' & V0 & OM & XE & Z0 & VN & F & K).
  injection XE as <-. assert (VA : V0 (lit "a") = v0).
  { specialize (VN (lit "a") (lit "VA") IA ltac:(discriminate) eq_refl). rewrite OR in VN. congruence. }
  rewrite one_omega in OM. injection OM as <-. replace (Rmax 0 0) with 0 in K by (unfold Rmax; destruct (Rle_dec 0 0); reflexivity).
  assert (WP : forall w, ac_nl_well_posed square stamp conductance V0 w 0 0 parts).
  { intros w. exists (fun n => if streqb n (lit "a") then v else 0), (fun _ => 0), (fun _ => 0), (fun _ => 0). split.
    - apply IFF; [exact Z0|exact VA|]. at_names. repeat split.
    - intros Vr Vi Ir Ii L. apply IFF in L; [|exact Z0|exact VA]. destruct L as (A & B & C & E). split; [|rewrite CI; intros id []].
      intros n H. destruct (ND n H) as [->| ->]; at_names; cbv iota; split; assumption. }
  destruct (K (fun w _ => WP w)) as (K1 & _).
  destruct (K1 (lit "a") (lit "VA")) as (l & R & F2); [exact IA|discriminate|reflexivity|].
  rewrite R. f_equal. inversion F2 as [|? z ? l' Hz F3]; subst. inversion F3; subst. f_equal.
  destruct (WP (2 * Rtrigo1.PI * 1)) as (Vr & Vi & Ir & Ii & L & _). rewrite (Hz _ _ _ _ L). apply IFF in L; [|exact Z0|exact VA]. destruct L as (_ & _ & E1 & E2).
  rewrite E1, E2. reflexivity.
Qed.
Example C199_example :
  load (fun _ => Some ac_clamp) (fun _ => Err NetlistParseError) 1 (lit "f") = Ok (ac_clamp_parts, shunt_t, clamp_es) /\
  exists x, ac_nl_run (fun _ => false) cube cube_stamp2 (fun _ _ _ => 0) csolve1 ac_opts false 20 5 0 0 ac_clamp_parts shunt_t clamp_es (Ok (Some (fun _ => 1))) 1 1 1 (Some "lin"%string) None
      = Ok (Some [(1, x)]) /\
    forall angle, is_angle angle -> ac_report angle false shunt_t clamp_es [(1, x)] (lit "VA") = Ok [(2, 0)].
Proof.
  split; [exact ac_clamp_load|]. destruct ac_clamp_mats as (m & N & AC & GE & GA & M1). destruct ac_clamp_J as (J & DJ & J0).
  destruct (one_node_run (fun _ => false) cube cube_stamp2 (fun _ _ _ => 0) ac_clamp_parts clamp_es _ m N AC (fun _ => 1) J GE GA eq_refl eq_refl eq_refl DJ ltac:(lra)) as (x & RUN).
  exists x. split; [exact RUN|]. intros angle AN.
  apply (ac_nl_one (fun _ => false) cube cube_stamp2 (fun _ _ _ => 0) _ _ _ _ ac_clamp_parts clamp_es (Ok (Some (fun _ => 1))) (fun _ => 1) x 2 1 ac_clamp_load); try reflexivity.
  - discriminate.
  - repeat constructor; discriminate.
  - exists (PD (lit "d1") (lit "a") (lit "0") (lit "dm") None None). split; [right; right; left; reflexivity|discriminate].
  - left. reflexivity.
  - apply ac_clamp_iff.
  - intros n H. cbn in H. repeat (destruct H as [<-|H]; [first [left; reflexivity|right; reflexivity]|]). destruct H.
  - exact RUN.
  - exact AN.
Qed.

(** * C200: the small-signal model of the devices *)
Section Textbook.
  (** The conductances in the report of the operating point: of a diode; gmd, gm and gmb of a transistor. *)
  Variables (gd gmd gm gmb : pelem -> R).
  Definition model_current (V : str -> R) (e : pelem) : R :=
    match e with
    | PD _ a b _ _ _ => gd e * (V a - V b)
    | PM _ nd ng ns nb _ _ _ _ _ => gmd e * (V nd - V ns) + gm e * (V ng - V ns) + gmb e * (V nb - V ns)
    | _ => 0
    end.
  (** It flows from anode to cathode, from drain to source; gate and bulk draw nothing. *)
  Definition model_leaving1 (V : str -> R) (n : str) (e : pelem) : R :=
    match e with
    | PD _ a b _ _ _ => (if streqb n a then model_current V e else 0) - (if streqb n b then model_current V e else 0)
    | PM _ nd _ ns _ _ _ _ _ _ => (if streqb n nd then model_current V e else 0) - (if streqb n ns then model_current V e else 0)
    | _ => 0
    end.
  Fixpoint model_leaving (V : str -> R) (n : str) (l : list pelem) : R := match l with [] => 0 | e :: l' => model_leaving1 V n e + model_leaving V n l' end.
  Definition model_laws (w g c : R) (on : bool) (parts : list pelem) (Vr Vi Ir Ii : str -> R) : Prop :=
    Vr (lit "0") = 0 /\ Vi (lit "0") = 0 /\
    (forall n, In n (node_list parts) -> n <> lit "0" ->
       ac_leaving w on Vr Vi Ir Ii fst n parts + model_leaving Vr n parts + g * Vr n - w * c * Vi n = 0 /\
       ac_leaving w on Vr Vi Ir Ii snd n parts + model_leaving Vi n parts + g * Vi n + w * c * Vr n = 0) /\
    Forall (ac_law w on parts Vr Vi Ir Ii) parts.
End Textbook.

(** The transistors whose drain and source are not exchanged at the operating point. *)
Definition not_reversed (model_of : pelem -> qmodel) (V0 : str -> R) (e : pelem) : Prop :=
  match e with PM _ nd _ ns _ _ _ _ _ _ => 0 <= (V0 nd - V0 ns) * q_NP (model_of e) | _ => True end.

Section C200.
  Variables (iea gmin : R) (diode_i diode_g : pelem -> R -> R) (model_of : pelem -> qmodel) (size_of : pelem -> qdev) (conductance : pelem -> list R -> nat -> R).
  Let stamp := real_stamp iea gmin diode_g model_of size_of.
  Let sq (e : pelem) := true.
  (** mosq.py 384-386: the entries of the stamp that the report shows. *)
  Let at_op (V0 : str -> R) (i j : nat) (e : pelem) : R := stamp e (bias_of sq V0 e) i j.

  Lemma small_model : forall V0 V n l, Forall (not_reversed model_of V0) l -> Forall (fun e => match e with PS _ _ _ _ _ _ => False | _ => True end) l ->
    small sq stamp conductance V0 V n l = model_leaving (at_op V0 0 0) (at_op V0 0 0) (at_op V0 0 1) (at_op V0 0 3) V n l.
  Proof.
    intros V0 V n l F S0. induction l as [|e l IH]; [reflexivity|]. inversion F as [|? ? NR F']; subst. inversion S0 as [|? ? NS S']; subst.
    cbn [small model_leaving]. rewrite (IH F' S'). f_equal. unfold small1, at_op, stamp.
    destruct e; try reflexivity; [|destruct NS].
    - cbn [channel terminals List.length rsum nth model_leaving1 model_current real_stamp Nat.eqb].
      set (g := stamp_gm gmin _). destruct (streqb n n1), (streqb n n2); ring.
    - cbn [not_reversed] in NR. cbn [channel terminals sq List.length rsum nth model_leaving1 model_current real_stamp].
      unfold bias_of. cbn [controls sq map fst snd]. unfold bias3. cbn [nth]. unfold gstamp, get_voltages.
      match goal with |- context [Rlt_b ?u 0] => replace (Rlt_b u 0) with false by (symmetry; apply Rlt_b_false; exact NR) end.
      set (g1 := nz _ _). set (g2 := nz _ _). set (g3 := nz _ _). cbn [forward_stamp].
      destruct (streqb n nd), (streqb n ng), (streqb n ns), (streqb n nb); ring.
  Qed.

  (** Forward: the laws of C199 are those of the small-signal model. *)
  Theorem C200_forward : forall V0 w g c on parts Vr Vi Ir Ii, Forall (not_reversed model_of V0) parts -> Forall (nl_sound parts) parts ->
    (ac_nl_laws sq stamp conductance V0 w g c on parts Vr Vi Ir Ii <->
     model_laws (at_op V0 0 0) (at_op V0 0 0) (at_op V0 0 1) (at_op V0 0 3) w g c on parts Vr Vi Ir Ii).
  Proof.
    intros V0 w g c on parts Vr Vi Ir Ii F SO.
    assert (NS : Forall (fun e => match e with PS _ _ _ _ _ _ => False | _ => True end) parts).
    { eapply Forall_impl; [|exact SO]. intros e H. destruct e; try exact Logic.I. exact H. }
    unfold ac_nl_laws, model_laws. split; intros (A & B & C & D); (split; [exact A|]; split; [exact B|]; split; [|exact D]); intros n H NG; destruct (C n H NG) as (K1 & K2).
    - rewrite small_model in K1, K2 by assumption. split; assumption.
    - rewrite !small_model by assumption. split; assumption.
  Qed.
End C200.
Print Assumptions C200_forward.

(** Reversed: 3 A into a resistor of 1 Ohm and a transistor with drain and bulk at ground, gate and source
    at the node.  At the operating point, 2 V, it takes 1 A, and 2 A/V more; a signal of 1 A
    should give 1/3 V.  The simulator finds 1 V, as if the transistor were not there. *)
Definition pass : list str :=
  [lit "pass"; lit "R1 A 0 1"; lit "I1 0 a type=idc idc=3 iac=1"; lit "M1 0 a a 0 mm w=1 l=1"; lit ".model mosq mm type=n vto=1 kp=2 gamma=0 lambda=0"; lit ".ac lin 1 1 1"].
Definition pass_m : pelem := PM (lit "m1") (lit "0") (lit "a") (lit "a") (lit "0") (lit "mm") (1, 0)%Z (1, 0)%Z (1, 0)%Z (1, 0)%Z.
Definition pass_parts : list pelem :=
  [PR (lit "r1") (lit "a") (lit "0") (1, 0)%Z; PI (lit "i1") (lit "0") (lit "a") (Some (3, 0)%Z) (Some (1, 0)%Z) None; pass_m].
Definition pass_es : list lelem := [ER "r1" 1 0 1; EI "i1" 0 1 3 false; ENL "m1" 0 1].
Definition pass_model (phi : R) (e : pelem) : qmodel := mkQ 1 1 0 phi 2 0 0 0.
Definition pass_size (e : pelem) : qdev := mkQd 1 1 1 1 None.
Definition node_a (v : R) (n : str) : R := if streqb n (lit "a") then v else 0.
Lemma pass_load : load (fun _ => Some pass) (fun _ => Err NetlistParseError) 1 (lit "f") = Ok (pass_parts, shunt_t, pass_es).
Proof.
  transitivity (@Ok (list pelem * ntab * list lelem) (pass_parts, shunt_t, [ER "r1" 1 0 (dR (1, 0)%Z); EI "i1" 0 1 (dR (3, 0)%Z) false; ENL "m1" 0 1])).
  - unfold load.
    match goal with |- context [read_netlist ?a ?b ?c] => let r := eval vm_compute in (read_netlist a b c) in change (read_netlist a b c) with r end. cbn [bindr r_models r_lines map].
    match goal with |- context [parse_models ?a ?b] => let r := eval vm_compute in (parse_models a b) in change (parse_models a b) with r end. cbn [bindr r_models r_lines map fst snd].
    match goal with |- context [main_netlist_parser ?a ?b ?c ?d] => let r := eval vm_compute in (main_netlist_parser a b c d) in change (main_netlist_parser a b c d) with r end. cbn [bindr].
    cbv -[dR]. reflexivity.
  - rewrite !dR_0. reflexivity.
Qed.
Lemma pass_mats : exists m N AC, generate_mna_and_N 2 pass_es = Ok (m, N) /\ generate_AC 0 2 pass_es = Ok AC /\ m 1%nat 1%nat = 1.
Proof.
  do 3 eexists. split; [reflexivity|]. split; [reflexivity|].
  cbn [fst]. simpl. unfold madd, mset, mzero. simpl. field.
Qed.
Lemma pass_draws : forall iea dI phi v, 1 < v -> dev_leaving1 (fun _ => true) (real_current iea dI (pass_model phi) pass_size) (node_a v) (lit "a") pass_m = (v - 1) * (v - 1).
Proof.
  intros iea dI phi v P. unfold dev_leaving1, pass_m. cbn [channel]. at_names. cbv iota. unfold dev_current. cbn [controls map fst snd]. unfold node_a. at_names. cbv iota.
  unfold real_current, bias3. cbn [nth]. unfold terminal_i, get_voltages, pass_model, pass_size. cbn [q_NP].
  replace (Rlt_b ((0 - v) * 1) 0) with true by (symmetry; apply Rlt_b_true; lra).
  unfold get_ids, get_VT. cbn [q_VTO q_GAMMA q_LAMBDA q_KP q_NP t_W t_L t_M t_N]. unfold svt, skp. cbn [t_mc].
  match goal with |- context [Rlt_b ?u (1 + 0 + 0 * ?z)] => replace (1 + 0 + 0 * z) with 1 by ring end.
  match goal with |- context [Rlt_b ?u 1] => replace (Rlt_b u 1) with false by (symmetry; apply Rlt_b_false; lra) end.
  match goal with |- context [Rlt_b ?u ?z] => replace (Rlt_b u z) with false by (symmetry; apply Rlt_b_false; lra) end.
  field.
Qed.
Lemma pass_J : forall iea gmin dI dG phi cond, exists J, devices_J (fun _ => true) (real_current iea dI (pass_model phi) pass_size) (real_stamp iea gmin dG (pass_model phi) pass_size) cond shunt_t pass_parts (fun _ => 2) = Ok J /\
  J 0%nat 0%nat = 0.
Proof.
  intros iea gmin dI dG phi cond. set (cu := real_current _ _ _ _). set (stp := real_stamp _ _ _ _ _).
  assert (D : exists JT, devices (fun _ => true) cu stp cond shunt_t pass_parts (fun _ => 2) = Ok JT).
  { unfold devices, pass_parts. cbn [device_loop]. unfold device. cbn [pass_m out_port bindr drive_ports stamp_nodes port_numbers numbers].
    change (number shunt_t (lit "a")) with (@Ok nat 1%nat). change (number shunt_t (lit "0")) with (@Ok nat 0%nat). cbn [bindr map].
    eexists. reflexivity. }
  destruct D as (JT & D). exists (fst JT). split; [unfold devices_J; rewrite D; reflexivity|].
  assert (G : grounded shunt_t) by (destruct (load_facts _ _ _ _ _ _ _ pass_load) as (G & _); exact G).
  pose proof (devices_J_row (fun _ => true) cu stp cond shunt_t G 1 (le_n _) pass_parts (fun _ => 2) JT (lit "a") 0 (fun _ => 1) D eq_refl) as Q.
  assert (E : row 1 (fst JT) 0 (fun _ => 1) = fst JT 0%nat 0%nat) by (unfold row; cbn [rsum]; ring). rewrite <- E, Q.
  unfold pass_parts, pass_m. cbn [small]. unfold small1. cbn [channel terminals List.length rsum nth]. at_names. cbv iota. unfold stp, real_stamp, bias_of. cbn [controls map fst snd].
  unfold bias3. cbn [nth]. change (volt shunt_t (with_ground (fun _ => 2)) (lit "a")) with 2. change (volt shunt_t (with_ground (fun _ => 2)) (lit "0")) with 0.
  change (volt shunt_t (with_ground (fun _ => 1)) (lit "a")) with 1. change (volt shunt_t (with_ground (fun _ => 1)) (lit "0")) with 0.
  unfold gstamp, get_voltages. cbn [pass_model q_NP]. replace (Rlt_b ((0 - 2) * 1) 0) with true by (symmetry; apply Rlt_b_true; lra).
  cbn [T12 forward_stamp]. ring.
Qed.
Lemma pass_iff : forall iea gmin dG phi cond V0, V0 (lit "0") = 0 -> V0 (lit "a") = 2 -> forall w Vr Vi Ir Ii,
  ac_nl_laws (fun _ => true) (real_stamp iea gmin dG (pass_model phi) pass_size) cond V0 w 0 0 true pass_parts Vr Vi Ir Ii <->
  (Vr (lit "0") = 0 /\ Vi (lit "0") = 0 /\ Vr (lit "a") = 1 /\ Vi (lit "a") = 0).
Proof.
  intros iea gmin dG phi cond V0 Z0 ZA w Vr Vi Ir Ii.
  assert (SM : forall V, V (lit "0") = 0 -> small (fun _ => true) (real_stamp iea gmin dG (pass_model phi) pass_size) cond V0 V (lit "a") pass_parts = 0).
  { intros V E. unfold pass_parts, pass_m. cbn [small]. unfold small1. cbn [channel terminals List.length rsum nth]. at_names. cbv iota.
    unfold bias_of, real_stamp. cbn [controls map fst snd]. unfold bias3. cbn [nth]. rewrite Z0, ZA, E.
    unfold gstamp, get_voltages. cbn [pass_model q_NP]. replace (Rlt_b ((0 - 2) * 1) 0) with true by (symmetry; apply Rlt_b_true; lra).
    cbn [T12 forward_stamp]. ring. }
  split.
  - intros (A & B & C & _). destruct (C (lit "a")) as (K1 & K2); [left; reflexivity|discriminate|].
    rewrite SM in K1, K2 by assumption. unfold pass_parts in K1, K2. cbn [ac_leaving] in K1, K2. unfold ac_leaving1 in K1, K2. cbn [pass_m first_end second_end ac_through fst snd amplitude] in K1, K2.
    at_names_in K1. at_names_in K2. cbv iota in K1, K2. rewrite !dR_0 in *. rewrite A, B in *. repeat split; lra.
  - intros (A & B & E1 & E2). split; [exact A|]. split; [exact B|]. split.
    + intros n H NG. assert (n = lit "a") as ->.
      { cbn in H. repeat (destruct H as [<-|H]; [first [reflexivity | exfalso; apply NG; reflexivity]|]). destruct H. }
      rewrite !SM by assumption. unfold pass_parts. cbn [ac_leaving]. unfold ac_leaving1. cbn [pass_m first_end second_end ac_through fst snd amplitude].
      at_names. cbv iota. rewrite !dR_0, A, B, E1, E2. split; field.
    + repeat constructor.
Qed.

Theorem C200_reversed_refuted : forall iea gmin dI dG phi cond, exists lines parts t es e x,
  let current := real_current iea dI (pass_model phi) pass_size in
  let draws v := dev_leaving1 (fun _ => true) current (node_a v) (lit "a") e in
  load (fun _ => Some lines) (fun _ => Err NetlistParseError) 1 (lit "f") = Ok (parts, t, es) /\ Forall (nl_sound parts) parts /\
  parts = [PR (lit "r1") (lit "a") (lit "0") (1, 0)%Z; PI (lit "i1") (lit "0") (lit "a") (Some (3, 0)%Z) (Some (1, 0)%Z) None; e] /\
  (* the operating point: 2 V, 2 A in the resistor and 1 A in the transistor, with a slope of 2 A/V *)
  op_report t es (fun _ => 2) (lit "VA") = Ok 2 /\ draws 2 = 3 - 2 / 1 /\ derivable_pt_lim draws 2 2 /\
  ac_nl_run (fun _ => true) current (real_stamp iea gmin dG (pass_model phi) pass_size) cond csolve1 ac_opts false 20 5 0 0 parts t es (Ok (Some (fun _ => 2))) 1 1 1 (Some "lin"%string) None
    = Ok (Some [(1, x)]) /\
  (* the result is that of the resistor alone, 1 * 1, and not 1 / (1 + 2) *)
  forall angle, is_angle angle -> ac_report angle false t es [(1, x)] (lit "VA") = Ok [(1, 0)].
Proof.
  intros iea gmin dI dG phi cond. destruct pass_mats as (m & N & AC & GE & GA & M1). destruct (pass_J iea gmin dI dG phi cond) as (J & DJ & J0).
  destruct (one_node_run _ _ _ _ pass_parts pass_es (Ok (Some (fun _ => 2))) m N AC (fun _ => 2) J GE GA eq_refl eq_refl eq_refl DJ ltac:(lra)) as (x & RUN).
  exists pass, pass_parts, shunt_t, pass_es, pass_m, x. cbv zeta. split; [exact pass_load|].
  assert (SO : Forall (nl_sound pass_parts) pass_parts) by (repeat constructor; discriminate).
  split; [exact SO|]. split; [reflexivity|]. split; [reflexivity|]. split; [rewrite pass_draws by lra; lra|]. split.
  - intros eps EP. assert (I2 : derivable_pt_lim (fun v => (v - 1) * (v - 1)) 2 2).
    { intros eps' EP'. exists (mkposreal eps' EP'). intros h Hh LT. cbn [pos] in LT.
      replace (((2 + h - 1) * (2 + h - 1) - (2 - 1) * (2 - 1)) / h - 2) with h by (field; exact Hh). exact LT. }
    destruct (I2 eps EP) as (d & Hd). assert (DP : 0 < Rmin d 1) by (apply Rmin_pos; [apply cond_pos|lra]).
    exists (mkposreal _ DP). intros h Hh LT. cbn [pos] in LT. pose proof (Rmin_l d 1). pose proof (Rmin_r d 1).
    assert (-1 < h) by (apply Rabs_def2 in LT; lra).
    rewrite !pass_draws by lra. apply Hd; [exact Hh|lra].
  - split; [exact RUN|]. intros angle AN.
    apply (ac_nl_one (fun _ => true) (real_current iea dI (pass_model phi) pass_size) (real_stamp iea gmin dG (pass_model phi) pass_size) cond _ _ _ _ pass_parts pass_es
      (Ok (Some (fun _ => 2))) (fun _ => 2) x 1 2 pass_load); try reflexivity.
    + discriminate.
    + exact SO.
    + exists pass_m. split; [right; right; left; reflexivity|discriminate].
    + left. reflexivity.
    + apply pass_iff.
    + intros n H. cbn in H. repeat (destruct H as [<-|H]; [first [left; reflexivity|right; reflexivity]|]). destruct H.
    + exact RUN.
    + exact AN.
Qed.
Print Assumptions C200_reversed_refuted.
