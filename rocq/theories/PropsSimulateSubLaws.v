(** The laws of netlists with subcircuits, place by place (C210), and the operating point from
    the text to the results (C211). *)
From Coq Require Import Ascii String Reals List Bool Arith ZArith Lia Lra.
From Verif Require Import Base BaseFacts Str Units Directive Lines Reader Netlist ModelLines Nodes NodesFacts Circuit CircuitFacts Rsum Mna MnaSpec DcSolve Newton
  NewtonFacts DynFacts Tran TranFacts PropsTran Ac AcFacts Csv PropsCsv Results PropsReader PropsNetlist PropsResults PropsMna PropsDc PropsAc Session Subckt PropsSubckt Simulate PropsSimulate
  SimulateAc PropsSimulateAc PropsSimulateDc SimulateTran PropsSimulateTran SimulateNl PropsSimulateNl SimulateSub PropsSimulateSub PropsSimulateHier.
Import ListNotations.
Open Scope R_scope.

(** * The laws of C192-C199, place by place *)
Definition terminals (e : pelem) : str * str := (first_end e, second_end e).
Lemma terminals_in : forall e, (In (fst (terminals e)) (nodes_in e) /\ In (snd (terminals e)) (nodes_in e)) \/ terminals e = (lit "0", lit "0").
Proof. destruct e; try (left; cbn; auto; fail). right. reflexivity. Qed.
Lemma terminals_ren : forall f g e, terminals (ren f g e) = (f (fst (terminals e)), f (snd (terminals e))) \/ (terminals e = (lit "0", lit "0") /\ terminals (ren f g e) = (lit "0", lit "0")).
Proof. destruct e; try (left; reflexivity). right. split; reflexivity. Qed.

(** ** Direct current *)

(** The current of a branch, and the value of a source with a time function. *)
Record direct := mkDirect { d_cur : R; d_at : R }.
Definition dc_values (s : R) (i : str -> direct) (e : pelem) : R := s * driven (fun id => d_at (i id)) written_dc e.
Definition dc_hier (V I at0 : str -> R) (h : hier) : Prop :=
  hier_laws (fun v i (_ : unit) => through (dc_values 1 i) v (fun id => d_cur (i id))) terminals
    (fun v i => law (dc_values 1 i) v (fun id => d_cur (i id))) (fun _ _ r => r = 0) V (fun id => mkDirect (I id) (at0 id)) h.

Lemma dc_values_ren : forall s f g i i' e, (forall id, i' id = i (g id)) -> dc_values s i (ren f g e) = dc_values s i' e.
Proof. intros s f g i i' e E. unfold dc_values, driven. destruct e; cbn [ren]; try reflexivity; destruct f0; rewrite ?E; reflexivity. Qed.
Lemma through_ext : forall src src' V I e, (forall e, src e = src' e) -> through src V I e = through src' V I e.
Proof. intros src src' V I e E. destruct e; cbn [through]; rewrite ?E; reflexivity. Qed.
Lemma law_ext : forall src src' V I e, (forall e, src e = src' e) -> law src V I e <-> law src' V I e.
Proof. intros src src' V I e E. destruct e; cbn [law]; rewrite ?E; reflexivity. Qed.
Lemma through_ren : forall f g V I V' I' src src' e, ref_free e -> (forall n, V' n = V (f n)) -> (forall id, I' id = I (g id)) -> src (ren f g e) = src' e ->
  through src V I (ren f g e) = through src' V' I' e.
Proof. intros f g V I V' I' src src' e F VV II SS. destruct e; cbn [ren through ref_free] in *; try contradiction; rewrite ?VV, ?II, ?SS; reflexivity. Qed.
Lemma law_ren : forall f g V I V' I' src src' e, ref_free e -> (forall n, V' n = V (f n)) -> (forall id, I' id = I (g id)) -> src (ren f g e) = src' e ->
  law src V I (ren f g e) <-> law src' V' I' e.
Proof. intros f g V I V' I' src src' e F VV II SS. destruct e; cbn [ren law ref_free] in *; try contradiction; rewrite ?VV, ?II, ?SS; reflexivity. Qed.

Lemma hier_iff : forall X Y K (thr : (str -> X) -> (str -> Y) -> K -> pelem -> R) lawE bal V I,
  (forall f g v i v' i' k e, ref_free e -> (forall n, v' n = v (f n)) -> (forall id, i' id = i (g id)) -> thr v i k (ren f g e) = thr v' i' k e) ->
  (forall f g v i v' i' e, ref_free e -> (forall n, v' n = v (f n)) -> (forall id, i' id = i (g id)) -> lawE v i (ren f g e) <-> lawE v' i' e) ->
  forall h, plain_names h -> distinct_insts h -> refs_outside h ->
  hier_laws thr terminals lawE bal V I h <->
  (forall m k, In m (node_list (flatten [] top h)) -> m <> lit "0" -> bal k (V m) (lsum (hleave thr terminals V I k m) (flatten [] top h))) /\ Forall (lawE V I) (flatten [] top h).
Proof.
  intros X Y K thr lawE bal V I T L h PN DI RO. split.
  - intros H. destruct (flat_of_hier thr terminals lawE bal V I terminals_in terminals_ren T L h PN DI RO H) as [A B]. auto.
  - intros [A B]. apply hier_of_flat; auto using terminals_in, terminals_ren.
Qed.

(** Whatever flows, it adds up to nothing over all nodes. *)
Lemma leaving_lsum : forall src V I n l, leaving src V I n l = lsum (leaving1 src V I n) l.
Proof. induction l as [|e l IH]; [reflexivity|]. cbn [leaving lsum]. rewrite IH. reflexivity. Qed.
Lemma all_leaving : forall src V I l N, NoDup N -> In (lit "0") N -> incl (node_list l) N -> lsum (fun n => leaving src V I n l) N = 0.
Proof.
  intros src V I l N ND Z. induction l as [|e l IH]; intros IN; cbn [leaving]; [apply lsum_0; reflexivity|]. rewrite lsum_plus.
  rewrite IH by (intros x Q; apply IN; unfold node_list in *; cbn [flat_map]; apply in_app_iff; right; exact Q). rewrite Rplus_0_r.
  assert (E : In (first_end e) N /\ In (second_end e) N).
  { destruct (terminals_in e) as [[E1 E2]|E]; cbn [terminals fst snd] in *.
    - split; apply IN; unfold node_list; cbn [flat_map]; apply in_app_iff; left; assumption.
    - unfold terminals in E. injection E as E1 E2. rewrite E1, E2. split; exact Z. }
  rewrite (lsum_ext _ _ (fun n => (if streqb n (first_end e) then through src V I e else 0) + - (if streqb n (second_end e) then through src V I e else 0))) by (intros n _; unfold leaving1; ring).
  rewrite lsum_plus, lsum_opp, !(lsum_pick (fun _ => through src V I e)) by (try exact ND; apply E). ring.
Qed.
Lemma not_leaving : forall src V I l n, ~ In n (node_list l) -> n <> lit "0" -> leaving src V I n l = 0.
Proof.
  intros src V I l n H N0. rewrite leaving_lsum. apply lsum_0. intros e E.
  assert (Q : n <> first_end e /\ n <> second_end e).
  { destruct (terminals_in e) as [[E1 E2]|W]; cbn [terminals fst snd] in *.
    - split; intros ->; apply H; unfold node_list; apply in_flat_map; exists e; auto.
    - unfold terminals in W. injection W as W1 W2. rewrite W1, W2. auto. }
  unfold leaving1. rewrite !seqb_ne by apply Q. ring.
Qed.

(** * C210: the laws of the circuit are the laws of the netlist and of its subcircuits *)

(** The flat circuit obeys its laws if and only if the netlist and all instances obey theirs:
    direct current, ... *)
Theorem C210_dc : forall h V I at0, plain_names h -> distinct_insts h -> refs_outside h ->
  laws (dc_source at0) V I (flatten [] top h) <-> V (lit "0") = 0 /\ dc_hier V I at0 h.
Proof.
  intros h V I at0 PN DI RO. unfold dc_hier.
  assert (SRC : forall e, dc_values 1 (fun id => mkDirect (I id) (at0 id)) e = dc_source at0 e) by (intros e; unfold dc_values, dc_source; cbn [d_at]; apply Rmult_1_l).
  rewrite hier_iff; try assumption.
  - cbn [d_cur]. unfold laws.
    assert (LV : forall m k, lsum (hleave (fun v i (_ : unit) => through (dc_values 1 i) v (fun id => d_cur (i id))) terminals V (fun id => mkDirect (I id) (at0 id)) k m) (flatten [] top h) =
      leaving (dc_source at0) V I m (flatten [] top h)).
    { intros m k. rewrite leaving_lsum. apply lsum_ext. intros e _. unfold hleave, leaving1, terminals. cbn [fst snd d_cur]. rewrite !(through_ext _ _ _ _ _ SRC). reflexivity. }
    assert (LW : Forall (law (dc_values 1 (fun id => mkDirect (I id) (at0 id))) V (fun id => I id)) (flatten [] top h) <-> Forall (law (dc_source at0) V I) (flatten [] top h)).
    { rewrite !Forall_forall. split; intros H e E; apply (law_ext _ _ V I e SRC), H, E. }
    rewrite LW. split.
    + intros (A & B & C). split; [exact A|]. split; [|exact C]. intros m k _ _. rewrite LV. apply B.
    + intros (A & B & C). split; [exact A|]. split; [|exact C]. set (l := flatten [] top h) in *.
      assert (B' : forall n, n <> lit "0" -> leaving (dc_source at0) V I n l = 0).
      { intros n N0. destruct (in_dec (list_eq_dec ascii_dec) n (node_list l)) as [Q|Q]; [rewrite <- (LV n tt); apply (B n tt Q N0)|apply not_leaving; assumption]. }
      intros n. destruct (list_eq_dec ascii_dec n (lit "0")) as [->|N0]; [|apply B', N0].
      set (N := nodup (list_eq_dec ascii_dec) (lit "0" :: node_list l)).
      assert (NN : NoDup N) by apply NoDup_nodup.
      assert (IN : forall x, In x (lit "0" :: node_list l) -> In x N) by (intros x; apply nodup_In).
      pose proof (all_leaving (dc_source at0) V I l N NN (IN _ (or_introl eq_refl)) (fun x Q => IN x (or_intror Q))) as S0.
      rewrite (lsum_ext _ _ (fun n => if streqb n (lit "0") then leaving (dc_source at0) V I n l else 0)) in S0.
      * rewrite (lsum_pick (fun n => leaving (dc_source at0) V I n l)) in S0; [exact S0|exact NN|apply IN; left; reflexivity].
      * intros m _. destruct (seqb_spec m (lit "0")) as [->|M0]; [reflexivity|apply B', M0].
  - intros f g v i v' i' _ e F VV II. apply through_ren; try assumption; [intros id; rewrite II; reflexivity|]. apply dc_values_ren. exact II.
  - intros f g v i v' i' e F VV II. apply law_ren; try assumption; [intros id; rewrite II; reflexivity|]. apply dc_values_ren. exact II.
Qed.
Print Assumptions C210_dc.

(** ** Phasors *)
(** The current of a branch and the flux that K lines send through it. *)
Record winding := mkWinding { w_cur : R * R; w_flux : R * R }.
Definition ac_place (w g c : R) (on : bool) (Vr Vi Ir Ii Fr Fi : str -> R) (h : hier) : Prop :=
  hier_laws
    (fun v i (k : bool) e => (if k then fst else snd) (ac_through w on (fun n => fst (v n)) (fun n => snd (v n)) (fun id => fst (w_cur (i id))) (fun id => snd (w_cur (i id))) e)) terminals
    (fun v i e => match e with
       | PL id a b l _ => fst (v a) - fst (v b) = - w * (dR l * snd (w_cur (i id)) + snd (w_flux (i id))) /\ snd (v a) - snd (v b) = w * (dR l * fst (w_cur (i id)) + fst (w_flux (i id)))
       | _ => ac_law w on [] (fun n => fst (v n)) (fun n => snd (v n)) (fun id => fst (w_cur (i id))) (fun id => snd (w_cur (i id))) e
       end)
    (fun k x r => if k then r + g * fst x - w * c * snd x = 0 else r + g * snd x + w * c * fst x = 0)
    (fun n => (Vr n, Vi n)) (fun id => mkWinding (Ir id, Ii id) (Fr id, Fi id)) h.

(** ... phasors, ... *)
Theorem C210_ac : forall h w g c on Vr Vi Ir Ii, plain_names h -> distinct_insts h -> refs_outside h ->
  let parts := flatten [] top h in
  ac_laws w g c on parts Vr Vi Ir Ii <->
  Vr (lit "0") = 0 /\ Vi (lit "0") = 0 /\ ac_place w g c on Vr Vi Ir Ii (fun id => linked Ir id parts) (fun id => linked Ii id parts) h.
Proof.
  intros h w g c on Vr Vi Ir Ii PN DI RO parts. unfold ac_place. rewrite hier_iff; try assumption.
  - fold parts. cbn [w_cur w_flux fst snd]. unfold ac_laws.
    assert (LV : forall (part : R * R -> R) m l, ac_leaving w on Vr Vi Ir Ii part m l = lsum (ac_leaving1 w on Vr Vi Ir Ii part m) l) by (intros part m l; induction l as [|e l IH]; [reflexivity|]; cbn [ac_leaving lsum]; rewrite IH; reflexivity).
    assert (LW : Forall (ac_law w on parts Vr Vi Ir Ii) parts <-> Forall (fun e => match e with
       | PL id a b l _ => Vr a - Vr b = - w * (dR l * Ii id + linked Ii id parts) /\ Vi a - Vi b = w * (dR l * Ir id + linked Ir id parts)
       | _ => ac_law w on [] (fun n => Vr n) (fun n => Vi n) (fun id => Ir id) (fun id => Ii id) e end) parts).
    { rewrite !Forall_forall. split; intros H e E; specialize (H e E); destruct e; exact H. }
    rewrite LW. split.
    + intros (A1 & A2 & B & C). split; [exact A1|]. split; [exact A2|]. split; [|exact C]. intros m k M1 M2. destruct (B m M1 M2) as [B1 B2]. rewrite LV in B1, B2. destruct k; assumption.
    + intros (A1 & A2 & B & C). split; [exact A1|]. split; [exact A2|]. split; [|exact C]. intros m M1 M2. rewrite !LV. split; [exact (B m true M1 M2)|exact (B m false M1 M2)].
  - intros f f' v i v' i' k e F VV II. f_equal. destruct e; cbn [ren ac_through ref_free] in *; try contradiction; rewrite ?VV, ?II; reflexivity.
  - intros f f' v i v' i' e F VV II. destruct e; cbn [ren ac_law ref_free] in *; try contradiction; rewrite ?VV, ?II; reflexivity.
Qed.
Print Assumptions C210_ac.

(** ** Waveforms *)
(** A voltage and its derivative; a current, the value of a source, the derivative of the
    current, the derivative of the flux that K lines send through the branch. *)
Record wave := mkWave { v_now : R; v_slope : R }.
Record branch := mkBranch { b_cur : R; b_at : R; b_slope : R; b_flux : R }.
Definition tr_values (s : R) (i : str -> branch) (e : pelem) : R := s * driven (fun id => b_at (i id)) written_dc e.
Lemma tr_values_ren : forall s f g i i' e, (forall id, i' id = i (g id)) -> tr_values s i (ren f g e) = tr_values s i' e.
Proof. intros s f g i i' e E. unfold tr_values, driven. destruct e; cbn [ren]; try reflexivity; destruct f0; rewrite ?E; reflexivity. Qed.
Definition tr_place (s g c : R) (V I dV dI at_ F : str -> R) (h : hier) : Prop :=
  hier_laws
    (fun v i (_ : unit) => tr_through (tr_values s i) (fun n => v_now (v n)) (fun id => b_cur (i id)) (fun n => v_slope (v n))) terminals
    (fun v i e => match e with
       | PL id a b l _ => v_now (v a) - v_now (v b) = dR l * b_slope (i id) + b_flux (i id)
       | _ => law (tr_values s i) (fun n => v_now (v n)) (fun id => b_cur (i id)) e
       end)
    (fun _ x r => r + g * v_now x + c * v_slope x = 0)
    (fun n => mkWave (V n) (dV n)) (fun id => mkBranch (I id) (at_ id) (dI id) (F id)) h.

(** ... waveforms, ... *)
Theorem C210_tran : forall h s g c at_ V I dV dI, plain_names h -> distinct_insts h -> refs_outside h ->
  let parts := flatten [] top h in
  tr_laws (fun e => s * driven at_ written_dc e) g c parts V I dV dI <->
  V (lit "0") = 0 /\ dV (lit "0") = 0 /\ tr_place s g c V I dV dI at_ (fun id => linked dI id parts) h.
Proof.
  intros h s g c at_ V I dV dI PN DI RO parts. unfold tr_place. rewrite hier_iff; try assumption.
  - fold parts. cbn [v_now v_slope b_cur b_flux b_slope]. unfold tr_laws. set (src := fun e => s * driven at_ written_dc e).
    change (tr_values s (fun id => mkBranch (I id) (at_ id) (dI id) (linked dI id parts))) with src.
    assert (LV : forall m l, tr_leaving src V I dV m l = lsum (tr_leaving1 src V I dV m) l) by (intros m l; induction l as [|e l IH]; [reflexivity|]; cbn [tr_leaving lsum]; rewrite IH; reflexivity).
    assert (LW : Forall (tr_law src parts V I dI) parts <-> Forall (fun e => match e with
       | PL id a b l _ => V a - V b = dR l * dI id + linked dI id parts
       | _ => law src (fun n => V n) (fun id => I id) e end) parts).
    { rewrite !Forall_forall. split; intros H e E; specialize (H e E); destruct e; exact H. }
    rewrite LW. split.
    + intros (A1 & A2 & B & C). split; [exact A1|]. split; [exact A2|]. split; [|exact C]. intros m k M1 M2. specialize (B m M1 M2). rewrite LV in B. exact B.
    + intros (A1 & A2 & B & C). split; [exact A1|]. split; [exact A2|]. split; [|exact C]. intros m M1 M2. rewrite LV. exact (B m tt M1 M2).
  - intros f f' v i v' i' k e F VV II. pose proof (tr_values_ren s f f' i i' e II) as SR.
    destruct e; cbn [ref_free] in F; try contradiction; cbn [ren tr_through through] in *; rewrite ?VV, ?II, ?SR; reflexivity.
  - intros f f' v i v' i' e F VV II. pose proof (tr_values_ren s f f' i i' e II) as SR.
    destruct e; cbn [ref_free] in F; try contradiction; cbn [ren law] in *; rewrite ?VV, ?II, ?SR; reflexivity.
Qed.
Print Assumptions C210_tran.

(** ** Devices *)
Section Devices.
  Variables (square : pelem -> bool) (current : pelem -> list R -> R).
  (** The equations of a device do not depend on how it and its nodes are called. *)
  Hypothesis square_ren : forall f g e, square (ren f g e) = square e.
  Hypothesis current_ren : forall f g e v, current (ren f g e) v = current e v.

  Definition dev_through (V : str -> R) (e : pelem) : R := match channel e with Some _ => dev_current square current V e | None => 0 end.
  Definition nl_place (tol : tols) (s g c : R) (V I dV dI at_ F : str -> R) (h : hier) : Prop :=
    hier_laws
      (fun v i (_ : unit) e => tr_through (tr_values s i) (fun n => v_now (v n)) (fun id => b_cur (i id)) (fun n => v_slope (v n)) e + dev_through (fun n => v_now (v n)) e) terminals
      (fun v i e => has_current e = true -> Rabs match e with
         | PL id a b l _ => v_now (v a) - v_now (v b) - (dR l * b_slope (i id) + b_flux (i id))
         | _ => tr_gap (tr_values s i) [] (fun n => v_now (v n)) (fun id => b_cur (i id)) (fun id => b_slope (i id)) e
         end <= Newton.t_vea tol)
      (fun _ x r => Rabs (r + g * v_now x + c * v_slope x) <= Newton.t_iea tol)
      (fun n => mkWave (V n) (dV n)) (fun id => mkBranch (I id) (at_ id) (dI id) (F id)) h.

  (** ... and both, with devices and within the tolerances. *)
  Theorem C210_devices : forall h tol s g c at_ V I dV dI, plain_names h -> distinct_insts h -> refs_outside h ->
    let parts := flatten [] top h in
    nl_laws square current tol (fun e => s * driven at_ written_dc e) g c parts V I dV dI <->
    V (lit "0") = 0 /\ dV (lit "0") = 0 /\ nl_place tol s g c V I dV dI at_ (fun id => linked dI id parts) h.
  Proof.
    intros h tol s g c at_ V I dV dI PN DI RO parts. unfold nl_place. rewrite hier_iff; try assumption.
    - fold parts. cbn [v_now v_slope b_cur b_flux b_slope]. unfold nl_laws. set (src := fun e => s * driven at_ written_dc e).
      change (tr_values s (fun id => mkBranch (I id) (at_ id) (dI id) (linked dI id parts))) with src.
      assert (LV : forall m l, tr_leaving src V I dV m l + dev_leaving square current V m l =
        lsum (fun e => (if streqb m (fst (terminals e)) then tr_through src V I dV e + dev_through V e else 0) - (if streqb m (snd (terminals e)) then tr_through src V I dV e + dev_through V e else 0)) l).
      { intros m l. induction l as [|e l IH]; [cbn; ring|]. cbn [tr_leaving dev_leaving lsum]. rewrite <- IH. unfold tr_leaving1, dev_leaving1, dev_through, terminals. cbn [fst snd].
        destruct e; cbn [channel first_end second_end]; repeat match goal with |- context [if streqb m ?x then _ else _] => destruct (streqb m x) end; ring. }
      assert (LW : (forall e, In e parts -> has_current e = true -> Rabs (tr_gap src parts V I dI e) <= Newton.t_vea tol) <->
        Forall (fun e => has_current e = true -> Rabs match e with
         | PL id a b l _ => V a - V b - (dR l * dI id + linked dI id parts)
         | _ => tr_gap src [] (fun n => V n) (fun id => I id) (fun id => dI id) e end <= Newton.t_vea tol) parts).
      { rewrite Forall_forall. split; intros H e E; specialize (H e E); destruct e; exact H. }
      rewrite LW. split.
      + intros (A1 & A2 & B & C). split; [exact A1|]. split; [exact A2|]. split; [|exact C]. intros m k M1 M2. specialize (B m M1 M2). rewrite LV in B. exact B.
      + intros (A1 & A2 & B & C). split; [exact A1|]. split; [exact A2|]. split; [|exact C]. intros m M1 M2. rewrite LV. exact (B m tt M1 M2).
    - intros f f' v i v' i' k e F VV II. pose proof (tr_values_ren s f f' i i' e II) as SR.
      pose proof (square_ren f f' e) as SQ. pose proof (current_ren f f' e) as CU. unfold dev_through, dev_current.
      destruct e; cbn [ref_free] in F; try contradiction; cbn [ren tr_through through channel controls map fst snd] in *; rewrite ?VV, ?II, ?SR, ?SQ, ?CU; cbn [map fst snd]; rewrite ?VV; try reflexivity.
      match goal with |- context [square ?e] => destruct (square e) end; cbn [map fst snd]; rewrite ?VV; reflexivity.
    - intros f f' v i v' i' e F VV II. pose proof (tr_values_ren s f f' i i' e II) as SR.
      destruct e; cbn [ref_free] in F; try contradiction; cbn [ren has_current tr_gap] in *; rewrite ?VV, ?II, ?SR; reflexivity.
  Qed.
End Devices.
Print Assumptions C210_devices.

(** * C211: from the text of a netlist with subcircuits to the results *)

Definition dc_solution (at0 : str -> R) (h : hier) (V I : str -> R) : Prop := V (lit "0") = 0 /\ dc_hier V I at0 h.
(** The laws of the netlist and of the instances have one solution and only one. *)
Definition hier_posed (at0 : str -> R) (h : hier) : Prop :=
  exists V I, dc_solution at0 h V I /\
    forall V' I', dc_solution at0 h V' I' ->
      (forall n, In n (node_list (flatten [] top h)) -> V' n = V n) /\ (forall id, In id (current_ids (flatten [] top h)) -> I' id = I id).

(** What C192 says of a netlist of elements, for a netlist with subcircuits: the voltages and
    currents reported under the full names of C28 are those for which the netlist and each
    instance obey their laws. *)
Theorem C211_operating_point : forall fs user dep fuel filename h t es, load_all fs user dep fuel filename = Ok (flatten [] top h, t, es) ->
  (* nothing is said of user-defined elements, except that names are words in lower case *)
  (forall line l, user line = Ok l -> Forall word_names l) ->
  plain_names h -> distinct_insts h -> refs_outside h ->
  let parts := flatten [] top h in
  forall at0, Forall (sound parts) parts -> hier_posed at0 h ->
  forall solve JT check locked o tdo maxit fuel' gmin x0 x flag,
  let n := op_size t es in
  (* the linear solver solves, and refuses singular matrices only *)
  (forall A b y, solve n A b = Some y -> forall i, (i < n)%nat -> row n A i y = b i) ->
  (forall A b, solve n A b = None -> exists z, (forall i, (i < n)%nat -> row n A i z = 0) /\ exists i, (i < n)%nat /\ z i <> 0) ->
  d_first tdo = false -> (0 < maxit)%nat -> o_std o = true ->
  op_run solve JT check locked o tdo maxit (S fuel') gmin at0 t es x0 = Ok (Some (x, flag)) ->
  flag = true /\
  forall V I, dc_solution at0 h V I ->
    (forall n name, In n (node_list parts) -> n <> lit "0" -> slower name = slower (lit "V" ++ n) -> op_report t es x name = Ok (V n)) /\
    (forall id name, In id (current_ids parts) -> slower name = slower (lit "I(" ++ id ++ lit ")") -> op_report t es x name = Ok (I id)).
Proof.
  intros fs user dep fuel filename h t es LD U PN DI RO parts at0 SO HP solve JT check locked o tdo maxit fuel' gmin x0 x flag n SS SC DF MX OS RUN.
  destruct (C209_load _ _ _ _ _ _ U LD) as (other & OT & LD').
  assert (EQ : forall V I, laws (dc_source at0) V I parts <-> dc_solution at0 h V I) by (intros V I; apply C210_dc; assumption).
  assert (WP : well_posed (dc_source at0) parts).
  { destruct HP as (V & I & S1 & S2). exists V, I. split; [apply EQ, S1|]. intros V' I' L. apply S2, EQ, L. }
  destruct (C192_operating_point fs other fuel filename parts t es LD' (fun line l H => Forall_impl _ (fun e He => proj1 He) (OT line l H)) at0 SO WP solve JT check locked o tdo maxit fuel' gmin x0 x flag SS SC DF MX OS RUN) as (FL & RP).
  split; [exact FL|]. intros V I SOL. apply RP, EQ, SOL.
Qed.
Print Assumptions C211_operating_point.

(** AC analysis: what C193 says. *)
Definition ac_solution (w g c : R) (h : hier) (Vr Vi Ir Ii : str -> R) : Prop :=
  let parts := flatten [] top h in
  Vr (lit "0") = 0 /\ Vi (lit "0") = 0 /\ ac_place w g c true Vr Vi Ir Ii (fun id => linked Ir id parts) (fun id => linked Ii id parts) h.
Definition ac_hier_posed (w g c : R) (h : hier) : Prop :=
  exists Vr Vi Ir Ii, ac_solution w g c h Vr Vi Ir Ii /\
    forall Vr' Vi' Ir' Ii', ac_solution w g c h Vr' Vi' Ir' Ii' ->
      (forall n, In n (node_list (flatten [] top h)) -> Vr' n = Vr n /\ Vi' n = Vi n) /\
      (forall id, In id (current_ids (flatten [] top h)) -> Ir' id = Ir id /\ Ii' id = Ii id).

Theorem C211_ac : forall fs user dep fuel filename h t es, load_all fs user dep fuel filename = Ok (flatten [] top h, t, es) ->
  (forall line l, user line = Ok l -> Forall word_names l) ->
  plain_names h -> distinct_insts h -> refs_outside h ->
  let parts := flatten [] top h in
  Forall (ac_sound parts) parts ->
  forall csolve o maxit fuel' cmin gmin angle start stop points stype x0 rows,
  csolver_ok (op_size t es) csolve -> is_angle angle -> o_std o = true ->
  ac_run csolve o false maxit fuel' cmin gmin parts t es start stop points stype x0 = Ok (Some rows) ->
  let c := Rmax 0 cmin in
  let report := ac_report angle false t es rows in
  exists ws, omegas fuel' start stop points stype = Ok ws /\
    (forall name, slower name = lit "f" -> report name = Ok (map (fun w => (w / (2 * Rtrigo1.PI), 0)) ws)) /\
    ((forall w, In w ws -> ac_hier_posed w gmin c h) ->
     (forall n name, In n (node_list parts) -> n <> lit "0" -> slower name = slower (lit "V" ++ n) ->
        exists l, report name = Ok l /\
          Forall2 (fun w z => forall Vr Vi Ir Ii, ac_solution w gmin c h Vr Vi Ir Ii -> z = (Vr n, Vi n)) ws l) /\
     (forall id name, In id (current_ids parts) -> slower name = slower (lit "I(" ++ id ++ lit ")") ->
        exists l, report name = Ok l /\
          Forall2 (fun w z => forall Vr Vi Ir Ii, ac_solution w gmin c h Vr Vi Ir Ii -> z = (Ir id, Ii id)) ws l)).
Proof.
  intros fs user dep fuel filename h t es LD U PN DI RO parts SO csolve o maxit fuel' cmin gmin angle start stop points stype x0 rows CS AN OS RUN c report.
  destruct (C209_load _ _ _ _ _ _ U LD) as (other & OT & LD').
  assert (EQ : forall w Vr Vi Ir Ii, ac_laws w gmin c true parts Vr Vi Ir Ii <-> ac_solution w gmin c h Vr Vi Ir Ii) by (intros w Vr Vi Ir Ii; apply C210_ac; assumption).
  destruct (C193_ac fs other fuel filename parts t es LD' OT SO csolve o maxit fuel' cmin gmin angle start stop points stype x0 rows CS AN OS RUN) as (ws & W1 & W2 & W3).
  exists ws. split; [exact W1|]. split; [exact W2|]. intros HP.
  assert (WP : forall w, In w ws -> ac_well_posed w gmin c parts).
  { intros w IW. destruct (HP w IW) as (Vr & Vi & Ir & Ii & S1 & S2). exists Vr, Vi, Ir, Ii. split; [apply EQ, S1|]. intros Vr' Vi' Ir' Ii' L. apply S2, EQ, L. }
  assert (F2 : forall (P Q : R -> R * R -> Prop) l1 l2, (forall w z, P w z -> Q w z) -> Forall2 P l1 l2 -> Forall2 Q l1 l2) by (intros P Q l1 l2 PQ F; induction F; constructor; auto).
  destruct (W3 WP) as [R1 R2]. split.
  - intros n name IN N0 E. destruct (R1 n name IN N0 E) as (l & L1 & L2). exists l. split; [exact L1|]. eapply F2; [|exact L2]. intros w z H Vr Vi Ir Ii SOL. apply (H Vr Vi Ir Ii), EQ, SOL.
  - intros id name IN E. destruct (R2 id name IN E) as (l & L1 & L2). exists l. split; [exact L1|]. eapply F2; [|exact L2]. intros w z H Vr Vi Ir Ii SOL. apply (H Vr Vi Ir Ii), EQ, SOL.
Qed.
Print Assumptions C211_ac.

(** Transient analysis: what C196 says, and at each point the netlist and each instance obey
    their laws. *)
Lemma marches_laws : forall src g c parts d run, marches src g c parts d run -> forall pre p past, run = pre ++ p :: past -> past <> [] ->
  tr_laws (src (p_t p)) g c parts (p_V p) (p_I p) (p_dV p) (p_dI p).
Proof.
  intros src g c parts d run. induction run as [|q run IH]; intros M pre p past E NE; [destruct pre; discriminate E|]. destruct pre as [|q' pre].
  - injection E as -> ->. cbn [marches] in M. destruct past as [|q past]; [congruence|]. apply M.
  - injection E as -> E. cbn [marches] in M. exact (IH (proj2 M) pre p past E NE).
Qed.
Lemma tr_laws_ext : forall src src' g c parts V I dV dI, (forall e, src e = src' e) -> tr_laws src g c parts V I dV dI -> tr_laws src' g c parts V I dV dI.
Proof.
  intros src src' g c parts V I dV dI E (A & B & C & D). split; [exact A|]. split; [exact B|]. split.
  - intros n N1 N2. rewrite <- (C n N1 N2). f_equal. f_equal. clear - E. induction parts as [|e l IH]; [reflexivity|]. cbn [tr_leaving]. rewrite IH. f_equal. unfold tr_leaving1.
    replace (tr_through src' V I dV e) with (tr_through src V I dV e); [reflexivity|]. destruct e; cbn [tr_through through]; rewrite ?E; reflexivity.
  - eapply Forall_impl; [|exact D]. intros e L. destruct e; cbn [tr_law law] in *; rewrite <- ?E; exact L.
Qed.

Theorem C211_tran : forall fs user dep fuel filename h t es, load_all fs user dep fuel filename = Ok (flatten [] PropsSubckt.top h, t, es) ->
  (forall line l, user line = Ok l -> Forall word_names l) ->
  plain_names h -> distinct_insts h -> refs_outside h ->
  let parts := flatten [] PropsSubckt.top h in
  Forall (ac_sound parts) parts ->
  forall solve JT check locked o tdo maxit fuel' top cmin gmin at_time inv modules has_module method sc tstart tstep tstop x0 rounds rows,
  let n := op_size t es in
  (forall A b y, solve n A b = Some y -> forall i, (i < n)%nat -> row n A i y = b i) ->
  (forall A b, solve n A b = None -> exists z, (forall i, (i < n)%nat -> row n A i z = 0) /\ exists i, (i < n)%nat /\ z i <> 0) ->
  d_first tdo = false -> (0 < maxit)%nat -> o_std o = true -> 0 < tstep ->
  (forall k, 0 < k -> tr_regular k gmin (Rmax 0 cmin) parts) ->
  tran_run solve JT check locked o tdo maxit (S fuel') top cmin gmin at_time inv modules has_module method sc t es tstart tstep tstop x0 rounds = Ok (Some rows) ->
  let report := tran_report t es rows in
  let src time := driven (fun id => at_time id time) written_dc in
  exists d start points, choose_df has_module method = Ok d /\
    Forall (fun p => p_V p (lit "0") = 0 /\ p_dV p (lit "0") = 0 /\
      tr_place 1 gmin (Rmax 0 cmin) (p_V p) (p_I p) (p_dV p) (p_dI p) (fun id => at_time id (p_t p)) (fun id => linked (p_dI p) id parts) h) points /\
    marches src gmin (Rmax 0 cmin) parts d (rev (start :: points)) /\
    p_t start = tstart /\ points <> [] /\ tstop <= last_from tstart (map p_t points) /\
    (forall n name, In n (node_list parts) -> n <> lit "0" -> slower name = slower (lit "V" ++ n) -> op_report t es (tran_start x0) name = Ok (p_V start n)) /\
    (forall id name, In id (current_ids parts) -> slower name = slower (lit "I(" ++ id ++ lit ")") -> op_report t es (tran_start x0) name = Ok (p_I start id)) /\
    (forall name, slower name = lit "t" -> report name = Ok (map p_t points)) /\
    (forall n name, In n (node_list parts) -> n <> lit "0" -> slower name = slower (lit "V" ++ n) -> report name = Ok (map (fun p => p_V p n) points)) /\
    (forall id name, In id (current_ids parts) -> slower name = slower (lit "I(" ++ id ++ lit ")") -> report name = Ok (map (fun p => p_I p id) points)).
Proof.
  intros fs user dep fuel filename h t es LD U PN DI RO parts SO solve JT check locked o tdo maxit fuel' tp cmin gmin at_time inv modules has_module method sc tstart tstep tstop x0 rounds rows
    n SS SN DF MX OS TS REG RUN report src.
  destruct (C209_load _ _ _ _ _ _ U LD) as (other & OT & LD').
  destruct (C196_tran fs other fuel filename parts t es LD' OT SO solve JT check locked o tdo maxit fuel' tp cmin gmin at_time inv modules has_module method sc tstart tstep tstop x0 rounds rows
    SS SN DF MX OS TS REG RUN) as (d & start & points & CD & MA & REST).
  exists d, start, points. split; [exact CD|]. split; [|split; [exact MA|exact REST]].
  apply Forall_forall. intros p IP. apply (C210_tran h 1 gmin (Rmax 0 cmin) (fun id => at_time id (p_t p)) (p_V p) (p_I p) (p_dV p) (p_dI p) PN DI RO).
  apply in_split in IP. destruct IP as (l1 & l2 & EP).
  apply (tr_laws_ext (src (p_t p))); [intros e; unfold src; symmetry; apply Rmult_1_l|].
  apply (marches_laws src gmin (Rmax 0 cmin) parts d _ MA (rev l2) p (rev (start :: l1))).
  - rewrite EP. cbn [rev]. rewrite rev_app_distr. cbn [rev]. rewrite <- !app_assoc. reflexivity.
  - cbn [rev]. intros Q. apply app_eq_nil in Q. destruct Q as [_ Q]. discriminate Q.
Qed.
Print Assumptions C211_tran.

(** The operating point of circuits with devices: what C197 says. *)
Theorem C211_devices : forall fs user dep fuel filename h t es, load_all fs user dep fuel filename = Ok (flatten [] top h, t, es) ->
  (forall line l, user line = Ok l -> Forall word_names l) ->
  plain_names h -> distinct_insts h -> refs_outside h ->
  let parts := flatten [] top h in
  Forall (nl_sound parts) parts -> has_device parts ->
  forall square current stamp conductance JT,
  (forall f g e, square (ren f g e) = square e) -> (forall f g e v, current (ren f g e) v = current e v) ->
  (forall x, devices square current stamp conductance t parts x = Ok (JT x)) ->
  forall solve tol locked o tdo maxit fuel' gmin at0 x0 x flag,
  let check x dx r := convergence_check tol (op_size t es) x dx r (get_nodes_number t - 1) in
  0 < d_max tdo ->
  op_run solve JT check locked o tdo maxit fuel' gmin at0 t es x0 = Ok (Some (x, flag)) ->
  exists V I V' I' s g,
    (forall n name, In n (node_list parts) -> n <> lit "0" -> slower name = slower (lit "V" ++ n) -> op_report t es x name = Ok (V n)) /\
    (forall id name, In id (current_ids parts) -> slower name = slower (lit "I(" ++ id ++ lit ")") -> op_report t es x name = Ok (I id)) /\
    (* are near to values for which the laws of the netlist and of the instances nearly hold *)
    settled tol parts V I V' I' /\ stage o (if flag then 0 else gmin) s g /\
    V' (lit "0") = 0 /\ nl_place square current tol s g 0 V' I' (fun _ => 0) (fun _ => 0) at0 (fun _ => 0) h.
Proof.
  intros fs user dep fuel filename h t es LD U PN DI RO parts SO HD square current stamp conductance JT SQ CU DEV solve tol locked o tdo maxit fuel' gmin at0 x0 x flag check DM RUN.
  destruct (C209_load _ _ _ _ _ _ U LD) as (other & OT & LD').
  destruct (C197_nonlinear fs other fuel filename parts t es LD' (fun line l H => Forall_impl _ (fun e He => proj1 He) (OT line l H)) SO HD square current stamp conductance JT DEV
    solve tol locked o tdo maxit fuel' gmin at0 x0 x flag DM RUN) as (V & I & V' & I' & s & g & R1 & R2 & SE & ST & LA).
  exists V, I, V', I', s, g. split; [exact R1|]. split; [exact R2|]. split; [exact SE|]. split; [exact ST|].
  apply (C210_devices square current SQ CU h tol s g 0 at0 V' I' (fun _ => 0) (fun _ => 0) PN DI RO) in LA. destruct LA as (A & _ & B). split; [exact A|].
  assert (EF : (fun id => linked (fun _ => 0) id parts) = (fun _ => 0)).
  { apply FunctionalExtensionality.functional_extensionality. intros id. generalize parts. intros l. induction l as [|e l IH]; [reflexivity|]. destruct e; cbn [linked]; rewrite ?IH; repeat match goal with |- context [if ?b then _ else _] => destruct b end; ring. }
  fold parts in B. rewrite EF in B. exact B.
Qed.
Print Assumptions C211_devices.

(** ** An example: 3 A drawn from a node with 2 Ohm to ground, inside a subcircuit. *)
Definition boxed : list str := map lit ["boxed"; "X1 name=load p=A"; "I1 a 0 type=idc idc=3"; ".subckt load p"; "R1 p 0 2"; ".ends"; ".OP"]%string.
Definition boxed_hier : hier :=
  HInst (lit "x1") (lit "load") [(lit "p", lit "a")] (HElem (PR (lit "r1") (lit "p") (lit "0") (2, 0)%Z) HNil)
    (HElem (PI (lit "i1") (lit "a") (lit "0") (Some (3, 0)%Z) None None) HNil).
Definition boxed_es : list lelem := [ER "r-x1-load-1" 1 0 2; EI "i1" 1 0 3 false].
Definition boxed_parts : list pelem := [PR (lit "r-x1-load-1") (lit "a") (lit "0") (2, 0)%Z; PI (lit "i1") (lit "a") (lit "0") (Some (3, 0)%Z) None None].
Lemma boxed_load : load_all (fun _ => Some boxed) (fun _ => Err NetlistParseError) 1 1 (lit "f") = Ok (flatten [] top boxed_hier, shunt_t, boxed_es).
Proof.
  assert (E : boxed_es = [ER "r-x1-load-1" 1 0 (dR (2, 0)%Z); EI "i1" 1 0 (dR (3, 0)%Z) false]) by (rewrite !dR_0; reflexivity). rewrite E. unfold load_all.
  match goal with |- context [read_netlist ?a ?b ?c] => let r := eval vm_compute in (read_netlist a b c) in change (read_netlist a b c) with r end. cbn [bindr r_models r_lines r_subs map parse_models fst snd].
  match goal with |- context [parse_subs ?a ?b] => let r := eval vm_compute in (parse_subs a b) in change (parse_subs a b) with r end. cbn [bindr]. cbv zeta.
  match goal with |- context [main_netlist_parser ?a ?b ?c ?d] => let r := eval vm_compute in (main_netlist_parser a b c d) in change (main_netlist_parser a b c d) with r end. cbn [bindr].
  cbv -[dR]. reflexivity.
Qed.
Lemma boxed_newton : forall mx JT check locked,
  op_newton (fun _ => solve1) JT check locked (mkTd false true (1/10)) (S mx) shunt_t boxed_es = newt1 mx JT check.
Proof. intros. reflexivity. Qed.
Lemma boxed_run : forall mx JT check locked at0, exists x,
  op_run (fun _ => solve1) JT check locked PropsDc.default_opts (mkTd false true (1/10)) (S mx) 30 (1/1000000000000) at0 shunt_t boxed_es vzero = Ok (Some (x, true)) /\
  x 0%nat = -6.
Proof.
  intros mx JT check locked at0. unfold op_run. rewrite boxed_newton. change (get_nodes_number shunt_t) with 2%nat.
  destruct (C68_example mx JT check (fun e => at0 (list_ascii_of_string (lid e)))) as (x & RUN & Y). exists x. split; [|exact Y]. rewrite <- RUN. unfold op_analysis.
  assert (G : generate_mna_and_N 2 boxed_es = generate_mna_and_N 2 [ER "r1" 1 0 2; EI "i1" 1 0 3 false]) by reflexivity.
  assert (T : time_term 2 (fun e => at0 (list_ascii_of_string (lid e))) boxed_es = time_term 2 (fun e => at0 (list_ascii_of_string (lid e))) [ER "r1" 1 0 2; EI "i1" 1 0 3 false]) by reflexivity.
  rewrite G, T. reflexivity.
Qed.
Lemma boxed_report : forall x, op_report shunt_t boxed_es x (lit "va") = Ok (x 0%nat).
Proof.
  intros x. unfold op_report.
  assert (N : names_of shunt_t (seq 1 (get_nodes_number shunt_t - 1)) = @Ok (list str) [lit "a"]) by (vm_compute; reflexivity).
  assert (Z : op_size shunt_t boxed_es = 1%nat) by reflexivity.
  assert (L : map (fun e : lelem => list_ascii_of_string (lid e)) (filter is_vde boxed_es) = []) by reflexivity.
  rewrite N, Z, L. cbn [bindr map seq]. unfold op_getitem.
  assert (U : upper_mem (op_vars [lit "a"] (@nil (list Ascii.ascii))) (lit "va") = true) by (vm_compute; reflexivity).
  assert (F : find_header (op_vars [lit "a"] (@nil (list Ascii.ascii))) (lit "va") 0 = Some 0%nat) by (vm_compute; reflexivity).
  rewrite U, F. reflexivity.
Qed.
Example C211_example : forall mx JT check locked at0,
  load_all (fun _ => Some boxed) (fun _ => Err NetlistParseError) 1 1 (lit "f") = Ok (flatten [] top boxed_hier, shunt_t, boxed_es) /\
  plain_names boxed_hier /\ distinct_insts boxed_hier /\ refs_outside boxed_hier /\ hier_posed at0 boxed_hier /\
  exists x, op_run (fun _ => solve1) JT check locked PropsDc.default_opts (mkTd false true (1/10)) (S mx) 30 (1/1000000000000) at0 shunt_t boxed_es vzero = Ok (Some (x, true)) /\
  op_report shunt_t boxed_es x (lit "va") = Ok (-6).
Proof.
  intros mx JT check locked at0. split; [exact boxed_load|].
  assert (PW : forall s : str, existsb (fun c => if ascii_dec dash c then true else false) s = false -> plain s).
  { intros s E Q. assert (T : existsb (fun c => if ascii_dec dash c then true else false) s = true) by (apply existsb_exists; exists dash; split; [exact Q|reflexivity]). congruence. }
  assert (PN : plain_names boxed_hier).
  { cbn [boxed_hier plain_names pid nodes_in].
    repeat first [exact Logic.I | discriminate | apply PW; vm_compute; reflexivity | split | apply Forall_nil | apply Forall_cons
      | (constructor; [intros Q; cbn in Q; repeat (destruct Q as [Q|Q]; [discriminate Q|]); exact Q|]) | constructor]. }
  split; [exact PN|].
  assert (DI : distinct_insts boxed_hier).
  { cbn. tauto. }
  split; [exact DI|].
  assert (RO : refs_outside boxed_hier) by (cbn; tauto). split; [exact RO|]. split.
  - assert (EQ : forall V I, laws (dc_source at0) V I boxed_parts <-> dc_solution at0 boxed_hier V I) by (intros V I; apply (C210_dc boxed_hier); assumption).
    exists (fun n => if streqb n (lit "a") then -6 else 0), (fun _ => 0). split.
    + apply EQ. split; [reflexivity|]. split; [|repeat constructor]. intros n. unfold boxed_parts. cbn [leaving]. unfold leaving1. cbn [first_end second_end through dc_source driven written_dc]. at_names. rewrite !dR_0.
      destruct (streqb n (lit "a")), (streqb n (lit "0")); lra.
    + intros V' I' L. apply EQ in L. destruct L as (A & B & _). pose proof (B (lit "a")) as K. unfold boxed_parts in K. cbn [leaving] in K. unfold leaving1 in K.
      cbn [first_end second_end through dc_source driven written_dc] in K. at_names_in K. rewrite !dR_0, A in K.
      split; intros n H; cbn in H; [|destruct H].
      assert (N : n = lit "a" \/ n = lit "0") by (unfold lit; cbn; intuition auto). destruct N as [-> | ->]; at_names; [lra|exact A].
  - destruct (boxed_run mx JT check locked at0) as (x & RUN & Y). exists x. split; [exact RUN|]. rewrite boxed_report, Y. reflexivity.
Qed.
