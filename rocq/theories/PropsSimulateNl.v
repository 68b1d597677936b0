(** From the text of a netlist with diodes and transistors to the results of the operating
    point and of the transient analysis (C197, C198). *)
From Coq Require Import Ascii String Reals List Bool Arith ZArith Lia Lra Psatz.
From Verif Require Import Base BaseFacts Str Units Directive Lines Reader Netlist ModelLines Nodes NodesFacts Circuit CircuitFacts Rsum Mna MnaSpec MnaFacts DcSolve DcSolveFacts
  Newton NewtonFacts DynFacts Stamp PropsStamp Lagrange Df PropsDf Tran TranFacts PropsTran Csv PropsCsv Results PropsReader PropsNetlist PropsResults PropsDc PropsMna PropsAc Session Simulate
  PropsSimulate SimulateAc PropsSimulateAc SimulateDc PropsSimulateDc PropsSimulateOp SimulateTran PropsSimulateTran SimulateNl.
Import ListNotations.
Open Scope R_scope.

(** * What a netlist with nonlinear devices says, and how nearly *)
Section NlLaws.
  (** Whether the model of a transistor is a square-law one, and the current of a device
      for the voltages of its drive ports. *)
  Variables (square : pelem -> bool) (current : pelem -> list R -> R).

  (** The current of a diode is controlled by the voltage from anode to cathode; that of a
      transistor by the voltages of drain, gate and bulk against the source, or of drain,
      gate and source against the bulk. *)
  Definition controls (e : pelem) : list (str * str) :=
    match e with
    | PD _ anode cathode _ _ _ => [(anode, cathode)]
    | PM _ drain gate source bulk _ _ _ _ _ => if square e then [(drain, source); (gate, source); (bulk, source)] else [(drain, bulk); (gate, bulk); (source, bulk)]
    | _ => []
    end.
  Definition dev_current (V : str -> R) (e : pelem) : R := current e (map (fun p => V (fst p) - V (snd p)) (controls e)).
  (** It flows from anode to cathode, from drain to source. *)
  Definition channel (e : pelem) : option (str * str) :=
    match e with
    | PD _ anode cathode _ _ _ => Some (anode, cathode)
    | PM _ drain _ source _ _ _ _ _ _ => Some (drain, source)
    | _ => None
    end.
  Definition dev_leaving1 (V : str -> R) (n : str) (e : pelem) : R :=
    match channel e with
    | Some (a, b) => (if streqb n a then dev_current V e else 0) - (if streqb n b then dev_current V e else 0)
    | None => 0
    end.
  Fixpoint dev_leaving (V : str -> R) (n : str) (l : list pelem) : R :=
    match l with [] => 0 | e :: l' => dev_leaving1 V n e + dev_leaving V n l' end.

  (** The currents of the nodes add up to zero, and the laws of the elements hold, within
      the absolute tolerances on currents and voltages. *)
  Definition nl_laws (tol : tols) (src : pelem -> R) (g c : R) (parts : list pelem) (V I dV dI : str -> R) : Prop :=
    V (lit "0") = 0 /\ dV (lit "0") = 0 /\
    (forall n, In n (node_list parts) -> n <> lit "0" ->
       Rabs (tr_leaving src V I dV n parts + dev_leaving V n parts + g * V n + c * dV n) <= Newton.t_iea tol) /\
    (forall e, In e parts -> has_current e = true -> Rabs (tr_gap src parts V I dI e) <= Newton.t_vea tol).
End NlLaws.
Lemma channel_ok : forall e, channel e = out_port e.
Proof. destruct e; reflexivity. Qed.
Lemma controls_ok : forall square e, controls square e = drive_ports square e.
Proof. destruct e; reflexivity. Qed.

(** From [V'], [I'] to [V], [I] by a part of a small step. *)
Definition settled (tol : tols) (parts : list pelem) (V I V' I' : str -> R) : Prop :=
  exists k dV dI, 0 < k <= 1 /\ (forall n, V n = V' n + k * dV n) /\ (forall id, I id = I' id + k * dI id) /\
    (forall n, In n (node_list parts) -> n <> lit "0" -> Rabs (dV n) <= Newton.t_vea tol + Newton.t_ver tol * Rabs (V n + dV n)) /\
    (forall id, In id (current_ids parts) -> Rabs (dI id) <= Newton.t_iea tol + Newton.t_ier tol * Rabs (I id + dI id)).

(** The scale of the sources and the conductance from each node to ground: as asked for,
    or, if the methods are allowed, those of a step of the source or of the gmin
    stepping. *)
Definition stage (o : dopts) (base s g : R) : Prop :=
  (s = 1 /\ g = base) \/
  (DcSolve.o_src o = true /\ g = base /\ exists k, (k < 10)%nat /\ s = source_factor k) \/
  (DcSolve.o_gmin o = true /\ s = 1 /\ exists k, g = gmin_step k).

(** The linear elements as in C193; the ends of a diode, and drain and source of a transistor,
    are different nodes (C94); no switches. *)
Definition nl_sound (parts : list pelem) (e : pelem) : Prop :=
  match e with
  | PD _ a b _ _ _ => a <> b
  | PM _ nd _ ns _ _ _ _ _ _ => nd <> ns
  | PS _ _ _ _ _ _ => False
  | _ => ac_sound parts e
  end.

(** * Lemmas *)

(** ** The nonlinear elements have no part in the matrices *)
Definition linl (e : lelem) : bool := match e with ENL _ _ _ => false | _ => true end.
Definition linp (e : pelem) : bool := match e with PD _ _ _ _ _ _ | PM _ _ _ _ _ _ _ _ _ _ | PS _ _ _ _ _ _ => false | _ => true end.

Lemma lin_index : forall es s, vde_index (filter linl es) s = vde_index es s.
Proof.
  intros es s. unfold vde_index. generalize 0%nat. induction es as [|e es IH]; intros k; [reflexivity|].
  destruct e; cbn [filter linl map find_vde_index_from as_celem vdef is_vde part_id lid]; rewrite ?IH; reflexivity.
Qed.
Lemma lin_n_vde : forall es, n_vde (filter linl es) = n_vde es.
Proof. intros es. unfold n_vde. induction es as [|e es IH]; [reflexivity|]. destruct e; cbn [filter linl is_vde List.length]; rewrite ?IH; reflexivity. Qed.
Lemma lin_size : forall t es, op_size t (filter linl es) = op_size t es.
Proof. intros t es. unfold op_size. rewrite lin_n_vde. reflexivity. Qed.
Lemma lin_stamp1 : forall es st, fold_left stamp1 (filter linl es) st = fold_left stamp1 es st.
Proof. induction es as [|e es IH]; intros [m v]; [reflexivity|]. destruct e; cbn [filter linl fold_left stamp1]; apply IH. Qed.
Lemma lin_pass2 : forall nv all es k st, pass2 nv (filter linl all) (filter linl es) k st = pass2 nv all es k st.
Proof.
  intros nv all es. induction es as [|e es IH]; intros k [m v]; [reflexivity|].
  destruct e; cbn [filter linl pass2 is_vde stamp_vde]; rewrite ?lin_index; try apply IH.
  all: try (cbn [bindr]; apply IH).
  destruct (vde_index all src) as [j|]; [|reflexivity]. cbn [bindr]. destruct (j <=? k)%nat; [|reflexivity]. cbn [bindr]. apply IH.
Qed.
Lemma lin_pass3 : forall nv all es m, pass3 nv (filter linl all) (filter linl es) m = pass3 nv all es m.
Proof.
  intros nv all es. induction es as [|e es IH]; intros m; [reflexivity|].
  destruct e; cbn [filter linl pass3 stampF bindr]; rewrite ?lin_index; try apply IH.
  destruct (vde_index all src) as [j|]; [|reflexivity]. cbn [bindr]. apply IH.
Qed.
Lemma lin_system : forall nv es, generate_mna_and_N nv (filter linl es) = generate_mna_and_N nv es.
Proof.
  intros nv es. unfold generate_mna_and_N. rewrite lin_stamp1, lin_pass2. destruct (pass2 nv es es 0 _) as [[m v]|]; [|reflexivity]. cbn [bindr fst].
  rewrite lin_pass3. reflexivity.
Qed.
Lemma lin_time : forall nv tv es, time_term nv tv (filter linl es) = time_term nv tv es.
Proof.
  intros nv tv es. unfold time_term. generalize 0%nat vzero. induction es as [|e es IH]; intros k v; [reflexivity|].
  destruct e; cbn [filter linl tt_loop is_vde]; apply IH.
Qed.
Lemma lin_couplings : forall es id, couplings_of (filter linl es) id = couplings_of es id.
Proof. intros es id. unfold couplings_of. induction es as [|e es IH]; [reflexivity|]. destruct e; cbn [filter linl flat_map app]; rewrite ?IH; reflexivity. Qed.
Lemma lin_add_couplings : forall nv k es id cs d, add_couplings nv k (filter linl es) id cs d = add_couplings nv k es id cs d.
Proof.
  intros nv k es id cs. induction cs as [|c cs IH]; intros d; [reflexivity|]. cbn [add_couplings]. destruct (other_inductor c id) as [o|]; [|reflexivity]. cbn [bindr].
  rewrite lin_index. destruct (vde_index es o); [|reflexivity]. cbn [bindr]. apply IH.
Qed.
Lemma lin_dynamic : forall cmin nv es, generate_D cmin nv (filter linl es) = generate_D cmin nv es.
Proof.
  intros cmin nv es. unfold generate_D. f_equal. change (dyn_loop nv (filter linl es) (filter linl es) 0 mzero = dyn_loop nv es es 0 mzero).
  assert (K : forall l k d, dyn_loop nv (filter linl es) (filter linl l) k d = dyn_loop nv es l k d); [|apply K].
  induction l as [|e l IH]; intros k d; [reflexivity|].
  destruct e; cbn [filter linl dyn_loop is_vde]; try apply IH.
  rewrite lin_couplings, lin_add_couplings. destruct (add_couplings _ _ _ _ _ _); [|reflexivity]. cbn [bindr]. apply IH.
Qed.

Lemma lin_placed : forall val t parts es, Forall2 (placed val t) parts es -> Forall2 (placed val t) (filter linp parts) (filter linl es).
Proof.
  intros val t parts es F. induction F as [|e l parts es P F IH]; [constructor|].
  assert (E : linl l = linp e).
  { destruct e; cbn [placed] in P.
    4: { destruct P as (m & -> & _). reflexivity. }
    all: first [destruct P as (i & j & k & m & -> & _); reflexivity | destruct P as (i & j & -> & _); reflexivity | destruct P as (i & j & ->); reflexivity]. }
  cbn [filter]. rewrite E. destruct (linp e); [constructor; assumption|exact IH].
Qed.
Lemma lin_currents : forall parts, filter has_current (filter linp parts) = filter has_current parts.
Proof. induction parts as [|e parts IH]; [reflexivity|]. destruct e; cbn [filter linp has_current]; rewrite IH; reflexivity. Qed.
Lemma lin_ids : forall parts, current_ids (filter linp parts) = current_ids parts.
Proof. intros parts. unfold current_ids. rewrite lin_currents. reflexivity. Qed.
Lemma lin_leaving : forall src V I dV n parts, tr_leaving src V I dV n (filter linp parts) = tr_leaving src V I dV n parts.
Proof.
  intros src V I dV n parts. induction parts as [|e parts IH]; [reflexivity|].
  destruct e; cbn [filter linp tr_leaving]; rewrite IH; try reflexivity.
  all: unfold tr_leaving1; cbn [tr_through through]; repeat match goal with |- context [if ?b then _ else _] => destruct b end; ring.
Qed.
Lemma lin_linked : forall dI id parts, linked dI id (filter linp parts) = linked dI id parts.
Proof. intros dI id parts. induction parts as [|e parts IH]; [reflexivity|]. destruct e; cbn [filter linp linked]; rewrite ?IH; try reflexivity. Qed.
Lemma lin_gap : forall src parts V I dI e, tr_gap src (filter linp parts) V I dI e = tr_gap src parts V I dI e.
Proof. intros src parts V I dI e. destruct e; cbn [tr_gap]; rewrite ?lin_linked; reflexivity. Qed.

(** ** Scaled sources *)
Lemma leaving_scaled : forall src s V I V0 I0 n l, (forall m, V0 m = 0) -> (forall m, I0 m = 0) ->
  leaving (fun e => s * src e) V I n l = leaving src V I n l + (s - 1) * leaving src V0 I0 n l.
Proof.
  intros src s V I V0 I0 n l HV HI. induction l as [|e l IH]; [cbn; lra|]. cbn [leaving]. rewrite IH.
  assert (K : leaving1 (fun e => s * src e) V I n e = leaving1 src V I n e + (s - 1) * leaving1 src V0 I0 n e); [|lra].
  unfold leaving1. assert (T : through (fun e => s * src e) V I e = through src V I e + (s - 1) * through src V0 I0 e).
  { destruct e; cbn [through]; rewrite ?HV, ?HI; unfold Rdiv; ring. }
  rewrite T. repeat match goal with |- context [if ?b then _ else _] => destruct b end; ring.
Qed.
Lemma gap_scaled : forall src s parts V I dI V0 I0 dI0 e, (forall m, V0 m = 0) -> (forall m, I0 m = 0) -> (forall m, dI0 m = 0) ->
  tr_gap (fun e => s * src e) parts V I dI e = tr_gap src parts V I dI e + (s - 1) * tr_gap src parts V0 I0 dI0 e.
Proof.
  intros src s parts V I dI V0 I0 dI0 e HV HI HD. destruct e; cbn [tr_gap]; rewrite ?HV, ?HI, ?HD, ?(linked_zero dI0) by exact HD; ring.
Qed.

Lemma tr_leaving_ext : forall src V1 I1 I2 dV n l, (forall id, I1 id = I2 id) -> tr_leaving src V1 I1 dV n l = tr_leaving src V1 I2 dV n l.
Proof.
  intros src V1 I1 I2 dV n l H. induction l as [|e l IH]; [reflexivity|]. cbn [tr_leaving]. rewrite IH. f_equal. unfold tr_leaving1.
  assert (T : tr_through src V1 I1 dV e = tr_through src V1 I2 dV e) by (destruct e; cbn [tr_through through]; rewrite ?H; reflexivity). rewrite T. reflexivity.
Qed.
Lemma linked_ext : forall I1 I2 id l, (forall j, I1 j = I2 j) -> linked I1 id l = linked I2 id l.
Proof. intros I1 I2 id l H. induction l as [|e l IH]; [reflexivity|]. destruct e; cbn [linked]; rewrite ?IH, ?H; reflexivity. Qed.
Lemma tr_gap_ext : forall src l V1 I1 I2 dI1 dI2 e, (forall id, I1 id = I2 id) -> (forall id, dI1 id = dI2 id) -> tr_gap src l V1 I1 dI1 e = tr_gap src l V1 I2 dI2 e.
Proof. intros src l V1 I1 I2 dI1 dI2 e H H'. destruct e; cbn [tr_gap]; rewrite ?H, ?H', ?(linked_ext _ _ _ _ H'); reflexivity. Qed.


(** ** The devices *)
Section Dev.
  Variables (square : pelem -> bool) (current : pelem -> list R -> R) (stamp : pelem -> list R -> nat -> nat -> R) (conductance : pelem -> list R -> nat -> R).
  Variable t : ntab.
  Hypothesis GR : grounded t.

  Lemma port_numbers_v : forall x l r, port_numbers t l = Ok r ->
    map (drive_v x) r = map (fun p => volt t (with_ground x) (fst p) - volt t (with_ground x) (snd p)) l.
  Proof.
    intros x l. induction l as [|[a b] l IH]; intros r H; cbn [port_numbers] in H; [injection H as <-; reflexivity|].
    unfold number in H. destruct (ext_node_to_int t (ss a)) as [i|] eqn:A; [|discriminate H]. cbn [bindr] in H.
    destruct (ext_node_to_int t (ss b)) as [j|] eqn:B; [|discriminate H]. cbn [bindr] in H.
    destruct (port_numbers t l) as [r'|]; [|discriminate H]. cbn [bindr] in H. injection H as <-. cbn [map]. rewrite (IH r' eq_refl). f_equal.
    cbn [fst snd]. unfold drive_v, volt. rewrite A, B. cbn [fst snd].
    destruct i as [|i], j as [|j]; cbn [with_ground Nat.eqb Nat.sub]; rewrite ?Nat.sub_0_r; reflexivity.
  Qed.

  Lemma device_T : forall parts x st st' e n i, nl_sound parts e -> device square current stamp conductance t x st e = Ok st' -> at_node t n (S i) ->
    snd st' i = snd st i + dev_leaving1 square current (volt t (with_ground x)) n e.
  Proof.
    intros parts x st st' e n i SO H At. unfold device in H. unfold dev_leaving1. rewrite channel_ok. destruct (out_port e) as [[a b]|] eqn:OP; [|injection H as <-; ring].
    assert (NE : a <> b) by (destruct e; try discriminate OP; cbn [out_port] in OP; injection OP as <- <-; exact SO).
    unfold number in H. destruct (ext_node_to_int t (ss a)) as [n1|] eqn:A; [|discriminate H]. cbn [bindr] in H.
    destruct (ext_node_to_int t (ss b)) as [n2|] eqn:B; [|discriminate H]. cbn [bindr] in H.
    destruct (port_numbers t (drive_ports square e)) as [dp|] eqn:DP; [|discriminate H]. cbn [bindr] in H.
    pose proof (port_numbers_v x _ _ DP) as DV.
    assert (N12 : n1 <> n2) by (intros ->; apply NE; eapply at_node_inj; [apply GR|exact A|exact B]).
    assert (EQ : forall c k, ext_node_to_int t (ss c) = Ok k -> streqb n c = (S i =? k)%nat).
    { intros c k C. destruct (list_eq_dec ascii_dec n c) as [->|N].
      - rewrite streqb_refl. pose proof (at_node_fun _ _ _ _ At C). subst k. symmetry. apply Nat.eqb_refl.
      - rewrite streqb_ne by exact N. symmetry. apply Nat.eqb_neq. intros <-. apply N. eapply at_node_inj; [apply GR|exact At|exact C]. }
    rewrite (EQ a n1 A), (EQ b n2 B). unfold dev_current. rewrite controls_ok, <- DV.
    destruct (stamp_nodes square e) as [l|].
    - destruct (numbers t l) as [ns|]; [|discriminate H]. cbn [bindr] in H.
      destruct (fancy_add_mat (fst st) _) as [J|]; [|discriminate H]. cbn [bindr] in H.
      destruct (C94_istamp_distinct (snd st) n1 n2 (current e (map (drive_v x) dp)) N12) as (T & ET & VT). rewrite ET in H. cbn [bindr] in H. injection H as <-.
      cbn [snd]. specialize (VT (S i) ltac:(lia)). cbn [Nat.sub] in VT. rewrite Nat.sub_0_r in VT. rewrite VT. ring.
    - injection H as <-. unfold upd_port. cbn [snd]. rewrite upd_T_val. cbn [np_out fst snd np_i np_drive].
      assert (G : forall k, gdlt i k = if (S i =? k)%nat then 1 else 0).
      { intros [|k]; unfold gdlt, dlt; cbn [Nat.eqb]; [reflexivity|]. cbn [Nat.sub]. rewrite Nat.sub_0_r. reflexivity. }
      rewrite !G. destruct (S i =? n1)%nat, (S i =? n2)%nat; ring.
  Qed.

  Lemma devices_T : forall parts x JT n i, Forall (nl_sound parts) parts -> devices square current stamp conductance t parts x = Ok JT -> at_node t n (S i) ->
    snd JT i = dev_leaving square current (volt t (with_ground x)) n parts.
  Proof.
    intros parts x JT n i SO H At. unfold devices in H.
    assert (K : forall l st st', Forall (nl_sound parts) l -> device_loop square current stamp conductance t x l st = Ok st' ->
      snd st' i = snd st i + dev_leaving square current (volt t (with_ground x)) n l).
    { induction l as [|e l IH]; intros st st' F Q; cbn [device_loop dev_leaving] in *; [injection Q as <-; ring|].
      destruct (device square current stamp conductance t x st e) as [st1|] eqn:D; [|discriminate Q]. cbn [bindr] in Q.
      rewrite (IH st1 st' (Forall_inv_tail F) Q), (device_T parts x st st1 e n i (Forall_inv F) D At). ring. }
    rewrite (K _ _ _ SO H). cbn [snd]. unfold vzero. ring.
  Qed.
  Lemma device_branch : forall x st st' e i, (forall n k, at_node t n k -> (k < S i)%nat) -> device square current stamp conductance t x st e = Ok st' ->
    (forall a b, out_port e = Some (a, b) -> a <> b) -> snd st' i = snd st i.
  Proof.
    intros x st st' e i FAR H NE. unfold device in H. destruct (out_port e) as [[a b]|] eqn:OP; [|injection H as <-; reflexivity].
    specialize (NE a b eq_refl).
    unfold number in H. destruct (ext_node_to_int t (ss a)) as [n1|] eqn:A; [|discriminate H]. cbn [bindr] in H.
    destruct (ext_node_to_int t (ss b)) as [n2|] eqn:B; [|discriminate H]. cbn [bindr] in H.
    destruct (port_numbers t (drive_ports square e)) as [dp|] eqn:DP; [|discriminate H]. cbn [bindr] in H.
    assert (N12 : n1 <> n2) by (intros ->; apply NE; eapply at_node_inj; [apply GR|exact A|exact B]).
    pose proof (FAR _ _ A) as F1. pose proof (FAR _ _ B) as F2.
    destruct (stamp_nodes square e) as [l|].
    - destruct (numbers t l) as [ns|]; [|discriminate H]. cbn [bindr] in H.
      destruct (fancy_add_mat (fst st) _) as [J|]; [|discriminate H]. cbn [bindr] in H.
      destruct (C94_istamp_distinct (snd st) n1 n2 (current e (map (drive_v x) dp)) N12) as (T & ET & VT). rewrite ET in H. cbn [bindr] in H. injection H as <-.
      cbn [snd]. specialize (VT (S i) ltac:(lia)). cbn [Nat.sub] in VT. rewrite Nat.sub_0_r in VT. rewrite VT.
      destruct (Nat.eqb_spec (S i) n1); [lia|]. destruct (Nat.eqb_spec (S i) n2); [lia|]. ring.
    - injection H as <-. unfold upd_port. cbn [snd]. rewrite upd_T_val. cbn [np_out fst snd np_i np_drive].
      assert (G : forall k, (k < S i)%nat -> gdlt i k = 0).
      { intros [|k] K; unfold gdlt, dlt; cbn [Nat.eqb]; [reflexivity|]. cbn [Nat.sub]. rewrite Nat.sub_0_r.
        destruct (Nat.eqb_spec i k); [lia|reflexivity]. }
      rewrite !G by assumption. ring.
  Qed.
  Lemma devices_branch : forall parts x JT i, Forall (nl_sound parts) parts -> devices square current stamp conductance t parts x = Ok JT ->
    (forall n k, at_node t n k -> (k < S i)%nat) -> snd JT i = 0.
  Proof.
    intros parts x JT i SO H FAR. unfold devices in H.
    assert (K : forall l st st', Forall (nl_sound parts) l -> device_loop square current stamp conductance t x l st = Ok st' -> snd st' i = snd st i).
    { induction l as [|e l IH]; intros st st' F Q; cbn [device_loop] in *; [injection Q as <-; reflexivity|].
      destruct (device square current stamp conductance t x st e) as [st1|] eqn:D; [|discriminate Q]. cbn [bindr] in Q.
      rewrite (IH st1 st' (Forall_inv_tail F) Q). apply (device_branch x st st1 e i FAR D).
      intros a b OP. pose proof (Forall_inv F) as S1. destruct e; try discriminate OP; cbn [out_port] in OP; injection OP as <- <-; exact S1. }
    rewrite (K _ _ _ SO H). reflexivity.
  Qed.

  (** The loop runs through. *)
  Lemma numbers_total : forall l, (forall n, In n l -> exists i, at_node t n i) -> exists r, numbers t l = Ok r /\ (forall n i, In n l -> at_node t n i -> In i r).
  Proof.
    induction l as [|n l IH]; intros H; [exists []; split; [reflexivity|intros n i []]|]. cbn [numbers]. destruct (H n (or_introl eq_refl)) as (i & A).
    destruct (IH (fun m M => H m (or_intror M))) as (r & E & IN). unfold number. unfold at_node in A. rewrite A, E. cbn [bindr]. eexists. split; [reflexivity|].
    intros m j [<-|M] B; [left; unfold at_node in B; congruence|right; eauto].
  Qed.
  Lemma ports_total : forall l, (forall p, In p l -> (exists i, at_node t (fst p) i) /\ exists j, at_node t (snd p) j) -> exists r, port_numbers t l = Ok r.
  Proof.
    induction l as [|[a b] l IH]; intros H; [exists []; reflexivity|]. cbn [port_numbers]. destruct (H _ (or_introl eq_refl)) as ((i & A) & j & B). cbn [fst snd] in A, B.
    destruct (IH (fun m M => H m (or_intror M))) as (r & E). unfold number. unfold at_node in A, B. rewrite A. cbn [bindr]. rewrite B. cbn [bindr]. rewrite E. cbn [bindr]. eauto.
  Qed.
  Lemma device_total : forall parts x st e, nl_sound parts e -> (forall n, In n (nodes_in e) -> exists i, at_node t n i) ->
    exists st', device square current stamp conductance t x st e = Ok st'.
  Proof.
    intros parts x st e SO REG. unfold device. destruct (out_port e) as [[a b]|] eqn:OP; [|eauto].
    assert (NE : a <> b) by (destruct e; try discriminate OP; cbn [out_port] in OP; injection OP as <- <-; exact SO).
    assert (IA : In a (nodes_in e) /\ In b (nodes_in e)) by (destruct e; try discriminate OP; cbn [out_port] in OP; injection OP as <- <-; cbn [nodes_in In]; auto 6).
    destruct IA as (IA & IB). destruct (REG a IA) as (n1 & A). destruct (REG b IB) as (n2 & B).
    assert (N12 : n1 <> n2) by (intros ->; apply NE; eapply at_node_inj; [apply GR|exact A|exact B]).
    destruct (ports_total (drive_ports square e)) as (dp & DP).
    { intros p P. destruct e; cbn [drive_ports] in P; try (destruct P; fail).
      - destruct P as [<-|[]]. cbn [fst snd]. split; apply REG; cbn; auto.
      - destruct (square _) in P; (destruct P as [<-|[<-|[<-|[]]]]; cbn [fst snd]; split; apply REG; cbn; auto 6). }
    unfold number. unfold at_node in A, B. rewrite A. cbn [bindr]. rewrite B. cbn [bindr]. rewrite DP. cbn [bindr].
    destruct (stamp_nodes square e) as [l|] eqn:SN; [|eauto].
    assert (SUB : In a l /\ In b l /\ forall n, In n l -> In n (nodes_in e)).
    { destruct e; try discriminate OP; cbn [out_port] in OP; injection OP as <- <-; cbn [stamp_nodes] in SN.
      - injection SN as <-. cbn; auto 6.
      - destruct (square _) in SN; [|discriminate SN]. injection SN as <-. cbn [In nodes_in]. split; [auto|]. split; [auto 6|]. intros q Q. tauto. }
    destruct SUB as (SA & SB & SUB). destruct (numbers_total l (fun m M => REG m (SUB m M))) as (ns & EN & INN). rewrite EN. cbn [bindr].
    assert (NZ : exists k, In k ns /\ k <> 0%nat).
    { destruct n1 as [|n1]; [exists n2; split; [apply (INN b); assumption|congruence]|exists (S n1); split; [apply (INN a); assumption|discriminate]]. }
    destruct (C94_gstamp ns (stamp e (map (drive_v x) dp)) (fst st) NZ) as (J & EJ & _). rewrite EJ. cbn [bindr].
    destruct (C94_istamp_distinct (snd st) n1 n2 (current e (map (drive_v x) dp)) N12) as (T & ET & _). rewrite ET. cbn [bindr]. eauto.
  Qed.
  Lemma devices_total : forall parts x, Forall (nl_sound parts) parts -> (forall n, In n (node_list parts) -> exists i, at_node t n i) ->
    exists r, devices square current stamp conductance t parts x = Ok r.
  Proof.
    intros parts x SO REG. unfold devices.
    assert (K : forall l st, Forall (nl_sound parts) l -> (forall n, In n (node_list l) -> exists i, at_node t n i) -> exists r, device_loop square current stamp conductance t x l st = Ok r);
      [|apply K; assumption].
    induction l as [|e l IH]; intros st F Q; cbn [device_loop]; [eauto|].
    destruct (device_total parts x st e (Forall_inv F)) as (st' & E).
    { intros n H. apply Q. unfold node_list. cbn [flat_map]. apply in_or_app. left. exact H. }
    rewrite E. cbn [bindr]. apply IH; [exact (Forall_inv_tail F)|]. intros n H. apply Q. unfold node_list. cbn [flat_map]. apply in_or_app. right. exact H.
  Qed.
End Dev.

(** ** The last call of the Newton solver *)
Definition allowed (o : dopts) (r : DcSolve.req) : Prop :=
  match r with RStd => True | RGmin _ => DcSolve.o_gmin o = true | RSrc k => DcSolve.o_src o = true /\ (k < 10)%nat end.
Lemma dc_loop_allowed : forall (X : Type) o (newton : nat -> DcSolve.req -> X -> nout X) fuel m st x tot log x' err tot' log',
  (g_en m = true -> DcSolve.o_gmin o = true) -> (s_en m = true -> DcSolve.o_src o = true) -> match st with Some r => allowed o r | None => True end ->
  dc_loop o newton fuel m st x tot log = DRet x' err true tot' log' ->
  exists i r y v e it, x' = Some v /\ allowed o r /\ newton i r y = NRet v e true it.
Proof.
  intros X o newton. induction fuel as [|fuel IH]; intros m st x tot log x' err tot' log' GE SE ST H; [discriminate|].
  simpl in H. destruct (current_req o m st) as [r|] eqn:CR; [|discriminate].
  assert (AL : allowed o r).
  { unfold current_req in CR. destruct (std_en m); [injection CR as <-; exact Logic.I|].
    destruct (g_en m); [destruct (g_idx m <? o_ng o)%nat; [|discriminate]; injection CR as <-; apply GE; reflexivity|].
    destruct (s_en m); [destruct (s_idx m <? 10)%nat eqn:L; [|discriminate]; injection CR as <-; split; [apply SE; reflexivity|apply Nat.ltb_lt; exact L]|].
    destruct st; [injection CR as <-; exact ST|discriminate]. }
  assert (N1 : (g_en (set_next_solve_method o m) = true -> DcSolve.o_gmin o = true) /\ (s_en (set_next_solve_method o m) = true -> DcSolve.o_src o = true)).
  { destruct m as [e1 f1 e2 f2 i2 e3 f3 i3]. cbn [g_en s_en] in GE, SE. unfold set_next_solve_method, disable_current, enable_next.
    destruct e1, e2, e3; cbn; repeat match goal with |- context [if ?b then _ else _] => destruct b eqn:?; cbn end; split; intros; try discriminate; auto;
      match goal with Q : _ && _ = true |- _ => apply andb_true_iff in Q; apply Q end. }
  assert (FS : forall x0 t0, (if more_solve_methods_available o m
      then dc_loop o newton fuel (set_next_solve_method o m) (Some r) x0 t0 (log ++ [(r, false)])
      else DRet None None false t0 (log ++ [(r, false)])) = DRet x' err true tot' log' ->
      exists i r y v e it, x' = Some v /\ allowed o r /\ newton i r y = NRet v e true it).
  { intros x0 t0 Q. destruct (more_solve_methods_available o m); [|discriminate]. eapply (IH _ (Some r)); [apply N1|apply N1|exact AL|exact Q]. }
  destruct (newton (List.length log) r x) as [y er [|] it| |e] eqn:NW; [| | |discriminate]; eauto.
  destruct (advance m) as [m'|] eqn:AD.
  - eapply (IH _ (Some r)); [| |exact AL|exact H].
    + unfold advance in AD. destruct (s_en m && _); [injection AD as <-; exact GE|]. destruct (g_en m && _); [injection AD as <-; exact GE|discriminate].
    + unfold advance in AD. destruct (s_en m && _); [injection AD as <-; exact SE|]. destruct (g_en m && _); [injection AD as <-; exact SE|discriminate].
  - injection H as <- _ _ _. do 6 eexists. split; [reflexivity|]. split; [exact AL|exact NW].
Qed.
Lemma dc_solve_allowed : forall (X : Type) o (newton : nat -> DcSolve.req -> X -> nout X) fuel x y err tot log,
  dc_solve o newton fuel x = DRet (Some y) err true tot log -> exists i r z e it, allowed o r /\ newton i r z = NRet y e true it.
Proof.
  intros X o newton fuel x y err tot log H. unfold dc_solve in H. apply dc_loop_allowed in H.
  - destruct H as (i & r & z & v & e & it & E & A & N). injection E as <-. eauto 7.
  - unfold set_next_solve_method, enable_next; cbn. destruct (o_std o); cbn; [discriminate|]. destruct (DcSolve.o_gmin o); cbn; auto. destruct (DcSolve.o_src o); discriminate.
  - unfold set_next_solve_method, enable_next; cbn. destruct (o_std o); cbn; [discriminate|]. destruct (DcSolve.o_gmin o); cbn; [discriminate|]. destruct (DcSolve.o_src o); cbn; [reflexivity|discriminate].
  - exact Logic.I.
Qed.

(** ** The system *)
Section NlSystem.
  Context {val : pelem -> R}.
  Variables (square : pelem -> bool) (current : pelem -> list R -> R) (stamp : pelem -> list R -> nat -> nat -> R) (conductance : pelem -> list R -> nat -> R).
  Variables (t : ntab) (parts : list pelem) (es : list lelem).
  Hypothesis GR : grounded t.
  Hypothesis PL_ : Forall2 (placed val t) parts es.
  Hypothesis LC : Forall lower_case parts.
  Hypothesis SO : Forall (nl_sound parts) parts.
  Hypothesis ND : NoDup (map pid parts).
  Hypothesis REG : forall n, In n (node_list parts) -> exists i, at_node t n i.
  Let nv := get_nodes_number t.
  Let size := op_size t es.
  Variables (cmin : R) (m : mat) (N : vec) (D : mat).
  Hypothesis GE : generate_mna_and_N nv es = Ok (m, N).
  Hypothesis GD : generate_D cmin nv es = Ok D.
  Variable JT : vec -> mat * vec.
  Hypothesis DEV : forall x, devices square current stamp conductance t parts x = Ok (JT x).
  Variable at0 : str -> R.
  Let tv := fun e : lelem => at0 (list_ascii_of_string (lid e)).
  Let src := driven at0 val.

  Lemma lin_sound : Forall (ac_sound (filter linp parts)) (filter linp parts).
  Proof.
    apply Forall_forall. intros e H. apply filter_In in H. destruct H as (IE & L). pose proof (proj1 (Forall_forall _ _) SO e IE) as S1.
    assert (IND : forall id a b v ic, In (Netlist.PL id a b v ic) parts -> In (Netlist.PL id a b v ic) (filter linp parts)) by (intros; apply filter_In; split; [assumption|reflexivity]).
    destruct e; try discriminate L; cbn [nl_sound] in S1; destruct S1 as (S1 & S2); split; cbn [sound] in *; rewrite ?lin_ids; try exact S1; try exact S2.
    destruct S2 as (NE & (a1 & b1 & w1 & c1 & H1) & a2 & b2 & w2 & c2 & H2). split; [exact NE|]. split; eauto 8.
  Qed.
  Lemma lin_proper : Forall (proper (filter linp parts)) (filter linp parts).
  Proof.
    apply Forall_forall. intros e H. split; [|apply (proj1 (Forall_forall _ _) lin_sound e H)]. apply filter_In in H. apply (proj1 (Forall_forall _ _) LC e (proj1 H)).
  Qed.
  Lemma lin_nodup : NoDup (map pid (filter linp parts)).
  Proof.
    clear - ND. induction parts as [|e l IH]; [constructor|]. inversion ND as [|? ? NI ND']; subst. cbn [filter]. destruct (linp e); [|auto].
    cbn [map]. constructor; [|auto]. intros Q. apply NI. apply in_map_iff in Q. destruct Q as (e' & E & Q). rewrite <- E. apply in_map. apply filter_In in Q. apply Q.
  Qed.

  (** The residual of one stage. *)
  Definition nl_row (s g : R) (x y : vec) (i : nat) : R :=
    row size (reduce_mat m) i x + s * (reduce_vec N i + time_term nv tv es i) + row size (reduce_mat D) i y
      + (if (i <? nv - 1)%nat then g * x i else 0) + snd (JT x) i.

  Let V (x : vec) := volt t (with_ground x).
  Let A (x : vec) := amp nv es (with_ground x).
  Lemma nl_zero : (forall n, V vzero n = 0) /\ forall id, A vzero id = 0.
  Proof.
    split.
    - intros n. unfold V, volt. destruct (ext_node_to_int t (ss n)) as [[|i]|]; reflexivity.
    - intros id. unfold A, amp. destruct (vde_index es (ss id)) as [k|]; [|reflexivity]. destruct (nv + k)%nat; reflexivity.
  Qed.
  Lemma nl_row_split : forall s g x y i, nl_row s g x y i =
    tr_row t (filter linl es) g m N D at0 x y i + (s - 1) * tr_row t (filter linl es) g m N D at0 vzero vzero i + snd (JT x) i.
  Proof.
    intros s g x y i. unfold nl_row, tr_row. rewrite lin_size, lin_time. fold size nv tv.
    assert (Z : forall M, row size M i vzero = 0) by (intros M; unfold row; apply rsum_0; intros; unfold vzero; ring).
    rewrite !Z. unfold vzero. destruct (i <? nv - 1)%nat; ring.
  Qed.

  Lemma nl_A : forall x id, amp nv (filter linl es) (with_ground x) id = A x id.
  Proof. intros x id. unfold A, amp. rewrite lin_index. reflexivity. Qed.
  Lemma nl_node : forall s g x y n i, at_node t n (S i) ->
    nl_row s g x y i = tr_leaving (fun e => s * src e) (V x) (A x) (V y) n parts + dev_leaving square current (V x) n parts + g * V x n + Rmax 0 cmin * V y n.
  Proof.
    intros s g x y n i At. destruct nl_zero as (VZ & AZ). rewrite nl_row_split.
    pose proof (lin_placed val t parts es PL_) as PLL. pose proof lin_proper as LP. pose proof lin_sound as LS. pose proof lin_nodup as LN.
    assert (GE' : generate_mna_and_N (get_nodes_number t) (filter linl es) = Ok (m, N)) by (rewrite lin_system; exact GE).
    assert (GD' : generate_D cmin (get_nodes_number t) (filter linl es) = Ok D) by (rewrite lin_dynamic; exact GD).
    rewrite !(node_row_named t (filter linp parts) (filter linl es) GR PLL LP LS LN cmin g m N D GE' GD' at0 _ _ n i At).
    fold nv src. rewrite !lin_leaving. fold (V x) (V y) (V vzero).
    rewrite (tr_leaving_ext src (V x) _ (A x)) by apply nl_A. rewrite (tr_leaving_ext src (V vzero) _ (A vzero)) by apply nl_A.
    rewrite (devices_T square current stamp conductance t GR parts x (JT x) n i SO (DEV x) At). fold (V x).
    rewrite !tr_leaving_split, (caps_zero (V vzero)) by exact VZ. rewrite !VZ.
    rewrite (leaving_scaled src s (V x) (A x) (V vzero) (A vzero) n parts VZ AZ). ring.
  Qed.
  Lemma nl_branch : forall s g x y pre e post, parts = (pre ++ e :: post)%list -> has_current e = true ->
    nl_row s g x y (nv - 1 + List.length (filter has_current pre)) = tr_gap (fun e => s * src e) parts (V x) (A x) (A y) e.
  Proof.
    intros s g x y pre e post E HC. destruct nl_zero as (VZ & AZ). rewrite nl_row_split.
    pose proof (lin_placed val t parts es PL_) as PLL. pose proof lin_proper as LP. pose proof lin_sound as LS. pose proof lin_nodup as LN.
    assert (GE' : generate_mna_and_N (get_nodes_number t) (filter linl es) = Ok (m, N)) by (rewrite lin_system; exact GE).
    assert (GD' : generate_D cmin (get_nodes_number t) (filter linl es) = Ok D) by (rewrite lin_dynamic; exact GD).
    assert (LE : linp e = true) by (destruct e; try discriminate HC; reflexivity).
    assert (E' : filter linp parts = (filter linp pre ++ e :: filter linp post)%list) by (rewrite E, filter_app; cbn [filter]; rewrite LE; reflexivity).
    pose proof (branch_row_named t (filter linp parts) (filter linl es) GR PLL LP LS LN cmin g m N D GE' GD' at0) as B.
    pose proof (B x y _ e _ E' HC) as B1. pose proof (B vzero vzero _ e _ E' HC) as B0. rewrite lin_currents in B1, B0. fold nv in B1, B0. rewrite B1, B0. clear B B1 B0.
    fold src. rewrite !lin_gap. fold (V x) (V vzero).
    rewrite (tr_gap_ext src parts (V x) _ (A x) _ (A y)) by apply nl_A. rewrite (tr_gap_ext src parts (V vzero) _ (A vzero) _ (A vzero)) by apply nl_A.
    rewrite (devices_branch square current stamp conductance t GR parts x (JT x) _ SO (DEV x)).
    - rewrite (gap_scaled src s parts (V x) (A x) (A y) (V vzero) (A vzero) (A vzero) e VZ AZ AZ). ring.
    - intros n k At. assert ((k < nv)%nat) by (apply (grounded_range t k GR); eauto). lia.
  Qed.

  Lemma nl_len : List.length (current_ids parts) = n_vde es.
  Proof. pose proof (placed_ids val t parts es PL_) as E. apply (f_equal (@List.length string)) in E. rewrite !map_length in E. symmetry. exact E. Qed.
  Lemma nl_size : (0 < nv)%nat /\ size = (nv - 1 + n_vde es)%nat.
  Proof. pose proof (grounded_number t GR) as Z. fold nv in Z. split; [exact Z|]. unfold size, op_size. fold nv. lia. Qed.
  Lemma nl_nodes : forall n, In n (node_list parts) -> n <> lit "0" -> exists i, at_node t n (S i) /\ (i < nv - 1)%nat.
  Proof.
    intros n H NG. destruct (REG n H) as ([|i] & At); [exfalso; apply NG; apply (grounded_zero t n GR); exact At|].
    exists i. split; [exact At|]. assert (Hi : (S i < nv)%nat) by (apply (grounded_range t (S i) GR); eauto). lia.
  Qed.
  Lemma nl_XI : forall x k id, nth_error (current_ids parts) k = Some id -> x (nv - 1 + k)%nat = A x id.
  Proof.
    intros x k id H. rewrite <- nl_A.
    pose proof (tr_XI t (filter linp parts) (filter linl es) (lin_placed _ _ _ _ PL_) lin_proper lin_nodup x k id) as X. rewrite lin_ids in X. fold nv in X. rewrite <- (X H).
    destruct nl_size as (NZ & _). replace (nv + k)%nat with (S (nv - 1 + k)) by lia. reflexivity.
  Qed.

  Lemma nl_system_laws : forall tol s g x y,
    (forall i, (i < nv - 1)%nat -> Rabs (nl_row s g x y i) <= Newton.t_iea tol) ->
    (forall i, (nv - 1 <= i < size)%nat -> Rabs (nl_row s g x y i) <= Newton.t_vea tol) ->
    nl_laws square current tol (fun e => s * src e) g (Rmax 0 cmin) parts (V x) (A x) (V y) (A y).
  Proof.
    intros tol s g x y H1 H2. destruct nl_size as (NZ & SZ).
    assert (V0 : forall z, V z (lit "0") = 0) by (intros z; unfold V, volt; pose proof (proj2 GR) as GZ; unfold at_node in GZ; rewrite GZ; reflexivity).
    split; [apply V0|]. split; [apply V0|]. split.
    - intros n IN NG. destruct (nl_nodes n IN NG) as (i & At & Hi). rewrite <- (nl_node s g x y n i At). apply H1. exact Hi.
    - intros e IE HC. apply in_split in IE. destruct IE as (pre & post & E). rewrite <- (nl_branch s g x y pre e post E HC). apply H2.
      assert (K : (List.length (filter has_current pre) < List.length (current_ids parts))%nat).
      { rewrite E. unfold current_ids. rewrite filter_app, map_app, app_length, !map_length. cbn [filter]. rewrite HC. cbn [List.length]. lia. }
      rewrite nl_len in K. lia.
  Qed.

  (** What a converged [dc_solve] means. *)
  Lemma nl_solved : forall tol solve locked o tdo maxit fuel mna Gmin Ntran base (Y : vec -> vec) x0 y err tot log,
    nonlinear es = true -> 0 < d_max tdo ->
    (forall i x, (i < size)%nat -> row size mna i x + Ntran i = row size (reduce_mat m) i x + row size (reduce_mat D) i (Y x)) ->
    (forall i x, (i < size)%nat -> row size Gmin i x = (if (i <? nv - 1)%nat then base * x i else 0)) ->
    dc_solve_sys o (op_newton solve JT (fun x dx r => convergence_check tol size x dx r (nv - 1)) locked tdo maxit t es) nv mna Gmin
      (fun i => reduce_vec N i + time_term nv tv es i) Ntran fuel x0 = DRet (Some y) err true tot log ->
    exists x1 s g, stage o base s g /\ settled tol parts (V y) (A y) (V x1) (A x1) /\
      nl_laws square current tol (fun e => s * src e) g (Rmax 0 cmin) parts (V x1) (A x1) (V (Y x1)) (A (Y x1)).
  Proof.
    intros tol solve locked o tdo maxit fuel mna Gmin Ntran base Y x0 y err tot log NLE DM HM HG H. destruct nl_size as (NZ & SZ).
    unfold dc_solve_sys in H. apply dc_solve_allowed in H. destruct H as (i0 & r & z & e & it & AL & NW).
    unfold op_newton in NW. rewrite NLE in NW. fold size in NW. apply C12_converged_means_checked in NW. destruct NW as (x1 & dx & YX & RS & _ & CK).
    apply C11_convergence_check in CK; [|lia]. destruct CK as (CV & CI).
    assert (P : forall M M' i x, row size (fun i j => M i j + M' i j) i x = row size M i x + row size M' i x).
    { intros M M' i x. unfold row. rewrite <- rsum_plus. apply rsum_ext. intros; ring. }
    assert (BG : forall g i x, (i < size)%nat -> row size (build_gmin_matrix nv g) i x = (if (i <? nv - 1)%nat then g * x i else 0)).
    { intros g i x Hi. rewrite SZ in Hi |- *. pose proof (C64_gmin_adds_node_conductances nv (n_vde es) g mzero x i NZ Hi) as Q. cbv zeta in Q.
      rewrite <- SZ in Q |- *. rewrite P in Q. lra. }
    assert (RV : exists s g, stage o base s g /\ forall i, (i < size)%nat -> e i = nl_row s g x1 (Y x1) i).
    { destruct r as [|k|k]; cbn [allowed] in AL.
      - exists 1, base. split; [left; auto|]. intros i Hi. rewrite RS. unfold sys_mat, sys_vec, nl_row. rewrite P, (HG i x1 Hi). pose proof (HM i x1 Hi). lra.
      - exists 1, (gmin_step k). split; [right; right; eauto|]. intros i Hi. rewrite RS. unfold sys_mat, sys_vec, nl_row. rewrite P, (BG _ i x1 Hi). pose proof (HM i x1 Hi). lra.
      - exists (source_factor k), base. split; [right; left; destruct AL; eauto|]. intros i Hi. rewrite RS. unfold sys_mat, sys_vec, nl_row. rewrite P, (HG i x1 Hi). pose proof (HM i x1 Hi). lra. }
    destruct RV as (s & g & ST & RV). exists x1, s, g. split; [exact ST|]. split.
    - pose proof (C10_damping tdo size dx (ports locked es) (Some it) DM) as (TD & _). set (k := get_td tdo size dx (ports locked es) (Some it)) in *.
      exists k, (V dx), (A dx). split; [exact TD|]. split; [|split; [|split]].
      + intros n. unfold V, volt. destruct (ext_node_to_int t (ss n)) as [[|i]|]; cbn [with_ground]; [ring|apply YX|ring].
      + intros id. unfold A, amp. destruct (vde_index es (ss id)) as [q|]; [|ring]. destruct (nv + q)%nat as [|i]; cbn [with_ground]; [ring|apply YX].
      + intros n IN NG. destruct (nl_nodes n IN NG) as (i & At & Hi).
        assert (VV : forall w, V w n = w i) by (intros w; unfold V, volt; unfold at_node in At; rewrite At; reflexivity). rewrite !VV. apply CV. exact Hi.
      + intros id IN. apply In_nth_error in IN. destruct IN as (q & H). rewrite <- !(nl_XI _ q id H). apply CI.
        assert (q < List.length (current_ids parts))%nat by (apply nth_error_Some; congruence). rewrite nl_len in *. lia.
    - apply nl_system_laws.
      + intros i Hi. rewrite <- RV by lia. apply CV. exact Hi.
      + intros i Hi. rewrite <- RV by lia. apply CI. exact Hi.
  Qed.
End NlSystem.

(** ** Names *)
Lemma load_registered : forall fs other fuel filename parts t es, load fs other fuel filename = Ok (parts, t, es) ->
  forall n, In n (node_list parts) -> exists i, at_node t n i.
Proof.
  intros fs other fuel filename parts t es H. unfold load in H.
  destruct (read_netlist fs fuel filename) as [s|]; [|discriminate H]. cbn [bindr] in H.
  destruct (parse_models (map fst (r_models s)) []) as [models|]; [|discriminate H]. cbn [bindr] in H.
  match type of H with bindr ?m _ = _ => destruct m as [ps|]; [|discriminate H] end. cbn [bindr] in H.
  destruct (place_all empty_ntab ps) as [[t' es']|] eqn:PA; [|discriminate H]. cbn [bindr] in H.
  match type of H with (if ?b then _ else _) = _ => destruct b; [|discriminate H] end. injection H as <- <- <-.
  assert (T0 : NodesFacts.tinv empty_ntab) by (exists false, 0%nat; apply ninv_empty).
  destruct (place_all_total ps empty_ntab T0) as (t2 & es2 & PA' & REG). rewrite PA in PA'. injection PA' as <- <-. exact REG.
Qed.
Lemma lower_ids : forall parts, Forall lower_case parts -> Forall (fun s => slower s = s) (current_ids parts).
Proof.
  intros parts F. apply Forall_forall. intros s H. apply in_map_iff in H. destruct H as (e & <- & H). apply filter_In in H. apply (proj1 (Forall_forall _ _) F e (proj1 H)).
Qed.
Lemma nl_names {val : pelem -> R} : forall t parts es, grounded t -> Forall2 (placed val t) parts es -> Forall lower_case parts ->
  NoDup (map pid parts) -> (forall n i, at_node t n i -> In n (node_list parts)) -> (forall n, In n (node_list parts) -> exists i, at_node t n i) ->
  let nv := get_nodes_number t in
  exists ns, names_of t (seq 1 (nv - 1)) = Ok ns /\ List.length ns = (nv - 1)%nat /\ distinct ns /\ (Forall plain_names parts -> Forall PropsResults.plain ns) /\
    map (fun e => list_ascii_of_string (lid e)) (filter is_vde es) = current_ids parts /\ distinct (current_ids parts) /\
    (Forall plain_names parts -> Forall PropsResults.plain (current_ids parts)) /\ List.length (current_ids parts) = n_vde es /\
    (forall n, In n (node_list parts) -> n <> lit "0" -> exists k, nth_error ns k = Some n /\ at_node t n (S k)).
Proof.
  intros t parts es G PL LC ND MEN REGD nv. pose proof (grounded_number t G) as NZ. fold nv in NZ.
  destruct (names_of_ok t (seq 1 (nv - 1)) (proj1 G)) as (ns & NS & NL1 & NS').
  { intros i H. apply in_seq in H. apply (grounded_range t i G). fold nv. lia. }
  rewrite seq_length in NL1. exists ns. split; [exact NS|]. split; [exact NL1|].
  assert (NSK : forall k n, nth_error ns k = Some n -> at_node t n (S k)).
  { intros k n H. assert (K : (k < nv - 1)%nat) by (rewrite <- NL1; apply nth_error_Some; congruence).
    destruct (NS' k (S k)) as (n' & E & A); [|congruence]. rewrite (nth_error_nth' (seq 1 (nv - 1)) 0%nat) by (rewrite seq_length; exact K). rewrite seq_nth by exact K. reflexivity. }
  assert (MINE : forall n, In n ns -> exists e, In e parts /\ In n (nodes_in e)).
  { intros n H. apply In_nth_error in H. destruct H as (k & H). apply NSK in H. apply MEN in H. unfold node_list in H. apply in_flat_map in H. exact H. }
  split; [|split; [|split; [|split; [|split; [|split]]]]].
  - unfold distinct. replace (map slower ns) with ns.
    + apply NoDup_nth_error. intros a b Ha E. destruct (nth_error ns a) as [n|] eqn:EA; [|apply nth_error_None in EA; lia].
      symmetry in E. apply NSK in EA. apply NSK in E. pose proof (at_node_fun _ _ _ _ EA E). lia.
    + symmetry. rewrite <- (map_id ns) at 2. apply map_ext_in. intros n H. destruct (MINE n H) as (e & IE & H').
      rewrite Forall_forall in LC. destruct (LC e IE) as (_ & F). rewrite Forall_forall in F. apply F. exact H'.
  - intros PN. apply Forall_forall. intros n H. destruct (MINE n H) as (e & IE & H'). rewrite Forall_forall in PN. destruct (PN e IE) as (_ & F).
    rewrite Forall_forall in F. apply F. exact H'.
  - rewrite <- (map_map lid list_ascii_of_string). fold (vdes es). rewrite (placed_ids val t parts es PL), map_map. rewrite <- (map_id (current_ids parts)) at 2.
    apply map_ext. intros s. apply list_ascii_of_string_of_list_ascii.
  - unfold distinct. replace (map slower (current_ids parts)) with (current_ids parts); [apply (current_nodup parts ND)|].
    symmetry. rewrite <- (map_id (current_ids parts)) at 2. apply map_ext_in. pose proof (lower_ids parts LC) as F. rewrite Forall_forall in F. exact F.
  - intros PN. apply Forall_forall. intros s H. apply in_map_iff in H. destruct H as (e & <- & H). apply filter_In in H. rewrite Forall_forall in PN. apply PN. apply H.
  - pose proof (placed_ids val t parts es PL) as E. apply (f_equal (@List.length string)) in E. rewrite !map_length in E. symmetry. exact E.
  - intros n H NG. destruct (REGD n H) as ([|i] & A); [exfalso; apply NG; apply (grounded_zero t n G); exact A|].
    assert (Hi : (S i < nv)%nat) by (apply (grounded_range t (S i) G); eauto). exists i. split; [|exact A].
    destruct (nth_error ns i) as [n'|] eqn:E'; [|apply nth_error_None in E'; lia]. f_equal. apply NSK in E'. eapply at_node_inj; [apply G|exact E'|exact A].
Qed.

(** The system is made for every circuit of this kind. *)
Lemma nl_dynamic {val : pelem -> R} : forall t parts es cmin, grounded t -> Forall2 (placed val t) parts es -> Forall lower_case parts -> Forall (nl_sound parts) parts ->
  NoDup (map pid parts) -> exists D, generate_D cmin (get_nodes_number t) es = Ok D.
Proof.
  intros t parts es cmin G PL LC SO ND. pose proof (lin_placed _ _ _ _ PL) as PLL. pose proof (lin_sound parts SO) as LS. pose proof (lin_proper parts LC SO) as LP.
  pose proof (lin_nodup parts ND) as LN.
  destruct (C07_dynamic_matrix cmin (get_nodes_number t) (filter linl es) (proj1 (proper_wf val t _ _ G PLL LP)) (tr_vdes t _ _ PLL LP LN) (tr_coupling t _ _ PLL LP LS)) as (d & GD & _).
  exists d. rewrite lin_dynamic in GD. exact GD.
Qed.

(** A device makes the circuit nonlinear. *)
Definition has_device (parts : list pelem) : Prop := exists e, In e parts /\ channel e <> None.
Lemma device_nonlinear {val : pelem -> R} : forall t parts es, Forall2 (placed val t) parts es -> has_device parts -> nonlinear es = true.
Proof.
  intros t parts es F (e & IE & OP). unfold nonlinear. apply existsb_exists. induction F as [|e0 l parts es P F IH]; [destruct IE|].
  destruct IE as [->|IE]; [|destruct (IH IE) as (l' & I' & E'); exists l'; split; [right|]; assumption].
  exists l. split; [left; reflexivity|]. destruct e; cbn [channel] in OP; try congruence; destruct P as (i & j & ->); reflexivity.
Qed.

(** What [op_run] returns is near to a solution of the laws. *)
Lemma nl_op_core {val : pelem -> R} : forall t parts es, grounded t -> Forall2 (placed val t) parts es -> Forall lower_case parts -> Forall (nl_sound parts) parts ->
  NoDup (map pid parts) -> (forall n, In n (node_list parts) -> exists i, at_node t n i) -> nonlinear es = true ->
  forall square current stamp conductance JT, (forall x, devices square current stamp conductance t parts x = Ok (JT x)) ->
  forall solve tol locked o tdo maxit fuel' gmin at0 x0 x flag,
  let check x dx r := convergence_check tol (op_size t es) x dx r (get_nodes_number t - 1) in
  0 < d_max tdo ->
  op_run solve JT check locked o tdo maxit fuel' gmin at0 t es x0 = Ok (Some (x, flag)) ->
  exists x1 s g, stage o (if flag then 0 else gmin) s g /\ settled tol parts (volt t (with_ground x)) (amp (get_nodes_number t) es (with_ground x)) (volt t (with_ground x1)) (amp (get_nodes_number t) es (with_ground x1)) /\
      nl_laws square current tol (fun e => s * driven at0 val e) g 0 parts (volt t (with_ground x1)) (amp (get_nodes_number t) es (with_ground x1)) (fun _ => 0) (fun _ => 0).
Proof.
  intros t parts es G PL LC SO ND REG NLE square current stamp conductance JT DEV solve tol locked o tdo maxit fuel' gmin at0 x0 x flag check DM RUN.
  pose proof (grounded_number t G) as NZ.
  destruct (nl_dynamic t parts es 0 G PL LC SO ND) as (D & GD).
  unfold op_run, op_analysis in RUN. destruct (generate_mna_and_N (get_nodes_number t) es) as [[m N]|] eqn:GE; [|discriminate RUN]. cbn [bindr fst snd] in RUN. cbv zeta in RUN.
  assert (RZ : forall M i, row (op_size t es) M i vzero = 0) by (intros M i; unfold row; apply rsum_0; intros; unfold vzero; ring).
  assert (RM : forall i z, row (op_size t es) mzero i z = 0) by (intros i z; unfold row; apply rsum_0; intros; unfold mzero; ring).
  assert (BG : forall g i z, (i < op_size t es)%nat -> row (op_size t es) (build_gmin_matrix (get_nodes_number t) g) i z = (if (i <? get_nodes_number t - 1)%nat then g * z i else 0)).
  { intros g i z Hi. assert (SZ' : op_size t es = (get_nodes_number t - 1 + n_vde es)%nat) by (unfold op_size; lia). rewrite SZ' in Hi |- *.
    pose proof (C64_gmin_adds_node_conductances (get_nodes_number t) (n_vde es) g mzero z i NZ Hi) as Q. cbv zeta in Q. rewrite <- SZ' in Q |- *. rewrite RM in Q.
    transitivity (row (op_size t es) (fun i j => mzero i j + build_gmin_matrix (get_nodes_number t) g i j) i z); [unfold row; apply rsum_ext; intros; unfold mzero; ring|].
    rewrite Q. ring. }
  assert (CORE : forall Gmin base y err tot log z,
    (forall i w, (i < op_size t es)%nat -> row (op_size t es) Gmin i w = (if (i <? get_nodes_number t - 1)%nat then base * w i else 0)) ->
    dc_solve_sys o (op_newton solve JT check locked tdo maxit t es) (get_nodes_number t) (reduce_mat m) Gmin
      (fun i => reduce_vec N i + time_term (get_nodes_number t) (fun e => at0 (list_ascii_of_string (lid e))) es i) vzero fuel' z = DRet (Some y) err true tot log ->
    exists x1 s g, stage o base s g /\ settled tol parts (volt t (with_ground y)) (amp (get_nodes_number t) es (with_ground y)) (volt t (with_ground x1)) (amp (get_nodes_number t) es (with_ground x1)) /\
      nl_laws square current tol (fun e => s * driven at0 val e) g 0 parts (volt t (with_ground x1)) (amp (get_nodes_number t) es (with_ground x1)) (fun _ => 0) (fun _ => 0)).
  { intros Gmin base y err tot log z HG H.
    destruct (nl_solved square current stamp conductance t parts es G PL LC SO ND REG 0 m N D GE GD JT DEV at0 tol solve locked o tdo maxit fuel' (reduce_mat m) Gmin vzero base
      (fun _ => vzero) z y err tot log NLE DM) as (x1 & s & g & ST & SE & LA); [intros i w _; rewrite RZ; unfold vzero; ring|exact HG|exact H|].
    exists x1, s, g. split; [exact ST|]. split; [exact SE|]. destruct (nl_zero t es) as (VZ & AZ). destruct LA as (L1 & L2 & L3 & L4).
    split; [exact L1|]. split; [reflexivity|]. split.
    - intros n IN NG. specialize (L3 n IN NG). rewrite VZ in L3. rewrite tr_leaving_split in L3 |- *. rewrite (caps_zero (volt t (with_ground vzero))) in L3 by exact VZ.
      rewrite caps_zero by reflexivity. rewrite Rmult_0_r in L3. rewrite Rmult_0_r. exact L3.
    - intros e IE HC. specialize (L4 e IE HC). erewrite tr_gap_ext; [exact L4|reflexivity|]. intros id. symmetry. apply AZ. }
  apply op_decide_inv in RUN. destruct RUN as (x1 & e1 & t1 & c1 & R1 & R2).
  destruct R2 as [(-> & e2 & t2 & c2 & R2)|(-> & -> & _)].
    - eapply CORE; [|exact R2]. intros i w _. rewrite RM. destruct (_ <? _)%nat; ring.
    - eapply CORE; [|exact R1]. intros i w Hi. apply BG. exact Hi.
Qed.

(** * C197 *)
Theorem C197_nonlinear : forall fs other fuel filename parts t es, load fs other fuel filename = Ok (parts, t, es) ->
  (* nothing is said of subcircuits and user-defined elements, except the case of their names *)
  (forall line l, other line = Ok l -> Forall lower_case l) ->
  Forall (nl_sound parts) parts -> has_device parts ->
  forall square current stamp conductance JT, (forall x, devices square current stamp conductance t parts x = Ok (JT x)) ->
  forall solve tol locked o tdo maxit fuel' gmin at0 x0 x flag,
  let check x dx r := convergence_check tol (op_size t es) x dx r (get_nodes_number t - 1) in
  0 < d_max tdo ->
  op_run solve JT check locked o tdo maxit fuel' gmin at0 t es x0 = Ok (Some (x, flag)) ->
  exists V I V' I' s g,
    (* the reported values *)
    (forall n name, In n (node_list parts) -> n <> lit "0" -> slower name = slower (lit "V" ++ n) -> op_report t es x name = Ok (V n)) /\
    (forall id name, In id (current_ids parts) -> slower name = slower (lit "I(" ++ id ++ lit ")") -> op_report t es x name = Ok (I id)) /\
    (* are near to values for which the laws of the netlist nearly hold *)
    settled tol parts V I V' I' /\ stage o (if flag then 0 else gmin) s g /\
    nl_laws square current tol (fun e => s * dc_source at0 e) g 0 parts V' I' (fun _ => 0) (fun _ => 0).
Proof.
  intros fs other fuel filename parts t es LD OT SO HD square current stamp conductance JT DEV solve tol locked o tdo maxit fuel' gmin at0 x0 x flag check DM RUN.
  pose proof (load_lower _ _ _ _ _ _ _ OT LD) as LC. pose proof (load_registered _ _ _ _ _ _ _ LD) as REG.
  destruct (load_facts _ _ _ _ _ _ _ LD) as (G & NV & PL & ND & MEN).
  destruct (nl_names t parts es G PL LC ND MEN REG) as (ns & NS & LN & DN & _ & IDS & DI & _ & LEN & IDX).
  pose proof (grounded_number t G) as NZ. pose proof (device_nonlinear t parts es PL HD) as NLE.
  assert (SZ : op_size t es = (List.length ns + List.length (current_ids parts))%nat) by (unfold op_size; lia).
  destruct (op_values t es ns (current_ids parts) x NS IDS DN DI SZ) as (O1 & O2).
  destruct (nl_op_core t parts es G PL LC SO ND REG NLE square current stamp conductance JT DEV solve tol locked o tdo maxit fuel' gmin at0 x0 x flag DM RUN) as (x2 & s & g & ST & SE & LA).
  exists (volt t (with_ground x)), (amp (get_nodes_number t) es (with_ground x)), (volt t (with_ground x2)), (amp (get_nodes_number t) es (with_ground x2)), s, g.
  split; [|split; [|split; [exact SE|split; [exact ST|exact LA]]]].
  - intros n name H NG E. destruct (IDX n H NG) as (i & NI & At). rewrite (O1 i n name NI E). f_equal. unfold volt. unfold at_node in At. rewrite At. reflexivity.
  - intros id name H E. apply In_nth_error in H. destruct H as (q & H). rewrite (O2 q id name H E). f_equal.
    rewrite LN. apply (nl_XI t parts es G PL LC SO ND x q id H).
Qed.
Print Assumptions C197_nonlinear.

(** * C198 *)

(** The points, newest first; the last one is the starting point.  Each is near to one for
    which the laws nearly hold; the derivatives of both are those of the method. *)
Fixpoint nl_marches (square : pelem -> bool) (current : pelem -> list R -> R) (tol : tols) (o : dopts) (src : R -> pelem -> R) (gmin c : R) (parts : list pelem) (d : dform)
    (run : list tpoint) : Prop :=
  match run with
  | [] => True
  | p :: past =>
      match past with
      | [] => True
      | q :: _ =>
          p_t q < p_t p /\
          exists p' s g, p_t p' = p_t p /\ stage o gmin s g /\
            settled tol parts (p_V p) (p_I p) (p_V p') (p_I p') /\
            nl_laws square current tol (fun e => s * src (p_t p) e) g c parts (p_V p') (p_I p') (p_dV p') (p_dI p') /\
            forall z, z = p \/ z = p' ->
              (forall n, In n (node_list parts) -> n <> lit "0" -> slope_rule p_t d past z (fun q => p_V q n) (fun q => p_dV q n)) /\
              (forall id, In id (current_ids parts) -> slope_rule p_t d past z (fun q => p_I q id) (fun q => p_dI q id))
      end /\ nl_marches square current tol o src gmin c parts d past
  end.

Section NlRun.
  Variables (square : pelem -> bool) (current : pelem -> list R -> R) (stamp : pelem -> list R -> nat -> nat -> R) (conductance : pelem -> list R -> nat -> R).
  Variables (t : ntab) (parts : list pelem) (es : list lelem).
  Hypothesis GR : grounded t.
  Hypothesis PL_ : Forall2 (placed written_dc t) parts es.
  Hypothesis LC : Forall lower_case parts.
  Hypothesis SO : Forall (nl_sound parts) parts.
  Hypothesis ND : NoDup (map pid parts).
  Hypothesis REG : forall n, In n (node_list parts) -> exists i, at_node t n i.
  Hypothesis NLE : nonlinear es = true.
  Let nv := get_nodes_number t.
  Let size := op_size t es.
  Variables (cmin gmin : R) (m : mat) (N : vec) (D : mat).
  Hypothesis GE : generate_mna_and_N nv es = Ok (m, N).
  Hypothesis GD : generate_D cmin nv es = Ok D.
  Variable JT : vec -> mat * vec.
  Hypothesis DEV : forall x, devices square current stamp conductance t parts x = Ok (JT x).
  Variable solve : nat -> mat -> vec -> option vec.
  Variable tol : tols.
  Variable locked : list lelem -> list (nat * nat).
  Variables (o : dopts) (tdo : tdopts) (maxit fuel : nat) (at_time : str -> R -> R).
  Hypothesis DM : 0 < d_max tdo.
  Let check x dx r := convergence_check tol size x dx r (nv - 1).

  Lemma nl_point_I : forall id k q, nth_error (current_ids parts) k = Some id ->
    p_I (point_of t es q) id = s_x q (nv - 1 + k)%nat /\ p_dI (point_of t es q) id = slope_of q (nv - 1 + k)%nat.
  Proof.
    intros id k q H. unfold point_of, slope_of. cbn [p_I p_dI]. pose proof (fun x => nl_XI t parts es GR PL_ LC SO ND x k id H) as X. cbv beta in X.
    rewrite <- !X. destruct (s_dx q); split; reflexivity.
  Qed.

  Lemma nl_solve_laws : forall r c1 c0 time x' y,
    tran_solve solve JT check locked o tdo maxit fuel gmin at_time t es (reduce_mat m) (reduce_vec N) (reduce_mat D) r c1 c0 time x' = Ok (Some y) ->
    exists x1 s g, let p := point_of t es (mkS time y (Some (fun i => c1 * y i + c0 i))) in let p' := point_of t es (mkS time x1 (Some (fun i => c1 * x1 i + c0 i))) in
      stage o gmin s g /\ settled tol parts (p_V p) (p_I p) (p_V p') (p_I p') /\
      nl_laws square current tol (fun e => s * driven (fun id => at_time id time) written_dc e) g (Rmax 0 cmin) parts (p_V p') (p_I p') (p_dV p') (p_dI p').
  Proof.
    intros r c1 c0 time x' y H. unfold tran_solve in H. fold nv in H.
    match type of H with match ?d with _ => _ end = _ => destruct d as [[y'|] er [|] l hh|] eqn:DS; try discriminate H end. injection H as ->.
    assert (NZ : (0 < nv)%nat) by apply (grounded_number t GR).
    assert (SZ : size = (nv - 1 + n_vde es)%nat) by (unfold size, op_size; fold nv; lia).
    destruct (nl_solved square current stamp conductance t parts es GR PL_ LC SO ND REG cmin m N D GE GD JT DEV (fun id => at_time id time) tol solve locked o tdo maxit fuel
      (fun i j => reduce_mat m i j + c1 * reduce_mat D i j) (build_gmin_matrix nv gmin) (fun i => row (op_size t es) (reduce_mat D) i c0) gmin
      (fun x i => c1 * x i + c0 i) x' y er l hh NLE DM) as (x1 & s & g & ST & SE & LA).
    - intros i x Hi. rewrite (row_two t es), (row_lin t es). ring.
    - intros i x Hi. fold size nv. fold size in Hi. rewrite SZ in Hi |- *. pose proof (C64_gmin_adds_node_conductances nv (n_vde es) gmin mzero x i NZ Hi) as Q. cbv zeta in Q. rewrite <- SZ in Q |- *.
      assert (RM : row size mzero i x = 0) by (unfold row; apply rsum_0; intros; unfold mzero; ring). rewrite RM in Q.
      transitivity (row size (fun i j => mzero i j + build_gmin_matrix nv gmin i j) i x); [unfold row; apply rsum_ext; intros; unfold mzero; ring|]. rewrite Q. ring.
    - exact DS.
    - exists x1, s, g. cbv zeta. split; [exact ST|]. split; [exact SE|exact LA].
  Qed.

  Lemma nl_run_marches : forall inv modules d0 sc n tstart x0 run,
    buffer_len (method_of inv modules d0) sc = Ok n ->
    match d0 with DModule _ => False | DGear k => (0 < k)%nat | _ => True end ->
    solved_run (method_of inv modules d0) n (fun time c1 c0 y => exists r x', tran_solve solve JT check locked o tdo maxit fuel gmin at_time t es
       (reduce_mat m) (reduce_vec N) (reduce_mat D) r c1 c0 time x' = Ok (Some y)) tstart x0 run ->
    newest_first run ->
    nl_marches square current tol o (fun time => driven (fun id => at_time id time) written_dc) gmin (Rmax 0 cmin) parts d0 (map (point_of t es) run).
  Proof.
    intros inv modules d0 sc n tstart x0 run BL OKD R1. induction R1 as [|p prev time x d b R1 IH DFE SOL]; intros NF; [split; exact Logic.I|].
    destruct NF as (NF1 & NF). specialize (IH NF). assert (TT : s_t p < time) by (apply (NF1 p); left; reflexivity).
    destruct SOL as (r & x' & SOL). destruct (nl_solve_laws r _ _ _ x' x SOL) as (x1 & s & g & ST & SE & LA).
    cbn [map nl_marches]. split; [|exact IH]. split; [exact TT|].
    exists (point_of t es (mkS time x1 (Some (fun i => df_C1 d * x1 i + df_C0 d i)))), s, g. split; [reflexivity|]. split; [exact ST|]. split; [exact SE|]. split; [exact LA|].
    assert (RULES : forall w, let z := point_of t es (mkS time w (Some (fun i => df_C1 d * w i + df_C0 d i))) in
      (forall n, In n (node_list parts) -> n <> lit "0" -> slope_rule p_t d0 (map (point_of t es) (p :: prev)) z (fun q => p_V q n) (fun q => p_dV q n)) /\
      (forall id, In id (current_ids parts) -> slope_rule p_t d0 (map (point_of t es) (p :: prev)) z (fun q => p_I q id) (fun q => p_dI q id))).
    { intros w z. destruct (df_rule inv modules d0 sc n p prev time w d b BL OKD NF TT DFE) as (_ & RULE). unfold z. split.
      - intros n' IN NG. destruct (nl_nodes t parts es GR REG n' IN NG) as (i & At & _).
        apply (slope_rule_map sample tpoint p_t (point_of t es) d0 (p :: prev) _ (fun q => s_x q i) (fun q => slope_of q i)); [| |exact (RULE i)].
        + intros q. symmetry. apply (point_V t es n' i q At).
        + intros q. symmetry. apply (point_V t es n' i q At).
      - intros id IN. apply In_nth_error in IN. destruct IN as (k & NK).
        apply (slope_rule_map sample tpoint p_t (point_of t es) d0 (p :: prev) _ (fun q => s_x q (nv - 1 + k)%nat) (fun q => slope_of q (nv - 1 + k)%nat)); [| |exact (RULE _)].
        + intros q. symmetry. apply (nl_point_I id k q NK).
        + intros q. symmetry. apply (nl_point_I id k q NK). }
    intros z [->| ->]; apply RULES.
  Qed.
End NlRun.

Theorem C198_nonlinear_tran : forall fs other fuel filename parts t es, load fs other fuel filename = Ok (parts, t, es) ->
  (* nothing is said of subcircuits and user-defined elements, except that names are words in lower case *)
  (forall line l, other line = Ok l -> Forall word_names l) ->
  Forall (nl_sound parts) parts -> has_device parts ->
  forall square current stamp conductance JT, (forall x, devices square current stamp conductance t parts x = Ok (JT x)) ->
  forall solve tol locked o tdo maxit fuel' top cmin gmin at_time inv modules has_module method sc tstart tstep tstop x0 rounds rows,
  let check x dx r := convergence_check tol (op_size t es) x dx r (get_nodes_number t - 1) in
  0 < d_max tdo -> 0 < tstep ->
  tran_run solve JT check locked o tdo maxit fuel' top cmin gmin at_time inv modules has_module method sc t es tstart tstep tstop x0 rounds = Ok (Some rows) ->
  let report := tran_report t es rows in
  let src time := driven (fun id => at_time id time) written_dc in
  exists d start points, choose_df has_module method = Ok d /\
    nl_marches square current tol o src gmin (Rmax 0 cmin) parts d (rev (start :: points)) /\
    p_t start = tstart /\ points <> [] /\ tstop <= last_from tstart (map p_t points) /\
    (forall n name, In n (node_list parts) -> n <> lit "0" -> slower name = slower (lit "V" ++ n) -> op_report t es (tran_start x0) name = Ok (p_V start n)) /\
    (forall id name, In id (current_ids parts) -> slower name = slower (lit "I(" ++ id ++ lit ")") -> op_report t es (tran_start x0) name = Ok (p_I start id)) /\
    (* the points are what is reported *)
    (forall name, slower name = lit "t" -> report name = Ok (map p_t points)) /\
    (forall n name, In n (node_list parts) -> n <> lit "0" -> slower name = slower (lit "V" ++ n) -> report name = Ok (map (fun p => p_V p n) points)) /\
    (forall id name, In id (current_ids parts) -> slower name = slower (lit "I(" ++ id ++ lit ")") -> report name = Ok (map (fun p => p_I p id) points)).
Proof.
  intros fs other fuel filename parts t es LD OT SO HD square current stamp conductance JT DEV
    solve tol locked o tdo maxit fuel' top cmin gmin at_time inv modules has_module method sc tstart tstep tstop x0 rounds rows check DM TS RUN report src.
  assert (OL : forall line l, other line = Ok l -> Forall lower_case l) by (intros line l H; eapply Forall_impl; [|exact (OT line l H)]; intros e He; apply He).
  assert (OP : forall line l, other line = Ok l -> Forall plain_names l) by (intros line l H; eapply Forall_impl; [|exact (OT line l H)]; intros e He; apply He).
  pose proof (load_lower _ _ _ _ _ _ _ OL LD) as LC. pose proof (load_registered _ _ _ _ _ _ _ LD) as REG. pose proof (load_plain _ _ _ _ _ _ _ OP LD) as PN.
  destruct (load_facts _ _ _ _ _ _ _ LD) as (G & NV & PL & ND & MEN).
  destruct (nl_names t parts es G PL LC ND MEN REG) as (ns & NS & LN & DN & PNS & IDS & DI & PIS & LEN & IDX). specialize (PNS PN). specialize (PIS PN).
  pose proof (grounded_number t G) as NZ. pose proof (device_nonlinear t parts es PL HD) as NLE.
  assert (SZ : op_size t es = (List.length ns + List.length (current_ids parts))%nat) by (unfold op_size; lia).
  unfold tran_run in RUN.
  destruct (generate_mna_and_N (get_nodes_number t) es) as [[m N]|] eqn:GE; [|discriminate RUN]. cbn [bindr fst snd] in RUN.
  destruct (generate_D cmin (get_nodes_number t) es) as [D|] eqn:GD; [|discriminate RUN]. cbn [bindr] in RUN.
  destruct (choose_df has_module method) as [d|] eqn:CD; [|discriminate RUN]. cbn [bindr] in RUN.
  assert (OKD : match d with DModule _ => False | DGear k => (0 < k)%nat | _ => True end) by (exact (choose_df_order has_module method d CD)).
  destruct (run_times _ _ _ _ _ _ _ _ _ _ _ _ TS RUN) as (GT & LAST & NR).
  destruct (run_solved _ _ _ _ _ _ _ _ _ _ _ _ (fun time c1 c0 y => exists r x', tran_solve solve JT check locked o tdo maxit fuel' gmin at_time t es
       (reduce_mat m) (reduce_vec N) (reduce_mat D) r c1 c0 time x' = Ok (Some y)) (fun r c1 c0 time x' y H => ex_intro _ r (ex_intro _ x' H)) RUN) as (n & run & BL & SR & PTS).
  assert (TM : map s_t (rev run) = tstart :: map fst rows).
  { apply (f_equal (map fst)) in PTS. rewrite map_map in PTS. exact PTS. }
  assert (NF : newest_first run) by (eapply times_newest; [exact TM|exact GT]).
  pose proof (nl_run_marches square current stamp conductance t parts es G PL LC SO ND REG NLE cmin gmin m N D GE GD JT DEV solve tol locked o tdo maxit fuel' at_time DM
    inv modules d sc n tstart (tran_start x0) run BL OKD SR NF) as MAR.
  destruct (rev run) as [|s0 rest] eqn:RR; [discriminate TM|].
  assert (ER : run = rev (s0 :: rest)) by (rewrite <- RR, rev_involutive; reflexivity).
  cbn [map] in PTS. injection PTS as P0 X0 PTS.
  exists d, (point_of t es s0), (map (point_of t es) rest). split; [reflexivity|]. split.
  { rewrite ER in MAR. rewrite map_rev in MAR. exact MAR. }
  split; [exact P0|].
  assert (TR : map p_t (map (point_of t es) rest) = map fst rows).
  { rewrite map_map, <- PTS, map_map. apply map_ext. reflexivity. }
  split; [intros E; apply NR; apply map_eq_nil in E; rewrite E in PTS; symmetry in PTS; apply PTS|].
  split; [rewrite TR; exact LAST|].
  destruct (op_values t es ns (current_ids parts) (tran_start x0) NS IDS DN DI SZ) as (O1 & O2).
  destruct (tran_table t es ns (current_ids parts) rows NS IDS DN DI PNS PIS SZ NR) as (T0 & T1 & T2).
  split; [|split; [|split; [|split]]].
  - intros n' name H NG E. destruct (IDX n' H NG) as (i & NI & At). rewrite (O1 i n' name NI E). f_equal.
    rewrite (proj1 (point_V t es n' i s0 At)), X0. reflexivity.
  - intros id name H E. apply In_nth_error in H. destruct H as (q & H). rewrite (O2 q id name H E). f_equal.
    rewrite (proj1 (nl_point_I t parts es G PL LC SO ND id q s0 H)), X0, LN. reflexivity.
  - intros name E. unfold report. rewrite (T0 name E). f_equal. symmetry. exact TR.
  - intros n' name H NG E. destruct (IDX n' H NG) as (i & NI & At). unfold report. rewrite (T1 i n' name NI E). f_equal.
    rewrite <- PTS, !map_map. apply map_ext. intros q. symmetry. apply (point_V t es n' i q At).
  - intros id name H E. apply In_nth_error in H. destruct H as (q & H). unfold report. rewrite (T2 q id name H E). f_equal.
    rewrite <- PTS, !map_map. apply map_ext. intros z. rewrite LN. symmetry. apply (nl_point_I t parts es G PL LC SO ND id q z H).
Qed.
Print Assumptions C198_nonlinear_tran.

(** The loop on the devices runs through, whatever the equations and the unknowns. *)
Theorem C197_devices : forall fs other fuel filename parts t es, load fs other fuel filename = Ok (parts, t, es) -> Forall (nl_sound parts) parts ->
  forall square current stamp conductance x, exists JT, devices square current stamp conductance t parts x = Ok JT.
Proof.
  intros fs other fuel filename parts t es LD SO square current stamp conductance x.
  destruct (load_facts _ _ _ _ _ _ _ LD) as (G & _). apply devices_total; [exact G|exact SO|exact (load_registered _ _ _ _ _ _ _ LD)].
Qed.
Print Assumptions C197_devices.

(** ** An example: 2 A through a resistor of 1 Ohm and a device whose current is the cube
    of its voltage.  From -1/2 V the second step arrives at 1 V, the solution. *)
Definition clamp : list str := [lit "clamp"; lit "R1 A 0 1"; lit "I1 0 a type=idc idc=2"; lit "D1 a 0 dm"; lit ".model diode dm"; lit ".OP"].
Definition clamp_parts : list pelem :=
  [PR (lit "r1") (lit "a") (lit "0") (1, 0)%Z; PI (lit "i1") (lit "0") (lit "a") (Some (2, 0)%Z) None None; PD (lit "d1") (lit "a") (lit "0") (lit "dm") None None].
Definition clamp_es : list lelem := [ER "r1" 1 0 1; EI "i1" 0 1 2 false; ENL "d1" 1 0].
Definition cube (e : pelem) (v : list R) : R := hd 0 v * (hd 0 v * hd 0 v).
Definition cube_stamp (e : pelem) (v : list R) (i j : nat) : R := 3 * (hd 0 v * hd 0 v).
Definition cube_devices (x : vec) : mat * vec :=
  match devices (fun _ => false) cube cube_stamp (fun _ _ _ => 0) shunt_t clamp_parts x with Ok r => r | Err _ => (mzero, vzero) end.
Definition exact_tols : tols := mkTols 0 0 0 0.
Definition clamp_check (x dx r : vec) : bool := convergence_check exact_tols (op_size shunt_t clamp_es) x dx r (get_nodes_number shunt_t - 1).

Lemma clamp_load : load (fun _ => Some clamp) (fun _ => Err NetlistParseError) 1 (lit "f") = Ok (clamp_parts, shunt_t, clamp_es).
Proof.
  transitivity (@Ok (list pelem * ntab * list lelem) (clamp_parts, shunt_t, [ER "r1" 1 0 (dR (1, 0)%Z); EI "i1" 0 1 (dR (2, 0)%Z) false; ENL "d1" 1 0])).
  - unfold load.
    match goal with |- context [read_netlist ?a ?b ?c] => let r := eval vm_compute in (read_netlist a b c) in change (read_netlist a b c) with r end. cbn [bindr r_models r_lines map].
    match goal with |- context [parse_models ?a ?b] => let r := eval vm_compute in (parse_models a b) in change (parse_models a b) with r end. cbn [bindr r_models r_lines map fst snd].
    match goal with |- context [main_netlist_parser ?a ?b ?c ?d] => let r := eval vm_compute in (main_netlist_parser a b c d) in change (main_netlist_parser a b c d) with r end. cbn [bindr].
    cbv -[dR]. reflexivity.
  - rewrite !dR_0. reflexivity.
Qed.
Lemma cube_run : forall x, devices (fun _ => false) cube cube_stamp (fun _ _ _ => 0) shunt_t clamp_parts x = Ok (cube_devices x) /\
  fst (cube_devices x) 0%nat 0%nat = 3 * (x 0%nat * x 0%nat) /\ snd (cube_devices x) 0%nat = x 0%nat * (x 0%nat * x 0%nat).
Proof.
  intros x. unfold cube_devices, devices, clamp_parts. cbn [device_loop]. unfold device. cbn [out_port bindr drive_ports stamp_nodes port_numbers numbers].
  change (number shunt_t (lit "a")) with (@Ok nat 1%nat). change (number shunt_t (lit "0")) with (@Ok nat 0%nat). cbn [bindr map].
  change (gstamp_reduced [1; 0]%nat (cube_stamp (PD (lit "d1") (lit "a") (lit "0") (lit "dm") None None) [drive_v x (1, 0)%nat]))
    with [((1, 1)%nat, cube_stamp (PD (lit "d1") (lit "a") (lit "0") (lit "dm") None None) [drive_v x (1, 0)%nat] 0%nat 0%nat)].
  change (istamp_reduced 1 0 (cube (PD (lit "d1") (lit "a") (lit "0") (lit "dm") None None) [drive_v x (1, 0)%nat]))
    with [(1%nat, cube (PD (lit "d1") (lit "a") (lit "0") (lit "dm") None None) [drive_v x (1, 0)%nat])].
  cbn [fancy_add_mat fancy_add_vec bindr fold_left fst snd Nat.sub]. unfold mset, vset, mzero, vzero, cube, cube_stamp, drive_v. cbn [hd fst snd Nat.eqb Nat.sub andb].
  split; [reflexivity|]. split; ring.
Qed.
Lemma clamp_step : forall locked i A b x, A 0%nat 0%nat = 1 -> b 0%nat = -2 -> x 0%nat = 1 \/ x 0%nat = -1 / 2 ->
  exists y r it, op_newton (fun _ => solve1) cube_devices clamp_check locked (mkTd false false 1) 20 shunt_t clamp_es i A b x = NRet y r true it /\ y 0%nat = 1.
Proof.
  intros locked i A b x EA EB X. unfold op_newton. change (op_size shunt_t clamp_es) with 1%nat. change (nonlinear clamp_es) with true.
  set (td := fun (dx : vec) (it : nat) => get_td (mkTd false false 1) 1 dx (ports locked clamp_es) (Some it)).
  assert (TD : forall dx it, td dx it = 1) by reflexivity. clearbody td.
  assert (CK : forall y dx r, clamp_check y dx r = true <-> (Rabs (dx 0%nat) <= 0 /\ Rabs (r 0%nat) <= 0)).
  { intros y dx r. unfold clamp_check. rewrite C11_convergence_check by (cbv; lia). cbn [exact_tols Newton.t_vea Newton.t_ver Newton.t_iea Newton.t_ier]. split.
    - intros (H & _). destruct (H 0%nat) as (H1 & H2); [cbv; lia|]. split; lra.
    - intros (H1 & H2). split; intros k K; change (get_nodes_number shunt_t - 1)%nat with 1%nat in K; change (op_size shunt_t clamp_es) with 1%nat in K; [|lia].
      replace k with 0%nat by lia. lra. }
  assert (NW : forall z, residual 1 true cube_devices A b z 0%nat = z 0%nat - 2 + z 0%nat * (z 0%nat * z 0%nat) /\
    exists dx, solve1 (jac true cube_devices A z) (fun k => - residual 1 true cube_devices A b z k) = Some dx /\ dx 0%nat = - (z 0%nat - 2 + z 0%nat * (z 0%nat * z 0%nat)) / (1 + 3 * (z 0%nat * z 0%nat))).
  { intros z. destruct (cube_run z) as (_ & J & T).
    assert (RE : residual 1 true cube_devices A b z 0%nat = z 0%nat - 2 + z 0%nat * (z 0%nat * z 0%nat)).
    { unfold residual, row. cbn [rsum]. rewrite T, EA, EB. ring. }
    split; [exact RE|]. unfold solve1. rewrite RE. unfold jac. rewrite J, EA. pose proof (Rle_0_sqr (z 0%nat)) as SQ. unfold Rsqr in SQ.
    destruct (Req_EM_T (1 + 3 * (z 0%nat * z 0%nat)) 0) as [E|E]; [lra|]. eexists. split; [reflexivity|]. cbn beta. reflexivity. }
  unfold mdn_solver. cbn [Nat.eqb]. cbn [newton_loop negb].
  destruct (NW x) as (RE & dx & S1 & DX). rewrite S1.
  destruct X as [X|X].
  - replace (clamp_check (fun i0 => x i0 + td dx 1%nat * dx i0) dx (residual 1 true cube_devices A b x)) with true.
    + do 3 eexists. split; [reflexivity|]. cbn beta. rewrite TD, DX, X. field.
    + symmetry. apply CK. rewrite DX, RE, X. replace (- (1 - 2 + 1 * (1 * 1)) / (1 + 3 * (1 * 1))) with 0 by field. replace (1 - 2 + 1 * (1 * 1)) with 0 by ring. rewrite Rabs_R0. lra.
  - replace (clamp_check (fun i0 => x i0 + td dx 1%nat * dx i0) dx (residual 1 true cube_devices A b x)) with false.
    + set (x' := fun i0 => x i0 + td dx 1%nat * dx i0).
      assert (X' : x' 0%nat = 1) by (unfold x'; rewrite TD, DX, X; field).
      destruct (NW x') as (RE' & dx' & S2 & DX'). rewrite S2.
      match goal with |- context [clamp_check ?y ?d ?r] => replace (clamp_check y d r) with true end.
      * do 3 eexists. split; [reflexivity|]. change (x' 0%nat + td dx' 2%nat * dx' 0%nat = 1). rewrite TD, DX', X'. field.
      * symmetry. apply CK. rewrite DX', RE', X'. replace (- (1 - 2 + 1 * (1 * 1)) / (1 + 3 * (1 * 1))) with 0 by field. replace (1 - 2 + 1 * (1 * 1)) with 0 by ring. rewrite Rabs_R0. lra.
    + destruct (clamp_check _ _ _) eqn:C; [|reflexivity]. exfalso. apply CK in C. destruct C as (C & _). rewrite DX, X in C.
      replace (- (-1 / 2 - 2 + -1 / 2 * (-1 / 2 * (-1 / 2))) / (1 + 3 * (-1 / 2 * (-1 / 2)))) with (3 / 2) in C by field. rewrite Rabs_right in C; lra.
Qed.
Example C197_example : forall locked at0,
  load (fun _ => Some clamp) (fun _ => Err NetlistParseError) 1 (lit "f") = Ok (clamp_parts, shunt_t, clamp_es) /\
  Forall (nl_sound clamp_parts) clamp_parts /\ has_device clamp_parts /\
  exists x, op_run (fun _ => solve1) cube_devices clamp_check locked PropsDc.default_opts (mkTd false false 1) 20 30 0 at0 shunt_t clamp_es (fun _ => -1 / 2) = Ok (Some (x, true)) /\
    op_report shunt_t clamp_es x (lit "VA") = Ok 1.
Proof.
  intros locked at0. split; [exact clamp_load|]. split; [repeat constructor; discriminate|]. split; [exists (PD (lit "d1") (lit "a") (lit "0") (lit "dm") None None); split; [right; right; left; reflexivity|discriminate]|].
  unfold op_run, op_analysis.
  match goal with |- context [generate_mna_and_N ?a ?b] => destruct (generate_mna_and_N a b) as [[m N]|] eqn:GE; [|vm_compute in GE; discriminate GE] end. cbn [bindr fst snd].
  assert (MV : reduce_mat m 0%nat 0%nat = 1 /\ reduce_vec N 0%nat = -2).
  { vm_compute in GE. injection GE as <- <-. unfold reduce_mat, reduce_vec. cbn. split; lra. }
  destruct MV as (M0 & N0).
  assert (B0 : build_gmin_matrix (get_nodes_number shunt_t) 0 0%nat 0%nat = 0) by reflexivity.
  assert (TT : time_term (get_nodes_number shunt_t) (fun e => at0 (list_ascii_of_string (lid e))) clamp_es 0%nat = 0) by reflexivity.
  set (nw := op_newton (fun _ => solve1) cube_devices clamp_check locked (mkTd false false 1) 20 shunt_t clamp_es).
  assert (RUN : forall G z, G 0%nat 0%nat = 0 -> z 0%nat = 1 \/ z 0%nat = -1 / 2 -> exists y r it, y 0%nat = 1 /\
    dc_solve_sys PropsDc.default_opts nw (get_nodes_number shunt_t) (reduce_mat m) G
      (fun i => reduce_vec N i + time_term (get_nodes_number shunt_t) (fun e => at0 (list_ascii_of_string (lid e))) clamp_es i) vzero 30 z = DRet (Some y) (Some r) true it [(RStd, true)]).
  { intros G z G0 Z.
    destruct (clamp_step locked 0 (sys_mat (get_nodes_number shunt_t) (reduce_mat m) G RStd)
      (sys_vec (fun i => reduce_vec N i + time_term (get_nodes_number shunt_t) (fun e => at0 (list_ascii_of_string (lid e))) clamp_es i) vzero RStd) z) as (y & r & it & E & Y);
      [unfold sys_mat; rewrite M0, G0; ring|unfold sys_vec; rewrite N0, TT; unfold vzero; ring|exact Z|].
    exists y, r, it. split; [exact Y|]. unfold dc_solve_sys. fold nw in E. apply (dc_solve_first _ PropsDc.default_opts (fun i r x => nw i (sys_mat _ _ _ r) (sys_vec _ _ r) x) 29 z y r it eq_refl E). }
  destruct (RUN (build_gmin_matrix (get_nodes_number shunt_t) 0) (fun _ => -1 / 2) B0 (or_intror eq_refl)) as (y & r & it & Y & E).
  destruct (RUN mzero y eq_refl (or_introl Y)) as (y' & r' & it' & Y' & E').
  exists y'. unfold op_decide. rewrite E, E'. split; [reflexivity|].
  unfold op_report. assert (NM : names_of shunt_t (seq 1 (get_nodes_number shunt_t - 1)) = @Ok (list str) [lit "a"]) by (vm_compute; reflexivity). rewrite NM. cbn [bindr].
  change (op_size shunt_t clamp_es) with 1%nat. cbn [seq map filter clamp_es is_vde]. rewrite <- Y'. reflexivity.
Qed.

(** The same circuit in a transient analysis of one step. *)
Example C198_example : forall locked at_time inv modules has_module,
  exists rows, tran_run (fun _ => solve1) cube_devices clamp_check locked PropsDc.default_opts (mkTd false false 1) 20 30 tran_opts 0 0 at_time inv modules has_module "TRAP" false
      shunt_t clamp_es 0 1 1 (Some (fun _ => -1 / 2)) 1 = Ok (Some rows) /\
    tran_report shunt_t clamp_es rows (lit "T") = Ok [0 + 1] /\ tran_report shunt_t clamp_es rows (lit "VA") = Ok [1].
Proof.
  intros locked at_time inv modules has_module. unfold tran_run.
  match goal with |- context [generate_mna_and_N ?a ?b] => destruct (generate_mna_and_N a b) as [[m N]|] eqn:GE; [|vm_compute in GE; discriminate GE] end. cbn [bindr fst snd].
  assert (MV : reduce_mat m 0%nat 0%nat = 1 /\ reduce_vec N 0%nat = -2).
  { vm_compute in GE. injection GE as <- <-. unfold reduce_mat, reduce_vec. cbn. split; lra. }
  destruct MV as (M0 & N0).
  match goal with |- context [generate_D ?a ?b ?c] => destruct (generate_D a b c) as [D|] eqn:GD; [|vm_compute in GD; discriminate GD] end. cbn [bindr].
  assert (D0 : reduce_mat D 0%nat 0%nat = 0).
  { unfold generate_D in GD. cbn in GD. injection GD as <-. unfold reduce_mat, add_cmin. destruct (Rlt_dec 0 0) as [H|]; [lra|reflexivity]. }
  change (choose_df has_module "TRAP") with (Ok DTrap). cbn [bindr method_of tran_start].
  unfold transient_analysis.
  replace (Rlt_b 1 0) with false by (symmetry; apply Rlt_b_false; lra). replace (Rlt_b 0 1) with true by (symmetry; apply Rlt_b_true; lra).
  cbn [buffer_len m_x m_dx m_trap]. unfold tstart_state.
  assert (TT : time_term (get_nodes_number shunt_t) (fun e => at_time (list_ascii_of_string (lid e)) (0 + 1)) clamp_es 0%nat = 0) by reflexivity.
  assert (SOLV : forall r c1 c0, exists y, tran_solve (fun _ => solve1) cube_devices clamp_check locked PropsDc.default_opts (mkTd false false 1) 20 30 0 at_time shunt_t clamp_es
    (reduce_mat m) (reduce_vec N) (reduce_mat D) r c1 c0 (0 + 1) (fun _ => -1 / 2) = Ok (Some y) /\ y 0%nat = 1).
  { intros r c1 c0. unfold tran_solve.
    set (nw := op_newton (fun _ => solve1) cube_devices clamp_check locked (mkTd false false 1) 20 shunt_t clamp_es).
    set (A := fun i j : nat => reduce_mat m i j + c1 * reduce_mat D i j).
    set (b := fun i : nat => reduce_vec N i + time_term (get_nodes_number shunt_t) (fun e => at_time (list_ascii_of_string (lid e)) (0 + 1)) clamp_es i).
    set (c := fun i : nat => row (op_size shunt_t clamp_es) (reduce_mat D) i c0).
    destruct (clamp_step locked 0 (sys_mat (get_nodes_number shunt_t) A (build_gmin_matrix (get_nodes_number shunt_t) 0) RStd) (sys_vec b c RStd) (fun _ => -1 / 2)) as (y & er & it & E & Y).
    - unfold sys_mat, A. rewrite M0, D0. change (build_gmin_matrix (get_nodes_number shunt_t) 0 0%nat 0%nat) with 0. ring.
    - unfold sys_vec, b, c, row. change (op_size shunt_t clamp_es) with 1%nat. cbn [rsum]. rewrite N0, D0, TT. ring.
    - right. reflexivity.
    - exists y. split; [|exact Y]. fold nw in E. unfold dc_solve_sys.
      rewrite (dc_solve_first _ PropsDc.default_opts (fun i r x => nw i (sys_mat _ A _ r) (sys_vec b c r) x) 29 (fun _ => -1 / 2) y er it eq_refl E). reflexivity. }
  cbn [tloop q_time]. replace (Rlt_b 0 1) with true by (symmetry; apply Rlt_b_true; lra).
  unfold step, coeffs. cbn [q_iter q_buf q_step q_x q_x0 q_time q_rows andb first_iterations m_x m_dx m_trap Nat.max Nat.ltb Nat.leb ie_get].
  match goal with |- context [tran_solve _ _ _ _ _ _ _ _ _ _ _ _ _ _ _ ?r ?c1 ?c0 _ ?z] => change z with (fun _ : nat => -1 / 2); destruct (SOLV r c1 c0) as (y & E & Y) end.
  rewrite E.
  exists [(0 + 1, y)]. split.
  - unfold accept, iter_limit. cbn [q_time q_step q_rows q_iter q_buf t_maxiter tran_opts Nat.ltb Nat.leb andb app].
    cbn [q_time tloop]. replace (Rlt_b (0 + 1) 1) with false by (symmetry; apply Rlt_b_false; lra). reflexivity.
  - unfold tran_report. assert (NM : names_of shunt_t (seq 1 (get_nodes_number shunt_t - 1)) = @Ok (list str) [lit "a"]) by (vm_compute; reflexivity). rewrite NM. cbn [bindr].
    change (op_size shunt_t clamp_es) with 1%nat. cbn [filter clamp_es is_vde map]. split; [reflexivity|]. rewrite <- Y. reflexivity.
Qed.
