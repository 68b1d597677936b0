(** From the text of a netlist to the results of a pole-zero analysis (C206-C208). *)
From Coq Require Import Ascii String Reals List Bool Arith ZArith Lia Lra Psatz.
From Verif Require Import Base BaseFacts Str Units Directive Lines Reader Netlist ModelLines Nodes NodesFacts Circuit CircuitFacts Rsum Mna MnaSpec MnaFacts DcSolve DcSolveFacts
  Newton NewtonFacts DynFacts Lagrange Df PropsDf Tran TranFacts PropsTran Csv PropsCsv Results PropsReader PropsNetlist PropsResults PropsDc Sweep PropsSweep PropsMna PropsAc Session Simulate
  PropsSimulate SimulateAc PropsSimulateAc SimulateDc PropsSimulateDc PropsSimulateOp SimulateTran PropsSimulateTran SimulateNl PropsSimulateNl SimulateAcNl PropsSimulateAcNl Stamp
  Pss PropsPss Postproc Pz PropsPz SimulatePz.
Import ListNotations.
Open Scope R_scope.

(** * What a netlist says about motions that grow or decay like exp (s t) *)
Section PzLaws.
  Variables (square : pelem -> bool) (stamp : pelem -> list R -> nat -> nat -> R) (conductance : pelem -> list R -> nat -> R).
  (** The voltages where the devices are replaced by their derivatives. *)
  Variable V0 : str -> R.

  (** The laws at one time, as in C196, with the small-signal currents of the devices. *)
  Definition pz_laws (src : pelem -> R) (parts : list pelem) (V I dV dI : str -> R) : Prop :=
    V (lit "0") = 0 /\
    (forall n, In n (node_list parts) -> n <> lit "0" -> tr_leaving src V I dV n parts + small square stamp conductance V0 V n parts = 0) /\
    Forall (tr_law src parts V I dI) parts.

  (** [Re ((Vr + j Vi) exp (s t))] and so on obey the laws: at the time 0 and a quarter of a
      period before, hence always.  The source called [id] has the value
      [Re ((ar + j ai) exp (s t))], the others are off. *)
  Definition only (id : str) (a : R) (e : pelem) : R := if streqb (pid e) id then a else 0.
  Definition moves (s : cx) (id : str) (ar ai : R) (parts : list pelem) (Vr Vi Ir Ii : str -> R) : Prop :=
    pz_laws (only id ar) parts Vr Ir (fun n => fst s * Vr n - snd s * Vi n) (fun n => fst s * Ir n - snd s * Ii n) /\
    pz_laws (only id ai) parts Vi Ii (fun n => fst s * Vi n + snd s * Vr n) (fun n => fst s * Ii n + snd s * Ir n).
  Definition present (parts : list pelem) (Vr Vi Ir Ii : str -> R) : Prop :=
    (exists n, In n (node_list parts) /\ (Vr n <> 0 \/ Vi n <> 0)) \/ (exists id, In id (current_ids parts) /\ (Ir id <> 0 \/ Ii id <> 0)).

  (** Without sources there is a motion like exp (s t). *)
  Definition natural_frequency (parts : list pelem) (s : cx) : Prop :=
    exists Vr Vi Ir Ii, present parts Vr Vi Ir Ii /\ moves s [] 0 0 parts Vr Vi Ir Ii.
  (** With the source [id] like exp (s t) there is such a motion without a voltage from [o1] to [o2]. *)
  Definition blocked_frequency (parts : list pelem) (id o1 o2 : str) (s : cx) : Prop :=
    exists Vr Vi Ir Ii ar ai, (present parts Vr Vi Ir Ii \/ ar <> 0 \/ ai <> 0) /\ moves s id ar ai parts Vr Vi Ir Ii /\
      Vr o1 - Vr o2 = 0 /\ Vi o1 - Vi o2 = 0.
End PzLaws.
(** No coupled inductors (see C62). *)
Definition uncoupled (e : pelem) : Prop := match e with PK _ _ _ _ _ _ => False | _ => True end.
(** The number of capacitors and inductors. *)
Definition stores (e : pelem) : bool := match e with PC _ _ _ _ _ | PL _ _ _ _ _ => true | _ => false end.
Definition n_stores (parts : list pelem) : nat := List.length (filter stores parts).

(** * Lemmas *)

(** ** The laws mention the names of the netlist only *)
Lemma in_nodes : forall parts e n, In e parts -> In n (nodes_in e) -> In n (node_list parts).
Proof. intros. unfold node_list. apply in_flat_map. eauto. Qed.

Section Agree.
  Variables (square : pelem -> bool) (stamp : pelem -> list R -> nat -> nat -> R) (conductance : pelem -> list R -> nat -> R).
  Variable parts : list pelem.
  Hypothesis SO : Forall (nl_sound parts) parts.
  Variables (V V' I I' dV dV' dI dI' : str -> R).
  Hypothesis EV : forall n, In n (node_list parts) -> V n = V' n.
  Hypothesis EI : forall id, In id (current_ids parts) -> I id = I' id.
  Hypothesis EDV : forall n, In n (node_list parts) -> dV n = dV' n.
  Hypothesis EDI : forall id, In id (current_ids parts) -> dI id = dI' id.

  Lemma own_current : forall e, In e parts -> has_current e = true -> In (pid e) (current_ids parts).
  Proof. intros e IE H. unfold current_ids. apply in_map. apply filter_In. auto. Qed.
  Lemma through_agree : forall src src' e, In e parts -> src e = src' e -> tr_through src V I dV e = tr_through src' V' I' dV' e.
  Proof.
    intros src src' e IE ES. assert (N : forall n, In n (nodes_in e) -> In n (node_list parts)) by (intros; eapply in_nodes; eauto).
    pose proof (own_current e IE) as OC. pose proof (proj1 (Forall_forall _ _) SO e IE) as S1.
    destruct e; cbn [tr_through through nodes_in has_current pid] in *; rewrite ?(EV n1), ?(EV n2), ?(EDV n1), ?(EDV n2) by (apply N; simpl; auto); try reflexivity; try (apply EI; apply OC; reflexivity).
    - exact ES.
    - rewrite (EV s1), (EV s2) by (apply N; simpl; auto). reflexivity.
    - destruct S1 as (S1 & _). cbn [sound] in S1. rewrite (EI src0) by exact S1. reflexivity.
  Qed.
  Lemma leaving_agree : forall src src' n l, incl l parts -> (forall e, In e l -> src e = src' e) -> tr_leaving src V I dV n l = tr_leaving src' V' I' dV' n l.
  Proof.
    intros src src' n l. induction l as [|e l IH]; intros IN ES; [reflexivity|]. cbn [tr_leaving]. rewrite IH; [|intros q Q; apply IN; right; exact Q|intros q Q; apply ES; right; exact Q].
    f_equal. unfold tr_leaving1. rewrite (through_agree src src' e); [reflexivity|apply IN; left; reflexivity|apply ES; left; reflexivity].
  Qed.
  Lemma port_current_agree : forall g ps k, (forall p, In p ps -> V (fst p) = V' (fst p) /\ V (snd p) = V' (snd p)) -> port_current g ps k V = port_current g ps k V'.
  Proof.
    intros g ps. induction ps as [|p ps IH]; intros k H; [reflexivity|]. cbn [port_current]. destruct (H p) as (-> & ->); [left; reflexivity|].
    rewrite IH; [reflexivity|]. intros q Q. apply H. right. exact Q.
  Qed.
  Lemma small_agree : forall V0 n l, incl l parts -> small square stamp conductance V0 V n l = small square stamp conductance V0 V' n l.
  Proof.
    intros V0 n l. induction l as [|e l IH]; intros IN; [reflexivity|]. cbn [small]. rewrite IH; [|intros q Q; apply IN; right; exact Q]. f_equal.
    assert (N : forall n, In n (nodes_in e) -> V n = V' n) by (intros q Q; apply EV; eapply in_nodes; [apply IN; left; reflexivity|exact Q]).
    assert (TN : forall ts, terminals square e = Some ts -> forall q, In q ts -> In q (nodes_in e)).
    { intros ts T q Q. destruct e; cbn [terminals] in T; try discriminate T; [injection T as <-; exact Q|]. destruct (square _); [injection T as <-; exact Q|discriminate T]. }
    assert (CN : forall p, In p (controls square e) -> In (fst p) (nodes_in e) /\ In (snd p) (nodes_in e)).
    { intros p Q. destruct e; cbn [controls] in Q; try destruct Q as [].
      - subst p. simpl. auto.
      - destruct H.
      - destruct (square _); simpl in Q; destruct Q as [<-|[<-|[<-|[]]]]; simpl; auto 8. }
    unfold small1. destruct (channel e) as [[a b]|]; [|reflexivity]. destruct (terminals square e) as [ts|] eqn:T.
    - apply rsum_ext. intros i Hi. destruct (streqb n (nth i ts [])); [|reflexivity]. apply rsum_ext. intros j Hj. rewrite (N (nth j ts [])); [reflexivity|]. apply (TN ts eq_refl). apply nth_In. exact Hj.
    - f_equal. apply port_current_agree. intros p Q. destruct (CN p Q) as (A & B). split; apply N; assumption.
  Qed.
  Lemma linked_agree : forall id l, incl l parts -> linked dI id l = linked dI' id l.
  Proof.
    intros id l. induction l as [|e l IH]; intros IN; [reflexivity|]. pose proof (proj1 (Forall_forall _ _) SO e (IN e (or_introl eq_refl))) as S1.
    assert (IH' : linked dI id l = linked dI' id l) by (apply IH; intros q Q; apply IN; right; exact Q).
    destruct e; cbn [linked]; rewrite ?IH'; try reflexivity. destruct S1 as (_ & _ & (a1 & b1 & v1' & c1 & H1) & a2 & b2 & v2' & c2 & H2).
    rewrite (EDI l1), (EDI l2); [reflexivity|exact (own_current _ H2 eq_refl)|exact (own_current _ H1 eq_refl)].
  Qed.
  Lemma law_agree : forall src src' e, In e parts -> src e = src' e -> tr_law src parts V I dI e -> tr_law src' parts V' I' dI' e.
  Proof.
    intros src src' e IE ES. assert (N : forall n, In n (nodes_in e) -> In n (node_list parts)) by (intros; eapply in_nodes; eauto).
    pose proof (own_current e IE) as OC. pose proof (proj1 (Forall_forall _ _) SO e IE) as S1.
    destruct e; cbn [tr_law law nodes_in has_current pid] in *; intros H; try exact Logic.I; rewrite <- ?(EV n1), <- ?(EV n2) by (apply N; simpl; auto).
    - rewrite <- (linked_agree id parts (incl_refl _)), <- (EDI id) by (apply OC; reflexivity). exact H.
    - rewrite H. exact ES.
    - rewrite <- (EV s1), <- (EV s2) by (apply N; simpl; auto). exact H.
    - destruct S1 as (S1 & _). destruct S1.
  Qed.
  Lemma pz_agree : forall V0 src src', In (lit "0") (node_list parts) \/ V' (lit "0") = 0 -> (forall e, In e parts -> src e = src' e) ->
    pz_laws square stamp conductance V0 src parts V I dV dI -> pz_laws square stamp conductance V0 src' parts V' I' dV' dI'.
  Proof.
    intros V0 src src' G ES (A & B & C). split; [destruct G as [G|G]; [rewrite <- (EV _ G); exact A|exact G]|]. split.
    - intros n IN NG. rewrite <- (leaving_agree src src' n parts (incl_refl _) ES), <- (small_agree V0 n parts (incl_refl _)). exact (B n IN NG).
    - apply Forall_forall. intros e IE. apply (law_agree src src' e IE (ES e IE)). exact (proj1 (Forall_forall _ _) C e IE).
  Qed.
End Agree.

(** ** The source *)
Definition nil_ (_ : str) : R := 0.
Lemma leaving_off : forall id a n l, ~ In id (map pid l) -> tr_leaving (only id a) nil_ nil_ nil_ n l = 0.
Proof.
  intros id a n l. induction l as [|e l IH]; intros H; [reflexivity|]. cbn [tr_leaving]. rewrite IH by (intros Q; apply H; right; exact Q).
  assert (T : tr_through (only id a) nil_ nil_ nil_ e = 0).
  { assert (NE : streqb (pid e) id = false) by (apply streqb_ne; intros E; apply H; left; exact E).
    destruct e; cbn [tr_through through]; unfold nil_, only, Rdiv; try ring. rewrite NE. reflexivity. }
  unfold tr_leaving1. rewrite T. repeat match goal with |- context [if ?b then _ else _] => destruct b end; ring.
Qed.
Lemma tr_leaving_app : forall src V I dV n a b, tr_leaving src V I dV n (a ++ b) = tr_leaving src V I dV n a + tr_leaving src V I dV n b.
Proof. intros src V I dV n a b. induction a as [|e a IH]; cbn [app tr_leaving]; [ring|]. rewrite IH. ring. Qed.
Lemma leaving_only : forall a n pre e post, NoDup (map pid (pre ++ e :: post)) ->
  tr_leaving (only (pid e) a) nil_ nil_ nil_ n (pre ++ e :: post) = tr_leaving1 (only (pid e) a) nil_ nil_ nil_ n e.
Proof.
  intros a n pre e post ND. rewrite map_app in ND. cbn [map] in ND. apply NoDup_remove_2 in ND. rewrite tr_leaving_app. cbn [tr_leaving].
  rewrite !leaving_off by (intros Q; apply ND; apply in_or_app; auto). ring.
Qed.
Lemma gap_only : forall id a parts e, (forall e', In e' [e] -> True) -> tr_gap (only id a) parts nil_ nil_ nil_ e = match e with PV _ _ _ _ _ _ => - only id a e | _ => 0 end.
Proof. intros id a parts e _. destruct e; cbn [tr_gap]; rewrite ?linked_zero by reflexivity; unfold nil_; ring. Qed.
Lemma leaving_source : forall id a V I dV n l, tr_leaving (only id a) V I dV n l = tr_leaving (fun _ => 0) V I dV n l + a * tr_leaving (only id 1) nil_ nil_ nil_ n l.
Proof.
  intros id a V I dV n l. induction l as [|e l IH]; cbn [tr_leaving]; [ring|]. rewrite IH.
  assert (T : tr_through (only id a) V I dV e = tr_through (fun _ => 0) V I dV e + a * tr_through (only id 1) nil_ nil_ nil_ e).
  { destruct e; cbn [tr_through through]; unfold nil_, only, Rdiv; try ring. destruct (streqb _ _); ring. }
  unfold tr_leaving1. rewrite T. repeat match goal with |- context [if ?b then _ else _] => destruct b end; ring.
Qed.
Lemma gap_source : forall id a parts V I dI e, tr_gap (only id a) parts V I dI e = tr_gap (fun _ => 0) parts V I dI e + a * tr_gap (only id 1) parts nil_ nil_ nil_ e.
Proof.
  intros id a parts V I dI e. rewrite gap_only by auto. destruct e; cbn [tr_gap]; try ring. unfold only. destruct (streqb _ _); ring.
Qed.
Lemma source_named : forall nv val t parts es, Forall2 (placed val t) parts es -> forall id k src, source_inj nv es k (ss id) = Ok src ->
  exists pre e post, parts = (pre ++ e :: post)%list /\ pid e = id /\
    ((exists a b dc ac f, e = PV id a b dc ac f /\ src = vadd vzero (nv - 1 + (k + List.length (filter has_current pre))) (-1)) \/
     (exists a b dc ac f i j, e = Netlist.PI id a b dc ac f /\ at_node t a i /\ at_node t b j /\ src = mc_nodes i j)).
Proof.
  intros nv val t parts es F. induction F as [|e l parts es P F IH]; intros id k src H; [discriminate H|]. cbn [source_inj] in H.
  destruct (placed_lid val t e l P) as (LI & VD). destruct (String.eqb_spec (lid l) (ss id)) as [E|E].
  - assert (EI : pid e = id) by (apply ss_inj; congruence). exists [], e, parts. split; [reflexivity|]. split; [exact EI|].
    destruct e; cbn [placed pid] in *; subst.
    all: try (destruct P as (m & -> & _); discriminate H).
    all: try (destruct P as (i & j & ->); discriminate H).
    all: try (destruct P as (i & j & k' & m' & -> & _); discriminate H).
    all: destruct P as (i & j & -> & A & B); try discriminate H; injection H as <-.
    + left. do 5 eexists. split; [reflexivity|]. cbn [filter List.length]. rewrite Nat.add_0_r. reflexivity.
    + right. exists n1, n2. do 3 eexists. exists i, j. auto.
  - destruct (IH _ _ _ H) as (pre & q & post & -> & EI & Q). exists (e :: pre), q, post. split; [reflexivity|]. split; [exact EI|].
    destruct Q as [Q|Q]; [left|right; exact Q]. destruct Q as (a & b & dc & ac & f & EQ & ->). exists a, b, dc, ac, f. split; [exact EQ|].
    cbn [filter]. rewrite <- VD. destruct (is_vde l); cbn [List.length]; f_equal; lia.
Qed.
Lemma filter_split : forall A (f : A -> bool) l k e, nth_error (filter f l) k = Some e ->
  exists pre post, l = (pre ++ e :: post)%list /\ List.length (filter f pre) = k /\ f e = true.
Proof.
  intros A f l. induction l as [|a l IH]; intros k e H; cbn [filter] in H; [destruct k; discriminate H|]. destruct (f a) eqn:FA.
  - destruct k as [|k]; cbn [nth_error] in H.
    + injection H as <-. exists [], l. auto.
    + destruct (IH _ _ H) as (pre & post & -> & L & FE). exists (a :: pre), post. cbn [app filter]. rewrite FA. cbn [List.length]. auto.
  - destruct (IH _ _ H) as (pre & post & -> & L & FE). exists (a :: pre), post. cbn [app filter]. rewrite FA. auto.
Qed.
Lemma law_gap : forall src parts V I dI e, tr_law src parts V I dI e -> tr_gap src parts V I dI e = 0.
Proof. intros src parts V I dI e. destruct e; cbn [tr_gap tr_law law]; intros; lra. Qed.

Lemma pid_one : forall parts, NoDup (map pid parts) -> forall e e', In e parts -> In e' parts -> pid e = pid e' -> e = e'.
Proof.
  intros parts. induction parts as [|q l IH]; intros ND e e' IE IE' EQ; [destruct IE|]. inversion ND as [|? ? NI ND']; subst.
  destruct IE as [->|IE], IE' as [->|IE']; auto; exfalso; apply NI; [rewrite EQ|rewrite <- EQ]; apply in_map; assumption.
Qed.

(** ** The system *)
Section PzRows.
  Variables (square : pelem -> bool) (current : pelem -> list R -> R) (stamp : pelem -> list R -> nat -> nat -> R) (conductance : pelem -> list R -> nat -> R).
  Variables (t : ntab) (parts : list pelem) (es : list lelem).
  Hypothesis GR : grounded t.
  Hypothesis PL_ : Forall2 (placed written_dc t) parts es.
  Hypothesis LC : Forall lower_case parts.
  Hypothesis SO : Forall (nl_sound parts) parts.
  Hypothesis ND : NoDup (map pid parts).
  Hypothesis MEN : forall n i, at_node t n i -> In n (node_list parts).
  Hypothesis REG : forall n, In n (node_list parts) -> exists i, at_node t n i.
  Let nv := get_nodes_number t.
  Let size := op_size t es.
  Variables (D M : mat) (x0 : option vec).
  Hypothesis GD : generate_D 0 nv es = Ok D.
  Hypothesis GM : pz_matrix square current stamp conductance parts t es x0 = Ok M.
  Let V (x : vec) := volt t (with_ground x).
  Let A (x : vec) := amp nv es (with_ground x).
  Let xop := match x0 with Some x => x | None => vzero end.
  Let laws := pz_laws square stamp conductance (V xop).

  Lemma pz_size : (0 < nv)%nat /\ size = (nv - 1 + n_vde es)%nat /\ List.length (current_ids parts) = n_vde es.
  Proof.
    pose proof (grounded_number t GR) as NZ. fold nv in NZ. split; [exact NZ|]. split; [unfold size, op_size; fold nv; lia|].
    pose proof (placed_ids written_dc t parts es PL_) as Q. apply (f_equal (@List.length string)) in Q. rewrite !map_length in Q. symmetry. exact Q.
  Qed.
  Lemma pz_V0 : forall x, V x (lit "0") = 0.
  Proof. intros w. unfold V, volt. pose proof (proj2 GR) as GZ. unfold at_node in GZ. rewrite GZ. reflexivity. Qed.
  Lemma pz_XV : forall x n i, at_node t n (S i) -> x i = V x n.
  Proof. intros x n i H. unfold V, volt. unfold at_node in H. rewrite H. reflexivity. Qed.
  Lemma pz_XI : forall x k id, nth_error (current_ids parts) k = Some id -> x (nv - 1 + k)%nat = A x id.
  Proof. intros x k id H. exact (nl_XI t parts es GR PL_ LC SO ND x k id H). Qed.
  Lemma pz_V : forall a b x y n, V (fun j => a * x j + b * y j) n = a * V x n + b * V y n.
  Proof. intros a b x y n. unfold V, volt. destruct (ext_node_to_int t (ss n)) as [[|i]|]; cbn [with_ground]; ring. Qed.
  Lemma pz_A : forall a b x y n, A (fun j => a * x j + b * y j) n = a * A x n + b * A y n.
  Proof. intros a b x y n. unfold A, amp. destruct (vde_index es (ss n)) as [k|]; [destruct (nv + k)%nat|]; cbn [with_ground]; ring. Qed.
  Lemma pz_index : forall i, (i < size)%nat -> (exists n, at_node t n (S i) /\ (i < nv - 1)%nat) \/
    exists pre e post, parts = (pre ++ e :: post)%list /\ has_current e = true /\ i = (nv - 1 + List.length (filter has_current pre))%nat.
  Proof.
    intros i Hi. destruct pz_size as (NZ & SZ & LN). destruct (Nat.lt_ge_cases i (nv - 1)) as [C|C].
    - left. destruct (proj1 (grounded_range t (S i) GR)) as (n & At); [fold nv; lia|]. exists n. auto.
    - right. destruct (nth_error (filter has_current parts) (i - (nv - 1))) as [e|] eqn:E.
      + destruct (filter_split _ _ _ _ _ E) as (pre & post & EP & L & HC). exists pre, e, post. split; [exact EP|]. split; [exact HC|]. lia.
      + apply nth_error_None in E. unfold current_ids in LN. rewrite map_length in LN. lia.
  Qed.
  Lemma pz_branch : forall pre e post, parts = (pre ++ e :: post)%list -> has_current e = true ->
    (nv - 1 + List.length (filter has_current pre) < size)%nat /\ nth_error (current_ids parts) (List.length (filter has_current pre)) = Some (pid e).
  Proof.
    intros pre e post E HC. destruct pz_size as (NZ & SZ & LN).
    assert (NE : nth_error (current_ids parts) (List.length (filter has_current pre)) = Some (pid e)).
    { rewrite E. unfold current_ids. rewrite filter_app, map_app. rewrite nth_error_app2; rewrite map_length; [|lia].
      rewrite Nat.sub_diag. cbn [filter]. rewrite HC. reflexivity. }
    split; [|exact NE]. assert ((List.length (filter has_current pre) < List.length (current_ids parts))%nat) by (apply nth_error_Some; congruence). lia.
  Qed.

  (** The rows of the linear elements. *)
  Lemma hom_rows : forall m N, generate_mna_and_N nv es = Ok (m, N) -> forall x y,
    (forall n i, at_node t n (S i) -> row size (reduce_mat m) i x + row size (reduce_mat D) i y = tr_leaving (fun _ => 0) (V x) (A x) (V y) n parts) /\
    (forall pre e post, parts = (pre ++ e :: post)%list -> has_current e = true ->
       let i := (nv - 1 + List.length (filter has_current pre))%nat in
       row size (reduce_mat m) i x + row size (reduce_mat D) i y = tr_gap (fun _ => 0) parts (V x) (A x) (A y) e).
  Proof.
    intros m N GE x y.
    pose proof (lin_placed written_dc t parts es PL_) as PLL. pose proof (lin_proper parts LC SO) as LP. pose proof (lin_sound parts SO) as LS. pose proof (lin_nodup parts ND) as LN.
    assert (GE' : generate_mna_and_N (get_nodes_number t) (filter linl es) = Ok (m, N)) by (rewrite lin_system; exact GE).
    assert (GD' : generate_D 0 (get_nodes_number t) (filter linl es) = Ok D) by (rewrite lin_dynamic; exact GD).
    assert (AA : forall w id, amp nv (filter linl es) (with_ground w) id = A w id) by (intros w id; unfold A, amp; rewrite lin_index; reflexivity).
    assert (VZ : forall n, V vzero n = 0) by (intros n; unfold V, volt; destruct (ext_node_to_int t (ss n)) as [[|i]|]; reflexivity).
    assert (AZ : forall id, A vzero id = 0) by (intros id; unfold A, amp; destruct (vde_index es (ss id)) as [k|]; [destruct (nv + k)%nat|]; reflexivity).
    set (at0 := fun _ : str => 0).
    assert (RW : forall i, tr_row t (filter linl es) 0 m N D at0 x y i - tr_row t (filter linl es) 0 m N D at0 vzero vzero i = row size (reduce_mat m) i x + row size (reduce_mat D) i y).
    { intros i. unfold tr_row. rewrite lin_size. fold size. assert (Z : forall Q, row size Q i vzero = 0) by (intros Q; unfold row; apply rsum_0; intros; unfold vzero; ring).
      rewrite !Z. destruct (i <? get_nodes_number t - 1)%nat; ring. }
    split.
    - intros n i At. rewrite <- RW. rewrite !(node_row_named t (filter linp parts) (filter linl es) GR PLL LP LS LN 0 0 m N D GE' GD' at0 _ _ n i At).
      fold nv. rewrite !lin_leaving. fold (V x) (V y) (V vzero).
      rewrite (tr_leaving_ext _ (V x) _ (A x)) by apply AA. rewrite (tr_leaving_ext _ (V vzero) _ (A vzero)) by apply AA.
      rewrite !VZ. rewrite (Rmax_left 0 0) by lra. rewrite !tr_leaving_split, (caps_zero (V vzero)) by exact VZ.
      pose proof (leaving_affine (driven at0 written_dc) (V x) (A x) (V vzero) (A vzero) n parts VZ AZ). lra.
    - intros pre e post E HC i. rewrite <- RW.
      assert (LE : linp e = true) by (destruct e; try discriminate HC; reflexivity).
      assert (E' : filter linp parts = (filter linp pre ++ e :: filter linp post)%list) by (rewrite E, filter_app; cbn [filter]; rewrite LE; reflexivity).
      pose proof (branch_row_named t (filter linp parts) (filter linl es) GR PLL LP LS LN 0 0 m N D GE' GD' at0) as B.
      pose proof (B x y _ e _ E' HC) as B1. pose proof (B vzero vzero _ e _ E' HC) as B2. clear B.
      rewrite lin_currents in B1, B2. fold nv in B1, B2. unfold i. rewrite B1, B2. rewrite !lin_gap. fold (V x) (V vzero).
      rewrite (tr_gap_ext _ parts (V x) _ (A x) _ (A y)) by apply AA. rewrite (tr_gap_ext _ parts (V vzero) _ (A vzero) _ (A vzero)) by apply AA.
      apply (tr_gap_affine _ parts (V x) (A x) (A y) (V vzero) (A vzero) (A vzero) e VZ AZ AZ).
  Qed.
  Lemma no_small : nonlinear es = false -> forall V0 W n, small square stamp conductance V0 W n parts = 0.
  Proof.
    intros NL V0 W n. assert (H : forall e, In e parts -> channel e = None).
    { intros e IE. destruct (channel e) eqn:C; [|reflexivity]. rewrite (device_nonlinear t parts es PL_) in NL; [discriminate NL|]. exists e. split; [exact IE|congruence]. }
    clear - H. induction parts as [|e l IH]; [reflexivity|]. cbn [small]. rewrite IH by (intros q Q; apply H; right; exact Q).
    unfold small1. rewrite (H e (or_introl eq_refl)). ring.
  Qed.
  Lemma pz_rows : forall x y,
    (forall n i, at_node t n (S i) -> row size M i x + row size (reduce_mat D) i y = tr_leaving (fun _ => 0) (V x) (A x) (V y) n parts + small square stamp conductance (V xop) (V x) n parts) /\
    (forall pre e post, parts = (pre ++ e :: post)%list -> has_current e = true ->
       let i := (nv - 1 + List.length (filter has_current pre))%nat in
       row size M i x + row size (reduce_mat D) i y = tr_gap (fun _ => 0) parts (V x) (A x) (A y) e).
  Proof.
    intros x y. unfold pz_matrix in GM. fold nv in GM. destruct (generate_mna_and_N nv es) as [[m N]|] eqn:GE; [|discriminate GM]. cbn [bindr fst] in GM.
    destruct (hom_rows m N GE x y) as (HN & HB). destruct pz_size as (NZ & SZ & LN).
    destruct (nonlinear es) eqn:NL.
    - fold xop in GM. unfold devices_J in GM. destruct (devices square current stamp conductance t parts xop) as [JT|] eqn:DV; [|discriminate GM]. cbn [bindr] in GM. injection GM as <-.
      assert (SZ' : (get_nodes_number t - 1 <= size)%nat) by (fold nv; lia).
      split.
      + intros n i At. rewrite row_plus_m. rewrite (devices_J_row square current stamp conductance t GR size SZ' parts xop JT n i x DV At). rewrite <- (HN n i At). unfold V. ring.
      + intros pre e post E HC i. rewrite row_plus_m. rewrite (devices_J_far square current stamp conductance t GR size SZ' parts xop JT i x DV); [rewrite <- (HB pre e post E HC); unfold i; ring|].
        intros n k At. assert ((k < nv)%nat) by (apply (grounded_range t k GR); eauto). unfold i. lia.
    - injection GM as <-. split; [|exact HB]. intros n i At. rewrite (no_small NL). rewrite (HN n i At). ring.
  Qed.

  (** The system is the laws. *)
  Lemma pz_system : forall x y id a src,
    (forall n i, at_node t n (S i) -> a * src i = a * tr_leaving (only id 1) nil_ nil_ nil_ n parts) ->
    (forall pre e post, parts = (pre ++ e :: post)%list -> has_current e = true -> a * src (nv - 1 + List.length (filter has_current pre))%nat = a * tr_gap (only id 1) parts nil_ nil_ nil_ e) ->
    (forall i, (i < size)%nat -> row size M i x + row size (reduce_mat D) i y + a * src i = 0) <-> laws (only id a) parts (V x) (A x) (V y) (A y).
  Proof.
    intros x y id a src SN SB. destruct (pz_rows x y) as (HN & HB). destruct pz_size as (NZ & SZ & LN).
    split.
    - intros H. split; [apply pz_V0|]. split.
      + intros n IN NG. destruct (nl_nodes t parts es GR REG n IN NG) as (i & At & Hi). fold nv in Hi.
        rewrite leaving_source, <- (SN n i At). pose proof (H i ltac:(lia)) as R1. rewrite (HN n i At) in R1. lra.
      + apply Forall_forall. intros e IE. destruct (has_current e) eqn:HC; [|destruct e; try discriminate HC; exact Logic.I].
        apply tr_gap_law. apply in_split in IE. destruct IE as (pre & post & E). destruct (pz_branch pre e post E HC) as (Hi & _).
        rewrite gap_source, <- (SB pre e post E HC). rewrite <- (HB pre e post E HC). apply H. exact Hi.
    - intros (_ & K & L) i Hi. destruct (pz_index i Hi) as [(n & At & Hi')|(pre & e & post & E & HC & ->)].
      + rewrite (HN n i At), (SN n i At). assert (NG : n <> lit "0") by (intros ->; pose proof (at_node_fun _ _ _ _ At (proj2 GR)); discriminate).
        specialize (K n (MEN n _ At) NG). rewrite leaving_source in K. lra.
      + rewrite (HB pre e post E HC), (SB pre e post E HC), <- gap_source. apply law_gap. apply (proj1 (Forall_forall _ _) L). rewrite E. apply in_or_app. right. left. reflexivity.
  Qed.
  Lemma off_system : forall x y, (forall i, (i < size)%nat -> row size M i x + row size (reduce_mat D) i y = 0) <-> laws (only [] 0) parts (V x) (A x) (V y) (A y).
  Proof.
    intros x y. rewrite <- (pz_system x y [] 0 vzero) by (intros; ring). split; intros H i Hi; specialize (H i Hi); unfold vzero in *; lra.
  Qed.
  Lemma source_system : forall id src x y a, source_inj nv es 0 (ss id) = Ok src ->
    (forall i, (i < size)%nat -> row size M i x + row size (reduce_mat D) i y + a * src i = 0) <-> laws (only id a) parts (V x) (A x) (V y) (A y).
  Proof.
    intros id src x y a H. destruct pz_size as (NZ & SZ & LN).
    destruct (source_named nv written_dc t parts es PL_ id 0 src H) as (pre & e & post & E & EI & C). subst id.
    assert (IE0 : In e parts) by (rewrite E; apply in_or_app; right; left; reflexivity).
    assert (UN : forall e', In e' parts -> e' <> e -> only (pid e) 1 e' = 0).
    { intros e' IE NE. unfold only. rewrite streqb_ne; [reflexivity|]. intros EQ. apply NE. exact (pid_one parts ND e' e IE IE0 EQ). }
    assert (ND' : NoDup (map pid (pre ++ e :: post))) by (rewrite <- E; exact ND).
    apply pz_system.
    - intros n i At. f_equal. rewrite E, leaving_only by exact ND'.
      assert (Hi : (S i < nv)%nat) by (apply (grounded_range t (S i) GR); eauto).
      destruct C as [(a' & b & dc & ac & f & EQ & ->)|(a' & b & dc & ac & f & i' & j' & EQ & A1 & A2 & ->)]; rewrite EQ; unfold tr_leaving1; cbn [tr_through through first_end second_end pid].
      + rewrite vadd_val. unfold vzero, dlt, nil_. replace (i =? _)%nat with false by (symmetry; apply Nat.eqb_neq; lia).
        destruct (streqb n a'), (streqb n b); ring.
      + rewrite mc_nodes_val. unfold only. cbn [pid]. rewrite EQ at 1 2. cbn [pid]. rewrite streqb_refl.
        rewrite (node_eq t GR n (S i) a' i' At A1), (node_eq t GR n (S i) b j' At A2). unfold dlt. rewrite (Nat.eqb_sym i'), (Nat.eqb_sym j'). destruct (S i =? i')%nat, (S i =? j')%nat; ring.
    - intros pre' e' post' E' HC. f_equal. rewrite gap_only by auto. destruct (pz_branch _ _ _ E' HC) as (_ & NT).
      destruct C as [(a' & b & dc & ac & f & EQ & ->)|(a' & b & dc & ac & f & i' & j' & EQ & A1 & A2 & ->)].
      + rewrite vadd_val. unfold vzero, dlt. destruct (Nat.eqb_spec (nv - 1 + List.length (filter has_current pre')) (nv - 1 + (0 + List.length (filter has_current pre)))) as [Q|Q].
        * assert (Q' : List.length (filter has_current pre') = List.length (filter has_current pre)) by lia.
          assert (HC' : has_current e = true) by (rewrite EQ; reflexivity).
          destruct (pz_branch _ _ _ E HC') as (_ & NT'). rewrite Q', NT' in NT. injection NT as NT.
          assert (EE : e' = e).
          { apply (pid_one parts ND); [rewrite E'; apply in_or_app; right; left; reflexivity|exact IE0|exact (eq_sym NT)]. }
          subst e'. rewrite EQ. unfold only. cbn [pid]. rewrite streqb_refl. ring.
        * assert (NE : e' <> e).
          { intros ->. apply Q. destruct (pz_branch _ _ _ E HC) as (_ & NT').
            assert (NDC : NoDup (current_ids parts)) by (apply current_nodup; exact ND).
            assert (List.length (filter has_current pre') = List.length (filter has_current pre)); [|lia].
            apply (proj1 (NoDup_nth_error _) NDC); [apply nth_error_Some; congruence|congruence]. }
          rewrite (UN e') by (auto; rewrite E'; apply in_or_app; right; left; reflexivity). destruct e'; ring.
      + rewrite mc_nodes_val. assert ((i' < nv)%nat) by (apply (grounded_range t i' GR); eauto). assert ((j' < nv)%nat) by (apply (grounded_range t j' GR); eauto).
        unfold dlt. replace (_ =? i')%nat with false by (symmetry; apply Nat.eqb_neq; lia). replace (_ =? j')%nat with false by (symmetry; apply Nat.eqb_neq; lia).
        assert (NE : e' <> e) by (intros ->; rewrite EQ in HC; discriminate HC).
        rewrite (UN e') by (auto; rewrite E'; apply in_or_app; right; left; reflexivity). destruct e'; ring.
  Qed.

  Let mv := moves square stamp conductance (V xop).
  Lemma pz_lin : forall Q i a b x y, row size Q i (fun j => a * x j + b * y j) = a * row size Q i x + b * row size Q i y.
  Proof. intros Q i a b x y. unfold row. rewrite <- !rsum_scal, <- rsum_plus. apply rsum_ext. intros. ring. Qed.
  Lemma laws_slopes : forall src V1 I1 dV dV' dI dI', (forall n, dV n = dV' n) -> (forall n, dI n = dI' n) -> laws src parts V1 I1 dV dI -> laws src parts V1 I1 dV' dI'.
  Proof.
    intros src V1 I1 dV dV' dI dI' E1 E2 H. pose proof (proj1 H) as Z. revert H. unfold laws. apply (pz_agree square stamp conductance parts SO V1 V1 I1 I1 dV dV' dI dI'); auto.
  Qed.
  Lemma moves_rows : forall s id src xr xi ar ai,
    (forall x y a, a = ar \/ a = ai -> (forall i, (i < size)%nat -> row size M i x + row size (reduce_mat D) i y + a * src i = 0) <-> laws (only id a) parts (V x) (A x) (V y) (A y)) ->
    (forall i, (i < size)%nat ->
      row size M i xr + (fst s * row size (reduce_mat D) i xr - snd s * row size (reduce_mat D) i xi) + ar * src i = 0 /\
      row size M i xi + (fst s * row size (reduce_mat D) i xi + snd s * row size (reduce_mat D) i xr) + ai * src i = 0) <->
    mv s id ar ai parts (V xr) (V xi) (A xr) (A xi).
  Proof.
    intros s id src xr xi ar ai SS.
    set (yr := fun j => fst s * xr j + - snd s * xi j). set (yi := fun j => fst s * xi j + snd s * xr j).
    assert (ER : forall n, V yr n = fst s * V xr n - snd s * V xi n) by (intros n; unfold yr; rewrite pz_V; ring).
    assert (EI : forall n, V yi n = fst s * V xi n + snd s * V xr n) by (intros n; unfold yi; rewrite pz_V; ring).
    assert (FR : forall n, A yr n = fst s * A xr n - snd s * A xi n) by (intros n; unfold yr; rewrite pz_A; ring).
    assert (FI : forall n, A yi n = fst s * A xi n + snd s * A xr n) by (intros n; unfold yi; rewrite pz_A; ring).
    split.
    - intros H. split.
      + apply (laws_slopes _ _ _ (V yr) _ (A yr) _ ER FR). apply SS; [auto|]. intros i Hi. unfold yr. rewrite pz_lin. destruct (H i Hi) as (H1 & _). lra.
      + apply (laws_slopes _ _ _ (V yi) _ (A yi) _ EI FI). apply SS; [auto|]. intros i Hi. unfold yi. rewrite pz_lin. destruct (H i Hi) as (_ & H1). lra.
    - intros (H1 & H2) i Hi.
      apply (laws_slopes _ _ _ _ (V yr) _ (A yr)) in H1; [|intros n; symmetry; apply ER|intros n; symmetry; apply FR].
      apply (laws_slopes _ _ _ _ (V yi) _ (A yi)) in H2; [|intros n; symmetry; apply EI|intros n; symmetry; apply FI].
      pose proof (proj2 (SS xr yr ar (or_introl eq_refl)) H1 i Hi) as K1. pose proof (proj2 (SS xi yi ai (or_intror eq_refl)) H2 i Hi) as K2. unfold yr in K1. unfold yi in K2. rewrite pz_lin in K1, K2. split; lra.
  Qed.
  Lemma present_rows : forall xr xi, nonzero size xr xi <-> present parts (V xr) (V xi) (A xr) (A xi).
  Proof.
    intros xr xi. split.
    - intros (i & Hi & H). destruct (pz_index i Hi) as [(n & At & _)|(pre & e & post & E & HC & ->)].
      + left. exists n. split; [exact (MEN _ _ At)|]. rewrite <- !(pz_XV _ n i At). exact H.
      + right. destruct (pz_branch _ _ _ E HC) as (_ & NT). exists (pid e). split; [eapply nth_error_In; exact NT|]. rewrite <- !(pz_XI _ _ _ NT). exact H.
    - destruct pz_size as (NZ & SZ & LN). intros [(n & IN & H)|(id & IN & H)].
      + assert (NG : n <> lit "0") by (intros ->; rewrite !pz_V0 in H; lra). destruct (nl_nodes t parts es GR REG n IN NG) as (i & At & Hi). fold nv in Hi.
        exists i. split; [lia|]. rewrite (pz_XV xr n i At), (pz_XV xi n i At). exact H.
      + apply In_nth_error in IN. destruct IN as (k & NT). exists (nv - 1 + k)%nat. assert ((k < List.length (current_ids parts))%nat) by (apply nth_error_Some; congruence).
        split; [lia|]. rewrite (pz_XI xr _ _ NT), (pz_XI xi _ _ NT). exact H.
  Qed.
  (** Any voltages and currents are those of some unknowns. *)
  Lemma unknowns_are : forall W J, W (lit "0") = 0 -> exists x, (forall n, In n (node_list parts) -> V x n = W n) /\ forall id, In id (current_ids parts) -> A x id = J id.
  Proof.
    intros W J Z. exists (unknowns t (current_ids parts) W J). destruct pz_size as (NZ & _). split.
    - intros n IN. destruct (REG n IN) as (i & At). unfold V, volt. pose proof At as At'. unfold at_node in At'. rewrite At'. apply (unknowns_V t _ W J GR Z n i At).
    - intros id IN. apply In_nth_error in IN. destruct IN as (k & NT). rewrite <- (pz_XI _ _ _ NT).
      rewrite <- (unknowns_I t _ W J GR k id NT). fold nv. replace (nv + k)%nat with (S (nv - 1 + k)) by lia. reflexivity.
  Qed.
  Lemma moves_agree : forall s id ar ai Vr Vi Ir Ii Vr' Vi' Ir' Ii',
    (forall n, In n (node_list parts) -> Vr n = Vr' n) -> (forall n, In n (node_list parts) -> Vi n = Vi' n) ->
    (forall n, In n (current_ids parts) -> Ir n = Ir' n) -> (forall n, In n (current_ids parts) -> Ii n = Ii' n) ->
    Vr' (lit "0") = 0 -> Vi' (lit "0") = 0 -> mv s id ar ai parts Vr Vi Ir Ii -> mv s id ar ai parts Vr' Vi' Ir' Ii'.
  Proof.
    intros s id ar ai Vr Vi Ir Ii Vr' Vi' Ir' Ii' E1 E2 F1 F2 Z1 Z2 (H1 & H2). split.
    - revert H1. apply (pz_agree square stamp conductance parts SO Vr Vr' Ir Ir'); auto; intros n IN; rewrite ?E1, ?E2, ?F1, ?F2 by exact IN; reflexivity.
    - revert H2. apply (pz_agree square stamp conductance parts SO Vi Vi' Ii Ii'); auto; intros n IN; rewrite ?E1, ?E2, ?F1, ?F2 by exact IN; reflexivity.
  Qed.
  Lemma present_agree : forall Vr Vi Ir Ii Vr' Vi' Ir' Ii',
    (forall n, In n (node_list parts) -> Vr n = Vr' n) -> (forall n, In n (node_list parts) -> Vi n = Vi' n) ->
    (forall n, In n (current_ids parts) -> Ir n = Ir' n) -> (forall n, In n (current_ids parts) -> Ii n = Ii' n) -> present parts Vr Vi Ir Ii -> present parts Vr' Vi' Ir' Ii'.
  Proof.
    intros Vr Vi Ir Ii Vr' Vi' Ir' Ii' E1 E2 F1 F2 [(n & IN & H)|(n & IN & H)]; [left|right]; exists n; (split; [exact IN|]).
    - rewrite <- E1, <- E2 by exact IN. exact H.
    - rewrite <- F1, <- F2 by exact IN. exact H.
  Qed.

  Lemma natural_named : forall s, natural size M (reduce_mat D) s <-> natural_frequency square stamp conductance (V xop) parts s.
  Proof.
    intros s.
    assert (SS : forall x y a, a = 0 \/ a = 0 -> (forall i, (i < size)%nat -> row size M i x + row size (reduce_mat D) i y + a * vzero i = 0) <-> laws (only [] a) parts (V x) (A x) (V y) (A y)).
    { intros x y a [->| ->]; rewrite <- off_system; unfold vzero; (split; intros H i Hi; specialize (H i Hi); lra). }
    split.
    - intros (xr & xi & NZ & MO). exists (V xr), (V xi), (A xr), (A xi). split; [apply present_rows; exact NZ|].
      apply (moves_rows s [] vzero xr xi 0 0 SS). intros i Hi. destruct (MO i Hi) as (M1 & M2). unfold vzero. split; lra.
    - intros (Vr & Vi & Ir & Ii & PR & MO).
      destruct (unknowns_are Vr Ir (proj1 (proj1 MO))) as (xr & XR & YR). destruct (unknowns_are Vi Ii (proj1 (proj2 MO))) as (xi & XI & YI).
      exists xr, xi. split.
      + apply present_rows. revert PR. apply present_agree; intros n IN; symmetry; auto.
      + apply (moves_agree s [] 0 0 Vr Vi Ir Ii (V xr) (V xi) (A xr) (A xi)) in MO; try (intros n IN; symmetry; auto); try apply pz_V0.
        pose proof (proj2 (moves_rows s [] vzero xr xi 0 0 SS) MO) as K. intros i Hi. destruct (K i Hi) as (K1 & K2). unfold vzero in K1, K2. split; lra.
  Qed.
  Lemma read_named : forall o1 o2 i j x, at_node t o1 i -> at_node t o2 j -> read_nodes i j x = V x o1 - V x o2.
  Proof.
    intros o1 o2 i j x A1 A2. assert (K : forall n k, at_node t n k -> (if (k =? 0)%nat then 0 else x (k - 1)%nat) = V x n).
    { intros n k At. unfold V, volt. unfold at_node in At. rewrite At. destruct k as [|k]; [reflexivity|]. cbn [Nat.eqb with_ground]. f_equal. lia. }
    unfold read_nodes. rewrite (K _ _ A1), (K _ _ A2). reflexivity.
  Qed.
  Lemma blocks_named : forall id src o1 o2 i j s, source_inj nv es 0 (ss id) = Ok src -> at_node t o1 i -> at_node t o2 j ->
    blocks_output size M (reduce_mat D) src (i, j) s <-> blocked_frequency square stamp conductance (V xop) parts id o1 o2 s.
  Proof.
    intros id src o1 o2 i j s SR A1 A2. assert (SS := fun x y a (_ : a = a) => source_system id src x y a SR). split.
    - intros (xr & xi & ar & ai & NZ & MO & R1 & R2). cbn [fst snd] in R1, R2. exists (V xr), (V xi), (A xr), (A xi), ar, ai.
      split; [destruct NZ as [NZ|NZ]; [left; apply present_rows; exact NZ|right; exact NZ]|]. rewrite (read_named o1 o2) in R1, R2 by assumption. split; [|auto].
      apply (moves_rows s id src xr xi ar ai); [intros; apply source_system; exact SR|]. exact MO.
    - intros (Vr & Vi & Ir & Ii & ar & ai & PR & MO & R1 & R2).
      destruct (unknowns_are Vr Ir (proj1 (proj1 MO))) as (xr & XR & YR). destruct (unknowns_are Vi Ii (proj1 (proj2 MO))) as (xi & XI & YI).
      exists xr, xi, ar, ai. split; [|split; [|split]].
      + destruct PR as [PR|PR]; [left|right; exact PR]. apply present_rows. revert PR. apply present_agree; intros n IN; symmetry; auto.
      + apply (moves_agree s id ar ai Vr Vi Ir Ii (V xr) (V xi) (A xr) (A xi)) in MO; try (intros n IN; symmetry; auto); try apply pz_V0.
        apply (moves_rows s id src xr xi ar ai); [intros; apply source_system; exact SR|]. exact MO.
      + cbn [fst snd]. rewrite (read_named o1 o2) by assumption. rewrite !XR by (eapply MEN; eassumption). exact R1.
      + cbn [fst snd]. rewrite (read_named o1 o2) by assumption. rewrite !XI by (eapply MEN; eassumption). exact R2.
  Qed.
End PzRows.

(** ** The analysis of the linear part *)
Lemma lin_reactives : forall nv es k, reactives nv (filter linl es) k = reactives nv es k.
Proof. intros nv es. induction es as [|e es IH]; intros k; [reflexivity|]. destruct e; cbn [filter linl reactives is_vde]; rewrite ?IH; reflexivity. Qed.
Lemma lin_source : forall nv id src es k, source_inj nv es k id = Ok src -> source_inj nv (filter linl es) k id = Ok src.
Proof.
  intros nv id src es. induction es as [|e es IH]; intros k H; [discriminate H|]. cbn [source_inj] in H. destruct (String.eqb (lid e) id) eqn:E.
  - destruct e; try discriminate H; cbn [filter linl source_inj]; rewrite E; exact H.
  - apply IH in H. destruct e; cbn [filter linl source_inj is_vde] in *; rewrite ?E; exact H.
Qed.
Lemma stores_count : forall nv val t parts es, Forall2 (placed val t) parts es -> forall k, List.length (reactives nv es k) = n_stores parts.
Proof.
  intros nv val t parts es F. induction F as [|e l parts es P F IH]; intros k; [reflexivity|].
  destruct e; cbn [placed] in P.
  all: try (destruct P as (m & -> & _)). all: try (destruct P as (i & j & -> & _)). all: try (destruct P as (i & j & ->)). all: try (destruct P as (i & j & k' & m' & -> & _)).
  all: unfold n_stores in *; cbn [reactives is_vde filter stores List.length]; rewrite IH; reflexivity.
Qed.
Lemma none_coupled : forall val t parts es, Forall2 (placed val t) parts es -> Forall uncoupled parts -> no_coupling es.
Proof.
  intros val t parts es F U. induction F as [|e l parts es P F IH]; [constructor|]. inversion U as [|? ? U1 U2]; subst. constructor; [|apply IH; exact U2].
  destruct e; cbn [placed] in P; try (destruct U1; fail).
  all: try (destruct P as (i & j & -> & _)). all: try (destruct P as (i & j & ->)). all: try (destruct P as (i & j & k' & m' & -> & _)). all: exact Logic.I.
Qed.
(** The results are those of one call, the first one if there is a [cmin]. *)
Lemma run_one : forall inv nonsing eigvals pz_max N M D rs io fuel u shift poles zeros,
  pz_run inv nonsing eigvals pz_max N M D rs io fuel u shift = Some (PDone poles zeros) ->
  exists s u', (shift = 0 /\ fuel = 1%nat -> s = 0) /\ pz_once inv nonsing eigvals pz_max N M D rs io s u' = PDone poles zeros.
Proof.
  intros inv nonsing eigvals pz_max N M D rs io fuel u shift poles zeros H. destruct (Nat.eq_dec fuel 1) as [->|NE].
  - cbn [pz_run] in H. exists shift, (u O). split; [tauto|]. destruct (pz_once _ _ _ _ _ _ _ _ _ shift (u O)) eqn:E; try discriminate H. congruence.
  - apply run_once in H; [|discriminate]. destruct H as (s & u' & H). exists s, u'. split; [tauto|exact H].
Qed.
Lemma sing_named : forall inv nonsing eigvals pz_max cmin nv es M d0 input fuel u shift poles zeros,
  numpy_ok inv nonsing eigvals (nv - 1 + n_vde es) (List.length (reactives nv es 0)) ->
  (1 <= nv)%nat -> wf_circ nv es -> no_coupling es -> distinct_vdes es ->
  generate_D 0 nv es = Ok d0 -> (shift = 0 /\ fuel = 1%nat) \/ cmin <= 0 ->
  calculate_singularities inv nonsing eigvals pz_max cmin nv es M input fuel u shift = Some (PDone poles zeros) ->
  (forall p, In p poles <-> (cabs p < pz_max /\ natural (nv - 1 + n_vde es) M (reduce_mat d0) (rads p))) /\
  (input = None -> zeros = []) /\
  forall id o, input = Some (id, o) -> (fst o < nv)%nat -> (snd o < nv)%nat -> zeros <> [] ->
    exists src, source_inj nv es 0 id = Ok src /\ forall z, In z zeros <-> (cabs z < pz_max /\ blocks_output (nv - 1 + n_vde es) M (reduce_mat d0) src o (rads z)).
Proof.
  intros inv nonsing eigvals pz_max cmin nv es M d0 input fuel u shift poles zeros HO Hnv Wf NC ND G0 Hc H.
  unfold calculate_singularities in H.
  assert (K : forall io, match generate_D cmin nv es with
     | Err e => Some (PErr e)
     | Ok d => pz_run inv nonsing eigvals pz_max (nv - 1 + n_vde es) M (reduce_mat d) (reactives nv es 0) io fuel u shift end = Some (PDone poles zeros) ->
     exists dc s u', generate_D cmin nv es = Ok dc /\ (s = 0 \/ cmin <= 0) /\ pz_once inv nonsing eigvals pz_max (nv - 1 + n_vde es) M (reduce_mat dc) (reactives nv es 0) io s u' = PDone poles zeros).
  { intros io Q. destruct (generate_D cmin nv es) as [dc|e] eqn:Gc; [|discriminate]. apply run_one in Q. destruct Q as (s & u' & S0 & Q). exists dc, s, u'. tauto. }
  destruct input as [[id o]|].
  - destruct (source_inj nv es 0 id) as [src|e] eqn:Es; [|discriminate]. destruct (K (Some (src, o)) H) as (dc & s & u' & Gc & HS & Q).
    split; [exact (C62_poles inv nonsing eigvals pz_max cmin nv es M d0 dc _ s u' poles zeros HO Hnv Wf NC ND G0 Gc HS Q)|].
    split; [discriminate|]. intros id' o' E O1 O2 NZ. injection E as <- <-. exists src. split; [exact Es|].
    apply (zeros_source inv nonsing eigvals pz_max cmin nv es o src M d0 dc s u' poles zeros); auto.
    intros E. rewrite E in Q. unfold pz_once in Q. destruct (inv _); [|discriminate]. cbn [List.length Nat.eqb] in Q. injection Q as <- <-. contradiction.
  - destruct (K None H) as (dc & s & u' & Gc & HS & Q).
    split; [exact (C62_poles inv nonsing eigvals pz_max cmin nv es M d0 dc _ s u' poles zeros HO Hnv Wf NC ND G0 Gc HS Q)|].
    split; [|discriminate]. intros _. unfold pz_once in Q. destruct (inv _); [|discriminate Q]. destruct (_ =? 0)%nat; [congruence|]. destruct (negb _); [discriminate Q|congruence].
Qed.
Lemma lin_calc : forall inv nonsing eigvals pz_max cmin nv es M input fuel u shift poles zeros,
  calculate_singularities inv nonsing eigvals pz_max cmin nv es M input fuel u shift = Some (PDone poles zeros) ->
  calculate_singularities inv nonsing eigvals pz_max cmin nv (filter linl es) M input fuel u shift = Some (PDone poles zeros).
Proof.
  intros inv nonsing eigvals pz_max cmin nv es M input fuel u shift poles zeros H. unfold calculate_singularities in *. rewrite lin_dynamic, lin_n_vde, lin_reactives.
  destruct input as [[id o]|]; [|exact H]. destruct (source_inj nv es 0 id) as [src|] eqn:E; [|discriminate H]. rewrite (lin_source _ _ _ _ _ E). exact H.
Qed.

(** * C206: poles and zeros obey the laws of the netlist *)
Theorem C206_poles_zeros : forall fs other fuel filename parts t es, load fs other fuel filename = Ok (parts, t, es) ->
  (forall x l, other x = Ok l -> Forall lower_case l) -> Forall (nl_sound parts) parts -> Forall uncoupled parts ->
  forall square current stamp conductance inv nonsing eigvals pz_max cmin, numpy_ok inv nonsing eigvals (op_size t es) (n_stores parts) ->
  forall input output x0 calls u shift poles zeros, (shift = 0 /\ calls = 1%nat) \/ cmin <= 0 ->
  pz_analysis square current stamp conductance inv nonsing eigvals pz_max cmin parts t es input output x0 calls u shift = Some (PDone poles zeros) ->
  let V0 := volt t (with_ground (match x0 with Some x => x | None => vzero end)) in
  (forall p, In p poles <-> cabs p < pz_max /\ natural_frequency square stamp conductance V0 parts (rads p)) /\
  (forall id, input = Some id -> forall o, output = Some o -> zeros <> [] -> exists o1 o2, output_nodes o = Ok (o1, o2) /\ In o1 (node_list parts) /\ In o2 (node_list parts) /\
     forall z, In z zeros <-> cabs z < pz_max /\ blocked_frequency square stamp conductance V0 parts id o1 o2 (rads z)) /\
  (input = None \/ output = None -> zeros = []).
Proof.
  intros fs other fuel filename parts t es LD OT SO UC square current stamp conductance inv nonsing eigvals pz_max cmin NP input output x0 calls u shift poles zeros HS H V0.
  destruct (load_facts _ _ _ _ _ _ _ LD) as (GR & NV & PL & ND & MEN). pose proof (load_registered _ _ _ _ _ _ _ LD) as REG. pose proof (load_lower _ _ _ _ _ _ _ OT LD) as LC.
  pose proof (lin_placed written_dc t parts es PL) as PLL. pose proof (lin_proper parts LC SO) as LP. pose proof (lin_sound parts SO) as LS. pose proof (lin_nodup parts ND) as LN.
  destruct (proper_wf written_dc t _ _ GR PLL LP) as (WF & _). pose proof (tr_vdes t _ _ PLL LP LN) as TV.
  assert (NC : no_coupling (filter linl es)).
  { apply (none_coupled written_dc t (filter linp parts)); [exact PLL|]. apply Forall_forall. intros e IE. apply filter_In in IE. apply (proj1 (Forall_forall _ _) UC e (proj1 IE)). }
  destruct (nl_dynamic t parts es 0 GR PL LC SO ND) as (D & GD). set (nv := get_nodes_number t) in *.
  assert (SZ : op_size t es = (nv - 1 + n_vde (filter linl es))%nat) by (rewrite lin_n_vde; unfold op_size; fold nv; lia).
  assert (NP' : numpy_ok inv nonsing eigvals (nv - 1 + n_vde (filter linl es)) (List.length (reactives nv (filter linl es) 0))).
  { rewrite lin_reactives, (stores_count nv written_dc t parts es PL), <- SZ. exact NP. }
  assert (GD' : generate_D 0 nv (filter linl es) = Ok D) by (rewrite lin_dynamic; exact GD).
  assert (RUN : forall io, match pz_matrix square current stamp conductance parts t es x0 with
      | Err e => Some (PErr e)
      | Ok M => calculate_singularities inv nonsing eigvals pz_max cmin nv es M io calls u shift end = Some (PDone poles zeros) ->
    (forall p, In p poles <-> cabs p < pz_max /\ natural_frequency square stamp conductance V0 parts (rads p)) /\ (io = None -> zeros = []) /\
    forall id i j o1 o2, io = Some (ss id, (i, j)) -> at_node t o1 i -> at_node t o2 j -> zeros <> [] ->
      forall z, In z zeros <-> cabs z < pz_max /\ blocked_frequency square stamp conductance V0 parts id o1 o2 (rads z)).
  { intros io Q. destruct (pz_matrix square current stamp conductance parts t es x0) as [M|] eqn:GM; [|discriminate Q]. pose proof Q as Q0. apply lin_calc in Q.
    destruct (sing_named inv nonsing eigvals pz_max cmin nv (filter linl es) M D io calls u shift poles zeros NP' ltac:(lia) WF NC TV GD' HS Q) as (QP & QN & QZ).
    rewrite <- SZ in QP, QZ. split; [|split; [exact QN|]].
    - intros p. rewrite QP. rewrite (natural_named square current stamp conductance t parts es GR PL LC SO ND MEN REG D M x0 GD GM). reflexivity.
    - intros id i j o1 o2 E A1 A2 NZ z. assert (Hi : (i < nv)%nat) by (apply (grounded_range t i GR); eauto). assert (Hj : (j < nv)%nat) by (apply (grounded_range t j GR); eauto).
      destruct (QZ _ _ E Hi Hj NZ) as (src & SR & QZ'). rewrite QZ'.
      unfold calculate_singularities in Q0. rewrite E in Q0. destruct (source_inj nv es 0 (ss id)) as [src'|] eqn:SR'; [|discriminate Q0].
      pose proof (lin_source _ _ _ _ _ SR') as SR2. rewrite SR in SR2. injection SR2 as <-.
      rewrite (blocks_named square current stamp conductance t parts es GR PL LC SO ND MEN REG D M x0 GD GM id src o1 o2 i j) by assumption. reflexivity. }
  unfold pz_analysis in H. cbv zeta in H. fold nv in H.
  destruct input as [i|]; [|destruct (RUN None H) as (RP & RN & _); split; [exact RP|]; split; [discriminate|auto]].
  destruct output as [o|]; [|destruct (RUN None H) as (RP & RN & _); split; [exact RP|]; split; [discriminate|auto]].
  destruct (output_numbers t o) as [[a b]|] eqn:ON; [|discriminate H]. destruct (RUN _ H) as (RP & _ & RZ). split; [exact RP|]. split; [|intros [Q|Q]; discriminate Q].
  intros id E o' E' NZ. injection E as <-. injection E' as <-. unfold output_numbers in ON. destruct (output_nodes o) as [[o1 o2]|] eqn:OO; [|discriminate ON]. cbn [bindr] in ON.
  destruct (number t o1) as [a'|] eqn:N1; [|discriminate ON]. cbn [bindr] in ON. destruct (number t o2) as [b'|] eqn:N2; [|discriminate ON]. cbn [bindr] in ON. injection ON as -> ->.
  exists o1, o2. split; [reflexivity|]. split; [exact (MEN _ _ N1)|]. split; [exact (MEN _ _ N2)|]. exact (RZ i a b o1 o2 eq_refl N1 N2 NZ).
Qed.
Print Assumptions C206_poles_zeros.

(** ** A current source on R1 + C1 in series, with a diode in parallel *)
Definition pz_lines : list str :=
  [lit "shunt"; lit "I1 A 0 type=idc idc=1"; lit "R1 a b 1"; lit "D1 a 0 dm"; lit "C1 b 0 1"; lit ".model diode dm"; lit ".pz v(a,0) i1"].
Definition pz_d1 : pelem := PD (lit "d1") (lit "a") (lit "0") (lit "dm") None None.
Definition pz_parts : list pelem :=
  [Netlist.PI (lit "i1") (lit "a") (lit "0") (Some (1, 0)%Z) None None; PR (lit "r1") (lit "a") (lit "b") (1, 0)%Z; pz_d1; PC (lit "c1") (lit "b") (lit "0") (1, 0)%Z None].
Definition pz_t : ntab := mkNtab [(KInt 1, KStr "a"); (KStr "a", KInt 1); (KInt 0, KStr "0"); (KStr "0", KInt 0); (KInt 2, KStr "b"); (KStr "b", KInt 2)]%string 0.
Definition pz_es : list lelem := [EI "i1" 1 0 1 false; ER "r1" 1 2 1; ENL "d1" 1 0; EC "c1" 2 0 1]%string.
Lemma pz_load : load (fun _ => Some pz_lines) (fun _ => Err NetlistParseError) 1 (lit "f") = Ok (pz_parts, pz_t, pz_es).
Proof.
  transitivity (@Ok (list pelem * ntab * list lelem) (pz_parts, pz_t, [EI "i1" 1 0 (dR (1, 0)%Z) false; ER "r1" 1 2 (dR (1, 0)%Z); ENL "d1" 1 0; EC "c1" 2 0 (dR (1, 0)%Z)]%string)).
  - unfold load.
    match goal with |- context [read_netlist ?a ?b ?c] => let r := eval vm_compute in (read_netlist a b c) in change (read_netlist a b c) with r end. cbn [bindr r_models r_lines map].
    match goal with |- context [parse_models ?a ?b] => let r := eval vm_compute in (parse_models a b) in change (parse_models a b) with r end. cbn [bindr r_models r_lines map fst snd].
    match goal with |- context [main_netlist_parser ?a ?b ?c ?d] => let r := eval vm_compute in (main_netlist_parser a b c d) in change (main_netlist_parser a b c d) with r end. cbn [bindr].
    cbv -[dR]. reflexivity.
  - rewrite !dR_0. reflexivity.
Qed.
Lemma pz_M : exists M, pz_matrix (fun _ => false) cube cube_stamp2 (fun _ _ _ => 0) pz_parts pz_t pz_es (Some (fun _ => 1)) = Ok M /\
  M 0%nat 0%nat = 4 /\ M 0%nat 1%nat = -1 /\ M 1%nat 0%nat = -1 /\ M 1%nat 1%nat = 1.
Proof.
  unfold pz_matrix. change (get_nodes_number pz_t) with 3%nat.
  assert (GE : exists m N, generate_mna_and_N 3 pz_es = Ok (m, N) /\ m 1%nat 1%nat = 1 /\ m 1%nat 2%nat = -1 /\ m 2%nat 1%nat = -1 /\ m 2%nat 2%nat = 1).
  { do 2 eexists. split; [reflexivity|]. cbn [fst]. simpl. unfold madd, mset, mzero. simpl. repeat split; field. }
  destruct GE as (m & N & -> & M11 & M12 & M21 & M22). cbn [bindr fst]. change (nonlinear pz_es) with true. cbv iota.
  unfold devices_J, devices, pz_parts. cbn [device_loop]. unfold device. cbn [out_port bindr drive_ports stamp_nodes port_numbers numbers pz_d1].
  change (number pz_t (lit "a")) with (@Ok nat 1%nat). change (number pz_t (lit "0")) with (@Ok nat 0%nat). cbn [bindr map].
  fold pz_d1.
  change (gstamp_reduced [1; 0]%nat (cube_stamp2 pz_d1 [drive_v (fun _ => 1) (1, 0)%nat]))
    with [((1, 1)%nat, cube_stamp2 pz_d1 [drive_v (fun _ => 1) (1, 0)%nat] 0%nat 0%nat)].
  change (istamp_reduced 1 0 (cube pz_d1 [drive_v (fun _ => 1) (1, 0)%nat])) with [(1%nat, cube pz_d1 [drive_v (fun _ => 1) (1, 0)%nat])].
  cbn [fancy_add_mat fancy_add_vec bindr fold_left fst snd Nat.sub]. eexists. split; [reflexivity|].
  unfold mplus, reduce_mat, mset, vset, mzero, vzero, cube_stamp2, drive_v. cbn [hd fst snd Nat.eqb Nat.sub andb]. rewrite M11, M12, M21, M22. repeat split; ring.
Qed.
Lemma pz_small : forall V0 V n, V0 (lit "0") = 0 -> V0 (lit "a") = 1 -> V (lit "0") = 0 -> small (fun _ => false) cube_stamp2 (fun _ _ _ => 0) V0 V n pz_parts = (if streqb n (lit "a") then 3 * V (lit "a") else 0) - (if streqb n (lit "0") then 3 * V (lit "a") else 0).
Proof.
  intros V0 V n Z0 ZA E. unfold pz_parts, pz_d1. cbn [small]. unfold small1. cbn [channel terminals List.length rsum nth].
  unfold bias_of, cube_stamp2. cbn [controls map fst snd hd Nat.eqb]. rewrite Z0, ZA, E. destruct (streqb n (lit "a")), (streqb n (lit "0")); ring.
Qed.
Lemma pz_at : forall V0 src V J dV dJ, V0 (lit "0") = 0 -> V0 (lit "a") = 1 -> V (lit "0") = 0 -> dV (lit "0") = 0 ->
  src (Netlist.PI (lit "i1") (lit "a") (lit "0") (Some (1, 0)%Z) None None) + (V (lit "a") - V (lit "b")) + 3 * V (lit "a") = 0 -> V (lit "b") - V (lit "a") + dV (lit "b") = 0 ->
  pz_laws (fun _ => false) cube_stamp2 (fun _ _ _ => 0) V0 src pz_parts V J dV dJ.
Proof.
  intros V0 src V J dV dJ Z0 ZA VZ DZ KA KB. split; [exact VZ|]. split; [|repeat constructor].
  intros n IN NG. rewrite pz_small by assumption.
  assert (C : n = lit "a" \/ n = lit "b").
  { cbn in IN. repeat (destruct IN as [<-|IN]; [first [left; reflexivity | right; reflexivity | exfalso; apply NG; reflexivity]|]). destruct IN. }
  unfold pz_parts, pz_d1. cbn [tr_leaving]. unfold tr_leaving1. cbn [tr_through through first_end second_end]. rewrite !dR_0.
  destruct C as [-> | ->]; at_names; cbv iota; rewrite ?DZ; lra.
Qed.
Definition at_ab (a b : R) (n : str) : R := if streqb n (lit "a") then a else if streqb n (lit "b") then b else 0.
Example C206_example : exists poles zeros,
  load (fun _ => Some pz_lines) (fun _ => Err NetlistParseError) 1 (lit "f") = Ok (pz_parts, pz_t, pz_es) /\
  pz_analysis (fun _ => false) cube cube_stamp2 (fun _ _ _ => 0) inv2 nonsing1 eigvals1 (10 ^ 12) 0 pz_parts pz_t pz_es (Some (lit "i1")) (Some (lit "v(a,0)")) (Some (fun _ => 1)) 1 (fun _ => 0) 0
    = Some (PDone poles zeros) /\
  map rads poles = [(- (3 / 4), 0)] /\ map rads zeros = [(-1, 0)] /\
  (forall V0, V0 (lit "0") = 0 -> V0 (lit "a") = 1 ->
     natural_frequency (fun _ => false) cube_stamp2 (fun _ _ _ => 0) V0 pz_parts (- (3 / 4), 0) /\
     blocked_frequency (fun _ => false) cube_stamp2 (fun _ _ _ => 0) V0 pz_parts (lit "i1") (lit "a") (lit "0") (-1, 0)) /\
  numpy_ok inv2 nonsing1 eigvals1 (op_size pz_t pz_es) (n_stores pz_parts) /\ Forall (nl_sound pz_parts) pz_parts /\ Forall uncoupled pz_parts.
Proof.
  destruct pz_M as (Mr & GM & M00 & M01 & M10 & M11).
  assert (GD : exists d, generate_D 0 3 pz_es = Ok d /\ True) by (eexists; split; [reflexivity|exact Logic.I]). destruct GD as (d & GD & _).
  set (Dr := reduce_mat d).
  set (A := mplus Mr (mscale 0 Dr)).
  assert (A00 : A 0%nat 0%nat = 4) by (unfold A, mplus, mscale; lra). assert (A01 : A 0%nat 1%nat = -1) by (unfold A, mplus, mscale; lra).
  assert (A10 : A 1%nat 0%nat = -1) by (unfold A, mplus, mscale; lra). assert (A11 : A 1%nat 1%nat = 1) by (unfold A, mplus, mscale; lra).
  assert (HW : exists W, inv2 A = Some W /\ W 0%nat 0%nat = 1/3 /\ W 0%nat 1%nat = 1/3 /\ W 1%nat 0%nat = 1/3 /\ W 1%nat 1%nat = 4/3).
  { unfold inv2. destruct Req_EM_T as [E|E]; [exfalso; unfold det2 in E; rewrite A00, A01, A10, A11 in E; lra|]. eexists. split; [reflexivity|]. cbn beta iota. unfold det2. rewrite A00, A01, A10, A11.
    repeat split; field. }
  destruct HW as (W & HW & W00 & W01 & W10 & W11).
  set (rs := reactives 3 pz_es 0). set (src := mc_nodes 1 0).
  assert (Hsrc : source_inj 3 pz_es 0 "i1" = Ok src) by reflexivity.
  assert (T : TCM 2 rs W 0%nat 0%nat = -4/3).
  { unfold TCM, rs, TV, mvec, row, mc_nodes, read_nodes. cbn. unfold read_nodes, mc_nodes, vadd, vset, vzero. cbn. lra. }
  assert (Ri : RIIN 2 rs W src 0%nat = -1/3) by (unfold RIIN, rs, src, TV, mvec, row; cbn; unfold read_nodes, mc_nodes, vadd, vset, vzero; cbn; lra).
  assert (Roi : ROUTIN 2 W src (1%nat, 0%nat) = -1/3) by (unfold ROUTIN, rs, src, TV, mvec, row; cbn; unfold read_nodes, mc_nodes, vadd, vset, vzero; cbn; lra).
  assert (Ro : ROUT 2 rs W (1%nat, 0%nat) 0%nat = -1/3) by (unfold ROUT, rs, src, TV, mvec, row; cbn; unfold read_nodes, mc_nodes, vadd, vset, vzero; cbn; lra).
  assert (Z : ZTCM 2 rs W src (1%nat, 0%nat) 0%nat 0%nat = -1) by (unfold ZTCM; rewrite T, Ri, Roi, Ro; field).
  pose proof PI_RGT_0 as P0. pose proof PI2_3_2 as P2.
  assert (C : forall x, -1 <= x <= 0 -> Rlt_b (cabs (1 / (2 * Rtrigo1.PI) * x, 0)) (10 ^ 12) = true).
  { intros x Hx. unfold Rlt_b. destruct Rlt_dec as [L|L]; [reflexivity|exfalso; apply L]. unfold cabs. cbn [fst snd].
    apply Rle_lt_trans with (sqrt (1 * 1)); [|rewrite sqrt_square by lra; lra].
    apply sqrt_le_1_alt.
    assert (Q : 0 <= 1 / (2 * Rtrigo1.PI) <= 1).
    { split; [apply Rmult_le_pos; [lra|left; apply Rinv_0_lt_compat; lra]|].
      apply Rmult_le_reg_r with (2 * Rtrigo1.PI); [lra|]. unfold Rdiv. rewrite Rmult_assoc, Rinv_l by lra. lra. }
    set (k := 1 / (2 * Rtrigo1.PI)) in *. assert (-1 <= k * x <= 0) by (split; nra). nra. }
  exists [(1 / (2 * Rtrigo1.PI) * (- (3 / 4)), 0)], [(1 / (2 * Rtrigo1.PI) * -1, 0)].
  split; [exact pz_load|]. split; [|split; [|split; [|split; [|split; [|split]]]]].
  - unfold pz_analysis. cbv zeta. change (output_numbers pz_t (lit "v(a,0)")) with (@Ok (nat * nat) (1, 0)%nat). cbv iota. rewrite GM.
    change (get_nodes_number pz_t) with 3%nat. change (ss (lit "i1")) with "i1"%string. unfold calculate_singularities. rewrite Hsrc, GD. cbn [pz_run]. unfold pz_once.
    change (3 - 1 + n_vde pz_es)%nat with 2%nat. fold Dr A. rewrite HW.
    change (reactives 3 pz_es 0) with rs. change (List.length rs) with 1%nat. cbn [Nat.eqb]. unfold nonsing1, eigvals1. rewrite T, is_zero_false by lra. cbn [negb seq forallb existsb map].
    rewrite Ro, Roi, Z. rewrite !is_zero_false by (cbn; lra). cbn [fst andb orb].
    unfold freq. cbn [fst snd cinv]. unfold cut. cbn [filter].
    replace (1 / (2 * Rtrigo1.PI) * (-4 / 3 / (-4 / 3 * (-4 / 3) + 0 * 0) + 0)) with (1 / (2 * Rtrigo1.PI) * (- (3 / 4))) by (f_equal; field).
    replace (1 / (2 * Rtrigo1.PI) * (-1 / (-1 * -1 + 0 * 0) + 0)) with (1 / (2 * Rtrigo1.PI) * -1) by (f_equal; field).
    replace (1 / (2 * Rtrigo1.PI) * (-0 / (-4 / 3 * (-4 / 3) + 0 * 0))) with 0 by (field; lra).
    replace (1 / (2 * Rtrigo1.PI) * (-0 / (-1 * -1 + 0 * 0))) with 0 by (field; lra).
    rewrite !C by lra. reflexivity.
  - cbn [map]. unfold rads. cbn [fst snd]. do 2 f_equal; field; lra.
  - cbn [map]. unfold rads. cbn [fst snd]. do 2 f_equal; field; lra.
  - intros V0 Z0 ZA. split.
    + exists (at_ab 1 4), (at_ab 0 0), nil_, nil_. split; [left; exists (lit "a"); split; [left; reflexivity|left; unfold at_ab; rewrite streqb_refl; lra]|].
      split; apply pz_at; try assumption; unfold at_ab, only; at_names; cbn [fst snd pid]; try (destruct (streqb _ _)); cbv iota; lra.
    + exists (at_ab 0 1), (at_ab 0 0), nil_, nil_, 1, 0. split; [left; left; exists (lit "b"); split; [right; right; right; left; reflexivity|left; unfold at_ab; at_names; cbv iota; lra]|].
      split; [split; apply pz_at; try assumption; unfold at_ab, only; cbn [fst snd pid]; at_names; rewrite ?streqb_refl; cbv iota; lra|]. unfold at_ab. at_names. cbv iota. split; lra.
  - exact C62_numpy.
  - repeat constructor; discriminate.
  - repeat constructor.
Qed.

(** * C207: the poles of passive netlists *)
Definition no_inductor (e : pelem) : Prop := match e with Netlist.PL _ _ _ _ _ => False | _ => True end.
Definition no_capacitor (e : pelem) : Prop := match e with PC _ _ _ _ _ => False | _ => True end.
Definition no_resistor (e : pelem) : Prop := match e with PR _ _ _ _ => False | _ => True end.

Lemma tellegen_with : forall (U : str -> R) src V I dV ns l, NoDup ns -> (forall e, In e l -> In (first_end e) ns /\ In (second_end e) ns) ->
  lsum (fun n => U n * tr_leaving src V I dV n l) ns = lsum (fun e => (U (first_end e) - U (second_end e)) * tr_through src V I dV e) l.
Proof.
  intros U src V I dV ns l ND. induction l as [|e l IH]; intros H; cbn [tr_leaving lsum].
  - apply lsum_0. intros; ring.
  - rewrite <- IH by (intros e' H'; apply H; right; exact H').
    rewrite (lsum_ext _ _ (fun n => U n * tr_leaving1 src V I dV n e + U n * tr_leaving src V I dV n l)) by (intros; ring).
    rewrite lsum_plus. f_equal. unfold tr_leaving1. destruct (H e (or_introl eq_refl)) as (A & B).
    rewrite (lsum_ext _ _ (fun n => U n * (if streqb n (first_end e) then tr_through src V I dV e else 0)
      + - (U n * (if streqb n (second_end e) then tr_through src V I dV e else 0)))) by (intros; ring).
    rewrite lsum_plus, lsum_opp, !pick_sum by assumption. ring.
Qed.
Lemma passive_small : forall square stamp conductance V0 W n l, Forall dissipative l -> small square stamp conductance V0 W n l = 0.
Proof.
  intros square stamp conductance V0 W n l F. induction F as [|e l De F IH]; [reflexivity|]. cbn [small]. rewrite IH. unfold small1. destruct e; try (destruct De; fail); cbn [channel]; ring.
Qed.
Section Passive.
  Variables (square : pelem -> bool) (stamp : pelem -> list R -> nat -> nat -> R) (conductance : pelem -> list R -> nat -> R) (V0 : str -> R).
  Variable parts : list pelem.
  Hypothesis DS : Forall dissipative parts.
  Variables (s : cx) (Vr Vi Ir Ii : str -> R).
  Hypothesis MV : moves square stamp conductance V0 s [] 0 0 parts Vr Vi Ir Ii.
  Let dVr n := fst s * Vr n - snd s * Vi n.
  Let dVi n := fst s * Vi n + snd s * Vr n.
  Let dIr n := fst s * Ir n - snd s * Ii n.
  Let dIi n := fst s * Ii n + snd s * Ir n.
  Let off : pelem -> R := only [] 0.
  Let Tr := tr_through off Vr Ir dVr.
  Let Ti := tr_through off Vi Ii dVi.
  Let ur e := Vr (first_end e) - Vr (second_end e).
  Let ui e := Vi (first_end e) - Vi (second_end e).
  (** Twice the energy in the element, and the power in the resistors. *)
  Definition stored (e : pelem) : R :=
    match e with
    | PC _ _ _ c _ => dR c * (ur e * ur e + ui e * ui e)
    | Netlist.PL id _ _ l _ => dR l * (Ir id * Ir id + Ii id * Ii id)
    | _ => 0
    end.
  Definition burnt (e : pelem) : R := match e with PR _ _ _ r => (ur e * ur e + ui e * ui e) / dR r | _ => 0 end.
  Definition reactive (e : pelem) : R :=
    match e with
    | PC _ _ _ c _ => - (dR c * (ur e * ur e + ui e * ui e))
    | Netlist.PL id _ _ l _ => dR l * (Ir id * Ir id + Ii id * Ii id)
    | _ => 0
    end.
  Lemma off_zero : forall e, off e = 0.
  Proof. intros e. unfold off, only. destruct (streqb _ _); reflexivity. Qed.
  Lemma sq2 : forall a b, 0 <= a * a + b * b.
  Proof. intros a b. pose proof (Rle_0_sqr a). pose proof (Rle_0_sqr b). unfold Rsqr in *. lra. Qed.
  Lemma stored_pos : forall e, In e parts -> 0 <= stored e.
  Proof.
    intros e IE. pose proof (proj1 (Forall_forall _ _) DS e IE) as De. unfold stored. destruct e; try lra; cbn [dissipative] in De; apply Rmult_le_pos; try lra; apply sq2.
  Qed.
  Lemma burnt_pos : forall e, In e parts -> 0 <= burnt e.
  Proof.
    intros e IE. pose proof (proj1 (Forall_forall _ _) DS e IE) as De. unfold burnt. destruct e; try lra; cbn [dissipative] in De. apply Rmult_le_pos; [apply sq2|left; apply Rinv_0_lt_compat; exact De].
  Qed.
  Lemma coil : forall id a b l ic, In (Netlist.PL id a b l ic) parts -> Vr a - Vr b = dR l * dIr id /\ Vi a - Vi b = dR l * dIi id.
  Proof.
    intros id a b l ic IE. destruct MV as ((_ & _ & L1) & (_ & _ & L2)). rewrite Forall_forall in L1, L2. pose proof (L1 _ IE) as K1. pose proof (L2 _ IE) as K2.
    cbn [tr_law] in K1, K2. rewrite (linked_none _ _ _ DS) in K1. rewrite (linked_none _ _ _ DS) in K2. unfold dIr, dIi. split; lra.
  Qed.
  Lemma held : forall id a b dc ac f, In (PV id a b dc ac f) parts -> Vr a - Vr b = 0 /\ Vi a - Vi b = 0.
  Proof.
    intros id a b dc ac f IE. destruct MV as ((_ & _ & L1) & (_ & _ & L2)). rewrite Forall_forall in L1, L2. pose proof (L1 _ IE) as K1. pose proof (L2 _ IE) as K2.
    cbn [tr_law law] in K1, K2. pose proof (off_zero (PV id a b dc ac f)) as O. unfold off in O. rewrite O in K1, K2. auto.
  Qed.
  Lemma active_power : forall e, In e parts -> ur e * Tr e + ui e * Ti e = burnt e + fst s * stored e.
  Proof.
    intros e IE. pose proof (proj1 (Forall_forall _ _) DS e IE) as De. unfold Tr, Ti.
    destruct e; try (destruct De; fail); cbn [dissipative] in De; unfold burnt, stored, ur, ui; cbn [tr_through through first_end second_end].
    - field. lra.
    - unfold dVr, dVi. ring.
    - destruct (coil _ _ _ _ _ IE) as (-> & ->). unfold dIr, dIi. ring.
    - destruct (held _ _ _ _ _ _ IE) as (-> & ->). ring.
    - rewrite !off_zero. ring.
  Qed.
  Lemma reactive_power : forall e, In e parts -> ui e * Tr e - ur e * Ti e = snd s * reactive e.
  Proof.
    intros e IE. pose proof (proj1 (Forall_forall _ _) DS e IE) as De. unfold Tr, Ti.
    destruct e; try (destruct De; fail); cbn [dissipative] in De; unfold reactive, ur, ui; cbn [tr_through through first_end second_end].
    - field. lra.
    - unfold dVr, dVi. ring.
    - destruct (coil _ _ _ _ _ IE) as (-> & ->). unfold dIr, dIi. ring.
    - destruct (held _ _ _ _ _ _ IE) as (-> & ->). ring.
    - rewrite !off_zero. ring.
  Qed.
  Let ns := nodup (list_eq_dec ascii_dec) (node_list parts).
  Lemma in_ns : forall e, In e parts -> In (first_end e) ns /\ In (second_end e) ns.
  Proof. intros e IE. destruct (ends_in parts e IE (proj1 (Forall_forall _ _) DS e IE)). split; apply nodup_In; assumption. Qed.
  Lemma flows : forall n, In n (node_list parts) -> n <> lit "0" -> tr_leaving off Vr Ir dVr n parts = 0 /\ tr_leaving off Vi Ii dVi n parts = 0.
  Proof.
    intros n IN NG. destruct MV as ((_ & K1 & _) & (_ & K2 & _)). specialize (K1 n IN NG). specialize (K2 n IN NG).
    rewrite (passive_small _ _ _ _ _ _ _ DS) in K1. rewrite (passive_small _ _ _ _ _ _ _ DS) in K2. fold off in K1, K2. change (fun n => fst s * Vr n - snd s * Vi n) with dVr in K1. change (fun n => fst s * Vi n + snd s * Vr n) with dVi in K2. split; lra.
  Qed.
  Lemma no_net : forall U : str -> R, U (lit "0") = 0 -> lsum (fun e => (U (first_end e) - U (second_end e)) * Tr e) parts = 0 /\ lsum (fun e => (U (first_end e) - U (second_end e)) * Ti e) parts = 0.
  Proof.
    intros U Z. unfold Tr, Ti. rewrite <- !(tellegen_with U _ _ _ _ ns) by (apply NoDup_nodup || exact in_ns).
    split; apply lsum_0; intros n IN; apply nodup_In in IN; (destruct (list_eq_dec ascii_dec n (lit "0")) as [->|NE]; [rewrite Z; ring|]); destruct (flows n IN NE) as (F1 & F2); rewrite ?F1, ?F2; ring.
  Qed.
  Lemma grounds : Vr (lit "0") = 0 /\ Vi (lit "0") = 0.
  Proof. destruct MV as ((Z1 & _) & (Z2 & _)). auto. Qed.
  Lemma balance : lsum burnt parts + fst s * lsum stored parts = 0 /\ snd s * lsum reactive parts = 0.
  Proof.
    destruct grounds as (Z1 & Z2). destruct (no_net Vr Z1) as (A1 & A2). destruct (no_net Vi Z2) as (B1 & B2). fold ur in A1, A2. fold ui in B1, B2.
    rewrite <- !lsum_scal, <- lsum_plus. split.
    - rewrite (lsum_ext _ _ (fun e => ur e * Tr e + ui e * Ti e)) by (intros e IE; rewrite (active_power e IE); ring). rewrite lsum_plus. unfold ur, ui. lra.
    - rewrite (lsum_ext _ _ (fun e => ui e * Tr e + - (ur e * Ti e))) by (intros e IE; rewrite <- (reactive_power e IE); ring). rewrite lsum_plus, lsum_opp. unfold ur, ui. lra.
  Qed.

  (** Without energy and power the motion is possible at every frequency. *)
  Hypothesis DEAD : forall e, In e parts -> burnt e = 0 /\ stored e = 0.
  Lemma sq2_zero : forall a b, a * a + b * b = 0 -> a = 0 /\ b = 0.
  Proof. intros a b H. split; nra. Qed.
  Lemma dead : forall z, moves square stamp conductance V0 z [] 0 0 parts Vr Vi Ir Ii.
  Proof.
    intros z. assert (DS' := proj1 (Forall_forall _ _) DS).
    assert (TH : forall e, In e parts -> tr_through off Vr Ir (fun n => fst z * Vr n - snd z * Vi n) e = Tr e /\ tr_through off Vi Ii (fun n => fst z * Vi n + snd z * Vr n) e = Ti e).
    { intros e IE. pose proof (DS' e IE) as De. destruct (DEAD e IE) as (_ & ST). unfold Tr, Ti. destruct e; try (destruct De; fail); cbn [tr_through]; auto.
      unfold stored, ur, ui in ST. cbn [first_end second_end] in ST. unfold dVr, dVi.
      apply Rmult_integral in ST. destruct ST as [ST|ST]; [rewrite ST; split; ring|]. apply sq2_zero in ST. destruct ST as (E1 & E2).
      replace (fst z * Vr n1 - snd z * Vi n1 - (fst z * Vr n2 - snd z * Vi n2)) with (fst z * (Vr n1 - Vr n2) - snd z * (Vi n1 - Vi n2)) by ring.
      replace (fst s * Vr n1 - snd s * Vi n1 - (fst s * Vr n2 - snd s * Vi n2)) with (fst s * (Vr n1 - Vr n2) - snd s * (Vi n1 - Vi n2)) by ring.
      replace (fst z * Vi n1 + snd z * Vr n1 - (fst z * Vi n2 + snd z * Vr n2)) with (fst z * (Vi n1 - Vi n2) + snd z * (Vr n1 - Vr n2)) by ring.
      replace (fst s * Vi n1 + snd s * Vr n1 - (fst s * Vi n2 + snd s * Vr n2)) with (fst s * (Vi n1 - Vi n2) + snd s * (Vr n1 - Vr n2)) by ring.
      rewrite E1, E2. split; ring. }
    assert (LV : forall n l, incl l parts -> tr_leaving off Vr Ir (fun n => fst z * Vr n - snd z * Vi n) n l = tr_leaving off Vr Ir dVr n l /\ tr_leaving off Vi Ii (fun n => fst z * Vi n + snd z * Vr n) n l = tr_leaving off Vi Ii dVi n l).
    { intros n l. induction l as [|e l IH]; intros IN; [split; reflexivity|]. cbn [tr_leaving]. destruct IH as (-> & ->); [intros q Q; apply IN; right; exact Q|].
      destruct (TH e (IN e (or_introl eq_refl))) as (T1 & T2). unfold tr_leaving1. rewrite T1, T2. split; reflexivity. }
    assert (CO : forall id a b l ic, In (Netlist.PL id a b l ic) parts -> Vr a - Vr b = 0 /\ Vi a - Vi b = 0 /\ Ir id = 0 /\ Ii id = 0).
    { intros id a b l ic IE. destruct (DEAD _ IE) as (_ & ST). pose proof (DS' _ IE) as De. cbn [dissipative] in De. unfold stored in ST. apply Rmult_integral in ST. destruct ST as [ST|ST]; [lra|].
      apply sq2_zero in ST. destruct ST as (E1 & E2). destruct (coil _ _ _ _ _ IE) as (-> & ->). unfold dIr, dIi. rewrite E1, E2. repeat split; ring. }
    destruct MV as ((Z1 & K1 & L1) & (Z2 & K2 & L2)). split.
    - split; [exact Z1|]. split.
      + intros n IN NG. fold off. rewrite (proj1 (LV n parts (incl_refl _))), (passive_small _ _ _ _ _ _ _ DS). rewrite (proj1 (flows n IN NG)). ring.
      + apply Forall_forall. intros e IE. pose proof (proj1 (Forall_forall _ _) L1 e IE) as K. destruct e; cbn [tr_law law] in *; try exact K.
        rewrite (linked_none _ _ _ DS). destruct (CO _ _ _ _ _ IE) as (E1 & E2 & E3 & E4). rewrite E1, E3, E4. ring.
    - split; [exact Z2|]. split.
      + intros n IN NG. fold off. rewrite (proj2 (LV n parts (incl_refl _))), (passive_small _ _ _ _ _ _ _ DS). rewrite (proj2 (flows n IN NG)). ring.
      + apply Forall_forall. intros e IE. pose proof (proj1 (Forall_forall _ _) L2 e IE) as K. destruct e; cbn [tr_law law] in *; try exact K.
        rewrite (linked_none _ _ _ DS). destruct (CO _ _ _ _ _ IE) as (E1 & E2 & E3 & E4). rewrite E2, E3, E4. ring.
  Qed.
End Passive.

(** A list does not hold a whole disk. *)
Lemma cabs_real : forall x, 0 <= x -> cabs (x, 0) = x.
Proof. intros x H. unfold cabs. cbn [fst snd]. replace (x * x + 0 * 0) with (x * x) by ring. apply sqrt_square. exact H. Qed.
Lemma no_disk : forall (l : list cx) m, 0 < m -> ~ (forall p, cabs p < m -> In p l).
Proof.
  intros l m M H. set (q k := (m / (INR k + 2), 0)).
  assert (PS : forall k, 0 < INR k + 2) by (intros k; pose proof (pos_INR k); lra).
  assert (IN : incl (map q (seq 0 (S (List.length l)))) l).
  { intros p Q. apply in_map_iff in Q. destruct Q as (k & <- & _). apply H. unfold q. pose proof (PS k). pose proof (pos_INR k).
    assert (I0 : 0 < m / (INR k + 2)) by (apply Rdiv_lt_0_compat; assumption). rewrite cabs_real by lra.
    apply Rmult_lt_reg_r with (INR k + 2); [assumption|]. unfold Rdiv. rewrite Rmult_assoc, Rinv_l by lra. assert (0 <= m * INR k) by (apply Rmult_le_pos; lra). lra. }
  assert (ND : NoDup (map q (seq 0 (S (List.length l))))).
  { apply FinFun.Injective_map_NoDup; [|apply seq_NoDup]. intros a b E. unfold q in E. injection E as E. apply INR_eq.
    apply Rmult_eq_reg_l in E; [|lra]. pose proof (PS a). pose proof (PS b). apply (f_equal Rinv) in E. rewrite !Rinv_inv in E. lra. }
  pose proof (NoDup_incl_length ND IN) as L. rewrite map_length, seq_length in L. exact (Nat.nle_succ_diag_l _ L).
Qed.
Lemma passive_uncoupled : forall parts, Forall dissipative parts -> Forall uncoupled parts.
Proof. intros parts. apply Forall_impl. intros e De. destruct e; try exact Logic.I. destruct De. Qed.
Theorem C207_passive : forall fs other fuel filename parts t es, load fs other fuel filename = Ok (parts, t, es) ->
  (forall x l, other x = Ok l -> Forall lower_case l) -> Forall (nl_sound parts) parts -> Forall dissipative parts ->
  forall square current stamp conductance inv nonsing eigvals pz_max cmin, numpy_ok inv nonsing eigvals (op_size t es) (n_stores parts) ->
  forall input output x0 calls u shift poles zeros, (shift = 0 /\ calls = 1%nat) \/ cmin <= 0 ->
  pz_analysis square current stamp conductance inv nonsing eigvals pz_max cmin parts t es input output x0 calls u shift = Some (PDone poles zeros) ->
  forall p, In p poles ->
    fst p <= 0 /\
    (Forall no_inductor parts \/ Forall no_capacitor parts -> snd p = 0) /\
    (Forall no_resistor parts -> fst p = 0).
Proof.
  intros fs other fuel filename parts t es LD OT SO DS square current stamp conductance inv nonsing eigvals pz_max cmin NP input output x0 calls u shift poles zeros HS H p IP.
  destruct (C206_poles_zeros fs other fuel filename parts t es LD OT SO (passive_uncoupled _ DS) square current stamp conductance inv nonsing eigvals pz_max cmin NP
    input output x0 calls u shift poles zeros HS H) as (PO & _).
  set (V0 := volt t _) in PO. destruct (proj1 (PO p) IP) as (CA & Vr & Vi & Ir & Ii & PR & MV).
  assert (PM : 0 < pz_max) by (assert (0 <= cabs p) by apply sqrt_pos; lra).
  assert (NOT : ~ forall e, In e parts -> burnt Vr Vi e = 0 /\ stored Vr Vi Ir Ii e = 0).
  { intros DEAD. apply (no_disk poles pz_max PM). intros z CZ. apply PO. split; [exact CZ|]. exists Vr, Vi, Ir, Ii. split; [exact PR|].
    exact (dead square stamp conductance V0 parts DS (rads p) Vr Vi Ir Ii MV DEAD (rads z)). }
  destruct (balance square stamp conductance V0 parts DS (rads p) Vr Vi Ir Ii MV) as (AB & RB). cbn [rads fst snd] in AB, RB.
  pose proof (lsum_nonneg _ _ _ (burnt_pos parts DS Vr Vi)) as B0. pose proof (lsum_nonneg _ _ _ (stored_pos parts DS Vr Vi Ir Ii)) as S0.
  pose proof PI_RGT_0 as P0.
  assert (ALL : lsum (burnt Vr Vi) parts <= 0 -> lsum (stored Vr Vi Ir Ii) parts <= 0 -> False).
  { intros B1 S1. apply NOT. intros e IE. split; [exact (lsum_each _ _ _ (burnt_pos parts DS Vr Vi) B1 e IE)|exact (lsum_each _ _ _ (stored_pos parts DS Vr Vi Ir Ii) S1 e IE)]. }
  split; [|split].
  - apply Rnot_lt_le. intros FP. apply ALL.
    + assert (0 <= 2 * Rtrigo1.PI * fst p * lsum (stored Vr Vi Ir Ii) parts) by (apply Rmult_le_pos; [apply Rmult_le_pos; lra|exact S0]). lra.
    + apply Rnot_lt_le. intros Q. assert (0 < 2 * Rtrigo1.PI * fst p * lsum (stored Vr Vi Ir Ii) parts) by (apply Rmult_lt_0_compat; [apply Rmult_lt_0_compat; lra|exact Q]). lra.
  - intros C. destruct (Req_dec (snd p) 0) as [E|NE]; [exact E|exfalso].
    assert (RZ : lsum (reactive Vr Vi Ir Ii) parts = 0).
    { apply Rmult_integral in RB. destruct RB as [RB|RB]; [|exact RB]. apply Rmult_integral in RB. lra. }
    assert (SZ : lsum (stored Vr Vi Ir Ii) parts = 0).
    { destruct C as [C|C].
      - rewrite (lsum_ext _ _ (fun e => - reactive Vr Vi Ir Ii e)); [rewrite lsum_opp; lra|].
        intros e IE. pose proof (proj1 (Forall_forall _ _) C e IE) as Ce. destruct e; try (destruct Ce; fail); unfold stored, reactive; ring.
      - rewrite (lsum_ext _ _ (reactive Vr Vi Ir Ii)); [exact RZ|].
        intros e IE. pose proof (proj1 (Forall_forall _ _) C e IE) as Ce. destruct e; try (destruct Ce; fail); reflexivity. }
    apply ALL; [rewrite SZ in AB|]; lra.
  - intros C. assert (BZ : lsum (burnt Vr Vi) parts = 0).
    { apply lsum_0. intros e IE. pose proof (proj1 (Forall_forall _ _) C e IE) as Ce. destruct e; try (destruct Ce; fail); reflexivity. }
    rewrite BZ in AB. rewrite Rplus_0_l in AB. apply Rmult_integral in AB. destruct AB as [AB|AB]; [apply Rmult_integral in AB; lra|]. exfalso. apply ALL; lra.
Qed.
Print Assumptions C207_passive.

(** ** A resistor and a capacitor *)
Definition rc_lines : list str := [lit "rc"; lit "R1 A 0 2"; lit "C1 a 0 1"; lit ".pz"].
Definition rc_parts : list pelem := [PR (lit "r1") (lit "a") (lit "0") (2, 0)%Z; PC (lit "c1") (lit "a") (lit "0") (1, 0)%Z None].
Definition rc_es : list lelem := [ER "r1" 1 0 2; EC "c1" 1 0 1]%string.
Lemma rc_load : load (fun _ => Some rc_lines) (fun _ => Err NetlistParseError) 1 (lit "f") = Ok (rc_parts, shunt_t, rc_es).
Proof.
  transitivity (@Ok (list pelem * ntab * list lelem) (rc_parts, shunt_t, [ER "r1" 1 0 (dR (2, 0)%Z); EC "c1" 1 0 (dR (1, 0)%Z)]%string)).
  - unfold load.
    match goal with |- context [read_netlist ?a ?b ?c] => let r := eval vm_compute in (read_netlist a b c) in change (read_netlist a b c) with r end. cbn [bindr r_models r_lines map].
    match goal with |- context [parse_models ?a ?b] => let r := eval vm_compute in (parse_models a b) in change (parse_models a b) with r end. cbn [bindr r_models r_lines map fst snd].
    match goal with |- context [main_netlist_parser ?a ?b ?c ?d] => let r := eval vm_compute in (main_netlist_parser a b c d) in change (main_netlist_parser a b c d) with r end. cbn [bindr].
    cbv -[dR]. reflexivity.
  - rewrite !dR_0. reflexivity.
Qed.
Example C207_example : forall square current stamp conductance,
  load (fun _ => Some rc_lines) (fun _ => Err NetlistParseError) 1 (lit "f") = Ok (rc_parts, shunt_t, rc_es) /\
  Forall (nl_sound rc_parts) rc_parts /\ Forall dissipative rc_parts /\ Forall no_inductor rc_parts /\ numpy_ok inv1 nonsing1 eigvals1 (op_size shunt_t rc_es) (n_stores rc_parts) /\
  exists p, pz_analysis square current stamp conductance inv1 nonsing1 eigvals1 1 0 rc_parts shunt_t rc_es None None None 1 (fun _ => 0) 0 = Some (PDone [p] []) /\ rads p = (- (1 / 2), 0).
Proof.
  intros square current stamp conductance. split; [exact rc_load|]. split; [repeat constructor|]. split; [repeat constructor; cbn [dissipative]; rewrite dR_0; lra|]. split; [repeat constructor|].
  split; [split; [exact inv1_ok|split; [exact nonsing1_ok|exact eigvals1_ok]]|].
  assert (GE : exists m N, generate_mna_and_N 2 rc_es = Ok (m, N) /\ m 1%nat 1%nat = 1/2).
  { do 2 eexists. split; [reflexivity|]. cbn [fst]. simpl. unfold madd, mset, mzero. simpl. field. }
  destruct GE as (m & N & GE & M11).
  assert (GD : exists d, generate_D 0 2 rc_es = Ok d) by (eexists; reflexivity). destruct GD as (d & GD).
  pose proof PI_RGT_0 as P0. pose proof PI2_3_2 as P2.
  exists (1 / (2 * Rtrigo1.PI) * (- (1 / 2)), 0). split; [|unfold rads; cbn [fst snd]; f_equal; field; lra].
  unfold pz_analysis, pz_matrix. cbv zeta. change (get_nodes_number shunt_t) with 2%nat. rewrite GE. cbn [bindr fst]. change (nonlinear rc_es) with false. cbv iota.
  unfold calculate_singularities. rewrite GD. cbn [pz_run]. unfold pz_once. change (2 - 1 + n_vde rc_es)%nat with 1%nat.
  set (A := mplus (reduce_mat m) (mscale 0 (reduce_mat d))).
  assert (A00 : A 0%nat 0%nat = 1/2) by (unfold A, mplus, mscale, reduce_mat; rewrite M11; ring).
  unfold inv1. destruct (Req_EM_T (A 0%nat 0%nat) 0) as [E|E]; [rewrite A00 in E; lra|].
  match goal with |- context [TCM 1 _ ?w] => set (W := w) end. assert (W00 : W 0%nat 0%nat = 2) by (unfold W; rewrite A00; field).
  set (rs := reactives 2 rc_es 0). change (List.length rs) with 1%nat. cbn [Nat.eqb].
  assert (T : TCM 1 rs W 0%nat 0%nat = -2).
  { unfold TCM, rs, TV, mvec, row, mc_nodes, read_nodes. cbn. unfold read_nodes, mc_nodes, vadd, vset, vzero. cbn. lra. }
  unfold nonsing1, eigvals1. rewrite T, is_zero_false by lra. cbn [negb map]. unfold freq. cbn [fst snd cinv]. unfold cut. cbn [filter].
  replace (1 / (2 * Rtrigo1.PI) * (-2 / (-2 * -2 + 0 * 0) + 0)) with (1 / (2 * Rtrigo1.PI) * (- (1 / 2))) by (f_equal; field).
  replace (1 / (2 * Rtrigo1.PI) * (-0 / (-2 * -2 + 0 * 0))) with 0 by (field; lra).
  replace (Rlt_b (cabs (1 / (2 * Rtrigo1.PI) * - (1 / 2), 0)) 1) with true; [reflexivity|].
  unfold Rlt_b. destruct Rlt_dec as [L|L]; [reflexivity|exfalso; apply L].
  assert (Q : 0 <= 1 / (2 * Rtrigo1.PI) <= 1).
  { split; [apply Rmult_le_pos; [lra|left; apply Rinv_0_lt_compat; lra]|].
    apply Rmult_le_reg_r with (2 * Rtrigo1.PI); [lra|]. unfold Rdiv. rewrite Rmult_assoc, Rinv_l by lra. lra. }
  set (k := 1 / (2 * Rtrigo1.PI)) in *. unfold cabs. cbn [fst snd]. replace (k * - (1 / 2) * (k * - (1 / 2)) + 0 * 0) with ((k / 2) * (k / 2)) by field.
  rewrite sqrt_square by lra. lra.
Qed.

(** * The output port (C208) *)
From Verif Require Import PropsPostproc.
(** The text [V(a,b)], with any blanks and in any case, stands for the nodes [a] and [b]. *)
Theorem C208_port : forall a b s, line_of [WPair a b] s -> output_nodes s = Ok (slower a, slower b).
Proof.
  intros a b s L. unfold output_nodes. rewrite (C156_labels _ _ L) by discriminate. unfold labels_of. cbn [pairs_of volts_of amps_of flat_map map app bindr]. unfold pair_label. cbn [fst snd].
  destruct (streqb_spec (supper b) (lit "0")) as [E|E]; cbn [label_nodes].
  - rewrite <- (slower_supper b), E. cbn. rewrite slower_supper. reflexivity.
  - cbn. rewrite !slower_supper. reflexivity.
Qed.
Print Assumptions C208_port.
(** The text [V(a)] stands for no port, whatever the netlist, and neither does a text without signals. *)
Theorem C208_single : forall square current stamp conductance inv nonsing eigvals pz_max cmin parts t es i a s x0 calls u shift, line_of [WV a] s ->
  pz_analysis square current stamp conductance inv nonsing eigvals pz_max cmin parts t es (Some i) (Some s) x0 calls u shift = Some (PErr TypeError).
Proof.
  intros square current stamp conductance inv nonsing eigvals pz_max cmin parts t es i a s x0 calls u shift L. unfold pz_analysis, output_numbers, output_nodes.
  rewrite (C156_labels _ _ L) by discriminate. reflexivity.
Qed.
Print Assumptions C208_single.
Theorem C208_node : forall square current stamp conductance inv nonsing eigvals pz_max cmin parts t es i s x0 calls u shift, ~ In "("%char s ->
  pz_analysis square current stamp conductance inv nonsing eigvals pz_max cmin parts t es (Some i) (Some s) x0 calls u shift = Some (PErr ValueError).
Proof.
  intros square current stamp conductance inv nonsing eigvals pz_max cmin parts t es i s x0 calls u shift L. unfold pz_analysis, output_numbers, output_nodes.
  rewrite C156_none; [reflexivity|]. apply ln_end. apply Forall_forall. intros c C ->. exact (L C).
Qed.
Print Assumptions C208_node.
(** So a single node is not taken against ground: [V(a)] fails where [V(a,0)] is the node [a] against ground. *)
Theorem C208_ground_refuted : exists parts t es, load (fun _ => Some pz_lines) (fun _ => Err NetlistParseError) 1 (lit "f") = Ok (parts, t, es) /\
  output_numbers t (lit "V(b,0)") = Ok (2, 0)%nat /\ at_node t (lit "b") 2 /\
  forall square current stamp conductance inv nonsing eigvals pz_max cmin x0 calls u shift,
    pz_analysis square current stamp conductance inv nonsing eigvals pz_max cmin parts t es (Some (lit "i1")) (Some (lit "V(b)")) x0 calls u shift = Some (PErr TypeError) /\
    pz_analysis square current stamp conductance inv nonsing eigvals pz_max cmin parts t es (Some (lit "i1")) (Some (lit "b")) x0 calls u shift = Some (PErr ValueError).
Proof.
  exists pz_parts, pz_t, pz_es. split; [exact pz_load|]. split; [vm_compute; reflexivity|]. split; [vm_compute; auto|]. intros. split.
  - apply (C208_single _ _ _ _ _ _ _ _ _ _ _ _ _ (lit "b")). apply (ln_item [] (WV (lit "b")) (lit "V(b)") [] []); [constructor| |apply ln_end; constructor].
    apply (wr_v "V"%char [] [] (lit "b") []); try constructor; try reflexivity; repeat constructor.
  - apply C208_node. intros [E|[]]. discriminate E.
Qed.
Print Assumptions C208_ground_refuted.
Example C208_example : output_nodes (lit " v( Out , IN )") = Ok (lit "out", lit "in") /\ output_nodes (lit "V(out,0)") = Ok (lit "out", lit "0").
Proof. vm_compute. auto. Qed.
