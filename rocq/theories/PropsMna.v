(** Property theorems about the assembled linear systems
    (C03, C04, C05, C06, C07, C64, C65, C66). *)
From Coq Require Import Reals String Ascii List Bool Arith Lia Lra.
From Verif Require Import Base BaseFacts Nodes Circuit CircuitFacts Rsum Mna MnaSpec MnaFacts DynFacts.
Import ListNotations.
Open Scope R_scope.

(** * C03: node rows are KCL *)
Theorem C03_node_rows_are_KCL : forall nv es m N x n,
  wf_circ nv es -> generate_mna_and_N nv es = Ok (m, N) -> (n < nv)%nat ->
  row (nv + n_vde es) m n x + N n = kcl nv es es 0 n x.
Proof. exact node_row_is_kcl. Qed.
Print Assumptions C03_node_rows_are_KCL.

(** A current-type element between a node and itself adds nothing to any
    balance. *)
Theorem C03_shorted_element_is_neutral : forall nv all e es k n x,
  term1 e = term2 e -> is_vde e = false ->
  kcl nv all (e :: es) k n x = kcl nv all es k n x.
Proof. intros nv all e es k n x H V. simpl. rewrite H, V. lra. Qed.
Print Assumptions C03_shorted_element_is_neutral.

Local Open Scope string_scope.

Definition demo : list lelem :=
  [EV "V1" 1 0 5 false; ER "R1" 1 2 2; EL "L1" 2 3 7; EC "C1" 2 0 4; EI "I1" 3 0 1 false;
   EG "G1" 3 0 1 2 3; EF "F1" 2 3 "l1" 6; EE "E1" 4 0 2 0 8].

Example C03_example : wf_circ 5 demo /\
  isOk (generate_mna_and_N 5 demo) = true /\
  forall m N x, generate_mna_and_N 5 demo = Ok (m, N) ->
    row (5 + n_vde demo) m 3 x + N 3%nat = - x 6%nat + 1 + 3 * (x 1%nat - x 2%nat) - 6 * x 6%nat.
Proof.
  assert (W : wf_circ 5 demo).
  { unfold wf_circ, demo. repeat constructor; simpl; try lia; discriminate. }
  split; auto. split; [reflexivity|].
  intros m N x G. rewrite (C03_node_rows_are_KCL 5 demo _ _ x 3 W G) by lia.
  simpl. lra.
Qed.

(** * C04: branch rows *)
Theorem C04_branch_rows : forall nv pre e post m N x,
  let es := (pre ++ e :: post)%list in
  wf_circ nv es -> generate_mna_and_N nv es = Ok (m, N) -> is_vde e = true ->
  (forall id n1 n2 src a, e <> EH id n1 n2 src a) ->
  x 0%nat = 0 -> sense_apart e ->
  row (nv + n_vde es) m (nv + n_vde pre) x + N (nv + n_vde pre)%nat = branch_law nv es x e.
Proof.
  intros nv pre e post m N x es W G V NH X0 SA.
  apply (proj1 (own_row nv pre e post m N x W G V)); auto.
Qed.
Print Assumptions C04_branch_rows.

(** The number of the row is the answer of the lookup by name. *)
Theorem C04_lookup_is_row : forall pre e post s,
  let es := (pre ++ e :: post)%list in
  is_vde e = true -> lower s = lower (lid e) ->
  NoDup (map (fun e => upper (lid e)) (vdes es)) ->
  vde_index es s = Ok (n_vde pre).
Proof.
  intros pre e post s es V S ND.
  apply nth_vde_index with (e := e); auto.
  - unfold es, vdes, n_vde. rewrite filter_app. simpl. rewrite V.
    rewrite nth_error_app2, Nat.sub_diag; [reflexivity|lia].
  - apply upper_eq_iff_lower_eq. auto.
Qed.
Print Assumptions C04_lookup_is_row.

Example C04_example :
  (forall m N x, generate_mna_and_N 5 demo = Ok (m, N) ->
     x 0%nat = 0 -> row (5 + n_vde demo) m 7 x + N 7%nat = x 4%nat - 8 * x 2%nat) /\
  vde_index demo "e1" = Ok 2%nat.
Proof.
  split; [|reflexivity]. intros m N x G X0.
  assert (W : wf_circ 5 demo).
  { unfold wf_circ, demo. repeat constructor; simpl; try lia; discriminate. }
  pose proof (C04_branch_rows 5
    [EV "V1" 1 0 5 false; ER "R1" 1 2 2; EL "L1" 2 3 7; EC "C1" 2 0 4; EI "I1" 3 0 1 false;
     EG "G1" 3 0 1 2 3; EF "F1" 2 3 "l1" 6] (EE "E1" 4 0 2 0 8) [] _ _ x W G eq_refl) as H.
  transitivity (branch_law 5 demo x (EE "E1" 4 0 2 0 8)).
  - apply H; auto; [intros; discriminate|]. simpl. lia.
  - simpl. rewrite X0. lra.
Qed.

(** When does the assembly succeed. *)
Definition senses_ok (es : list lelem) : Prop :=
  forall pre e post, es = (pre ++ e :: post)%list ->
  match e with
  | EF _ _ _ src _ => exists j, vde_index es src = Ok j
  | EH _ _ _ src _ => exists j, vde_index es src = Ok j /\ (j <= n_vde pre)%nat
  | _ => True
  end.

Lemma pass2_ok : forall nv all es k st,
  (forall pre e post, es = (pre ++ e :: post)%list ->
    match e with
    | EH _ _ _ src _ => exists j, vde_index all src = Ok j /\ (j <= k + n_vde pre)%nat
    | _ => True end) ->
  exists st', pass2 nv all es k st = Ok st'.
Proof.
  induction es as [|e es IH]; intros k st H; cbn [pass2]; [eauto|].
  destruct (is_vde e) eqn:E.
  - assert (S : exists st', stamp_vde nv all k st e = Ok st').
    { destruct st as [m v]. destruct e; simpl in E; try discriminate; simpl; eauto.
      destruct (H [] _ es eq_refl) as (j & Hj & Hk). rewrite Hj. simpl.
      change (n_vde []) with 0%nat in Hk. rewrite Nat.add_0_r in Hk.
      destruct (Nat.leb_spec j k); [eauto|lia]. }
    destruct S as [st' ->]. cbn [bindr]. apply IH. intros pre e' post Ep.
    specialize (H (e :: pre) e' post). rewrite Ep in H. specialize (H eq_refl).
    destruct e'; auto. destruct H as (j & Hj & Hk). exists j. split; auto.
    rewrite n_vde_cons, E in Hk. lia.
  - apply IH. intros pre e' post Ep. specialize (H (e :: pre) e' post). rewrite Ep in H.
    specialize (H eq_refl). destruct e'; auto. destruct H as (j & Hj & Hk). exists j. split; auto.
    rewrite n_vde_cons, E in Hk. lia.
Qed.

Lemma pass3_ok : forall nv all es m,
  (forall e, In e es -> match e with EF _ _ _ src _ => exists j, vde_index all src = Ok j | _ => True end) ->
  exists m', pass3 nv all es m = Ok m'.
Proof.
  induction es as [|e es IH]; intros m H; cbn [pass3]; [eauto|].
  assert (S : exists m', stampF nv all m e = Ok m').
  { specialize (H e (or_introl eq_refl)). destruct e; simpl; eauto.
    destruct H as [j ->]. simpl. eauto. }
  destruct S as [m' ->]. cbn [bindr]. apply IH. intros e' He'. apply H. simpl; auto.
Qed.

Theorem C04_assembly_succeeds : forall nv es, senses_ok es ->
  exists m N, generate_mna_and_N nv es = Ok (m, N).
Proof.
  intros nv es S. unfold generate_mna_and_N.
  destruct (pass2_ok nv es es 0 (fold_left stamp1 es (mzero, vzero))) as [[m2 N2] E2].
  { intros pre e post Ep. specialize (S pre e post Ep). destruct e; auto. }
  rewrite E2. cbn [bindr].
  destruct (pass3_ok nv es es m2) as [m3 E3].
  { intros e He. apply in_split in He. destruct He as (pre & post & Ep).
    specialize (S pre e post Ep). destruct e; auto. }
  simpl. rewrite E3. simpl. eauto.
Qed.
Print Assumptions C04_assembly_succeeds.

(** * C66: E source whose sense nodes touch its own output: refuted *)
(** A voltage follower [E1 out 0 in out 10]: the assembled row does not contain
    the law of the source. *)
Theorem C66_vcvs_feedback_refuted : exists nv es m N x,
  wf_circ nv es /\ generate_mna_and_N nv es = Ok (m, N) /\ x 0%nat = 0 /\
  (* x solves the assembled system ... *)
  (forall i, (i < nv + n_vde es)%nat -> row (nv + n_vde es) m i x + N i = 0) /\
  (* ... but the source does not amplify as it should *)
  (exists id n1 n2 s1 s2 a, In (EE id n1 n2 s1 s2 a) es /\
     x n1 - x n2 <> a * (x s1 - x s2)).
Proof.
  exists 3%nat, [EV "V1" 1 0 1 false; EE "E1" 2 0 1 2 10].
  eexists _, _, (fun i => nth i [0; 1; 1; 0; 0] 0).
  split; [unfold wf_circ; repeat constructor; simpl; try lia; discriminate|].
  split; [reflexivity|]. split; [reflexivity|]. split.
  - intros i Hi. change (n_vde _) with 2%nat in *. simpl in Hi.
    do 5 (destruct i as [|i]; [unfold row; simpl; unfold mset, vset, madd, mzero, vzero; simpl; lra|]).
    lia.
  - exists "E1", 2%nat, 0%nat, 1%nat, 2%nat, 10. split; [simpl; auto|]. simpl. lra.
Qed.
Print Assumptions C66_vcvs_feedback_refuted.

(** * C65: shorted voltage-defined elements: refuted *)
(** The current of a voltage source with both terminals on node 1 enters the
    balance of node 1. *)
Theorem C65_shorted_source_refuted : exists nv es m N x n,
  generate_mna_and_N nv es = Ok (m, N) /\ (n < nv)%nat /\
  row (nv + n_vde es) m n x + N n <> kcl nv es es 0 n x.
Proof.
  exists 2%nat, [ER "R1" 1 0 1; EV "V1" 1 1 0 false]. eexists _, _, (fun i => if (i =? 2)%nat then 1 else 0), 1%nat.
  split; [reflexivity|]. split; [lia|].
  unfold row; simpl. unfold mset, madd, mset, vset, mzero, vzero; simpl. lra.
Qed.
Print Assumptions C65_shorted_source_refuted.

(** * C05: dropping the ground row and column loses nothing *)
Definition with_ground (y : vec) : vec := fun j => match j with O => 0 | S j' => y j' end.

Lemma ground_row_implied : forall nv es m N x, wf_circ nv es -> (0 < nv)%nat ->
  generate_mna_and_N nv es = Ok (m, N) ->
  (forall n, (1 <= n < nv)%nat -> row (nv + n_vde es) m n x + N n = 0) ->
  row (nv + n_vde es) m 0 x + N 0%nat = 0.
Proof.
  intros nv es m N x W Hnv G H.
  assert (T := kcl_total nv es es 0 x W).
  rewrite (rsum_ext _ _ (fun n => row (nv + n_vde es) m n x + N n)) in T.
  - destruct nv as [|nv]; [lia|]. rewrite rsum_shift in T.
    rewrite (rsum_0 nv) in T; [lra|]. intros i Hi. apply H. lia.
  - intros i Hi. symmetry. apply node_row_is_kcl; auto.
Qed.

Theorem C05_reduced_iff_full : forall nv es m N y, wf_circ nv es -> (0 < nv)%nat ->
  generate_mna_and_N nv es = Ok (m, N) ->
  let t := (nv + n_vde es)%nat in
  (forall i, (i < t - 1)%nat -> row (t - 1) (reduce_mat m) i y + reduce_vec N i = 0) <->
  (forall i, (i < t)%nat -> row t m i (with_ground y) + N i = 0).
Proof.
  intros nv es m N y W Hnv G t.
  assert (R : forall i, row (t - 1) (reduce_mat m) i y + reduce_vec N i
                      = row t m (S i) (with_ground y) + N (S i)).
  { intros i. rewrite row_reduce. replace (S (t - 1)) with t by (unfold t; lia). reflexivity. }
  split; intros H.
  - assert (P : forall i, (1 <= i < t)%nat -> row t m i (with_ground y) + N i = 0).
    { intros i Hi. destruct i as [|i]; [lia|]. rewrite <- R. apply H. lia. }
    intros i Hi. destruct i as [|i]; [|apply P; lia].
    apply ground_row_implied; auto. intros n Hn. apply P. unfold t; lia.
  - intros i Hi. rewrite R. apply H. lia.
Qed.
Print Assumptions C05_reduced_iff_full.

(** In physical terms, for circuits whose controlled sources are not of the
    kinds of C06 and C66. *)
Theorem C05_reduced_iff_physical : forall nv es m N y, wf_circ nv es -> (0 < nv)%nat ->
  generate_mna_and_N nv es = Ok (m, N) ->
  Forall sense_apart es -> (forall id n1 n2 src a, ~ In (EH id n1 n2 src a) es) ->
  let t := (nv + n_vde es)%nat in let x := with_ground y in
  (forall i, (i < t - 1)%nat -> row (t - 1) (reduce_mat m) i y + reduce_vec N i = 0) <->
  (forall n, (n < nv)%nat -> kcl nv es es 0 n x = 0) /\
  (forall e, In e es -> is_vde e = true -> branch_law nv es x e = 0).
Proof.
  intros nv es m N y W Hnv G SA NH t x.
  eapply iff_trans; [exact (C05_reduced_iff_full nv es m N y W Hnv G)|]. fold t x.
  assert (OWN : forall pre e post, es = (pre ++ e :: post)%list -> is_vde e = true ->
            row t m (nv + n_vde pre) x + N (nv + n_vde pre)%nat = branch_law nv es x e).
  { intros pre e post E V.
    assert (He : In e es) by (rewrite E; apply in_or_app; simpl; auto).
    subst es. apply C04_branch_rows; auto.
    - intros id n1 n2 src a ->. eapply NH; eauto.
    - rewrite Forall_forall in SA. auto. }
  split.
  - intros H. split.
    + intros n Hn. rewrite <- (node_row_is_kcl nv es m N x n W G Hn). apply H. unfold t; lia.
    + intros e He V. destruct (in_split _ _ He) as (pre & post & E).
      rewrite <- (OWN pre e post E V). apply H.
      unfold t. rewrite E, n_vde_app, n_vde_cons, V. lia.
  - intros [K B] i Hi. destruct (lt_dec i nv) as [L|L].
    + change (row (nv + n_vde es) m i x + N i = 0).
      rewrite (node_row_is_kcl nv es m N x i W G L). auto.
    + assert (D : exists pre e post, es = (pre ++ e :: post)%list /\ is_vde e = true /\ i = (nv + n_vde pre)%nat).
      { assert (Q : forall k l, (k < n_vde l)%nat ->
            exists pre e post, l = (pre ++ e :: post)%list /\ is_vde e = true /\ k = n_vde pre).
        { clear. intros k l. revert k. induction l as [|a l IH]; intros k Hk; [change (n_vde []) with 0%nat in Hk; lia|].
          rewrite n_vde_cons in Hk. destruct (is_vde a) eqn:Ea.
          - destruct k as [|k].
            + exists [], a, l. auto.
            + destruct (IH k) as (pre & e & post & -> & V & ->); [lia|].
              exists (a :: pre), e, post. repeat split; auto. rewrite n_vde_cons, Ea. reflexivity.
          - destruct (IH k) as (pre & e & post & -> & V & ->); [lia|].
            exists (a :: pre), e, post. repeat split; auto. rewrite n_vde_cons, Ea. reflexivity. }
        destruct (Q (i - nv)%nat es) as (pre & e & post & E & V & K'); [unfold t in Hi; lia|].
        exists pre, e, post. repeat split; auto. lia. }
      destruct D as (pre & e & post & E & V & ->). rewrite (OWN pre e post E V).
      apply B; auto. rewrite E. apply in_or_app; simpl; auto.
Qed.
Print Assumptions C05_reduced_iff_physical.

Example C05_example : wf_circ 5 demo /\ Forall sense_apart demo /\
  (forall id n1 n2 src a, ~ In (EH id n1 n2 src a) demo).
Proof.
  split; [|split].
  - unfold wf_circ, demo. repeat constructor; simpl; try lia; discriminate.
  - unfold demo. repeat constructor; simpl; lia.
  - intros. simpl. intuition discriminate.
Qed.

(** * C06: the current-controlled voltage source: refuted *)
(** Its row is [V(n1) - V(n2) + alpha*I = 0]: the sign is reversed. *)
Theorem C06_ccvs_row : forall nv pre id n1 n2 src a post m N x,
  let es := (pre ++ EH id n1 n2 src a :: post)%list in
  wf_circ nv es -> generate_mna_and_N nv es = Ok (m, N) ->
  exists j, vde_index es src = Ok j /\
    row (nv + n_vde es) m (nv + n_vde pre) x + N (nv + n_vde pre)%nat
    = x n1 - x n2 + a * x (nv + j)%nat.
Proof.
  intros nv pre id n1 n2 src a post m N x es W G.
  destruct (proj2 (own_row nv pre (EH id n1 n2 src a) post m N x W G eq_refl) _ _ _ _ _ eq_refl)
    as (j & H1 & _ & H2). eauto.
Qed.
Print Assumptions C06_ccvs_row.

Theorem C06_ccvs_law_refuted : exists nv es m N x,
  wf_circ nv es /\ generate_mna_and_N nv es = Ok (m, N) /\ x 0%nat = 0 /\
  (forall i, (i < nv + n_vde es)%nat -> row (nv + n_vde es) m i x + N i = 0) /\
  (exists id n1 n2 src a j, In (EH id n1 n2 src a) es /\ vde_index es src = Ok j /\
     x n1 - x n2 <> a * x (nv + j)%nat).
Proof.
  exists 3%nat, [EV "V1" 1 0 1 false; ER "R1" 1 0 1; EH "H1" 2 0 "V1" 2; ER "R2" 2 0 1].
  eexists _, _, (fun i => nth i [0; 1; 2; -1; -2] 0).
  split; [unfold wf_circ; repeat constructor; simpl; try lia; discriminate|].
  split; [reflexivity|]. split; [reflexivity|]. split.
  - intros i Hi. change (n_vde _) with 2%nat in *. simpl in Hi.
    do 5 (destruct i as [|i]; [unfold row; simpl; unfold madd, mset, vset, mzero, vzero; simpl; lra|]).
    lia.
  - exists "H1", 2%nat, 0%nat, "V1", 2, 0%nat. split; [simpl; auto|]. split; [reflexivity|]. simpl. lra.
Qed.
Print Assumptions C06_ccvs_law_refuted.

(** If the sensed source comes after the H element the assembly crashes. *)
Theorem C06_ccvs_forward_reference_refuted : exists nv es,
  wf_circ nv es /\ generate_mna_and_N nv es = Err IndexError.
Proof.
  exists 3%nat, [EH "H1" 2 0 "V1" 2; EV "V1" 1 0 1 false; ER "R1" 1 0 1].
  split; [unfold wf_circ; repeat constructor; simpl; try lia; discriminate|reflexivity].
Qed.
Print Assumptions C06_ccvs_forward_reference_refuted.

(** * C07: dynamic matrix *)
Theorem C07_dynamic_matrix : forall cmin nv es, wf_circ nv es ->
  NoDup (map (fun e => upper (lid e)) (vdes es)) -> Forall (wf_coupling es) es ->
  exists d, generate_D cmin nv es = Ok d /\ generate_AC cmin nv es = Ok d /\
  (* capacitor currents at the nodes, plus the [cmin] to ground *)
  (forall n y, (1 <= n < nv)%nat -> y 0%nat = 0 ->
     row (nv + n_vde es) d n y = dyn_kcl es n y + (if Rlt_dec 0 cmin then cmin * y n else 0)) /\
  (* self and mutual flux in the inductor rows *)
  (forall k id n1 n2 l y, nth_error (vdes es) k = Some (EL id n1 n2 l) ->
     row (nv + n_vde es) d (nv + k) y = - l * y (nv + k)%nat - flux nv es y id) /\
  (* nothing in the rows of the other voltage-defined elements *)
  (forall k e y, nth_error (vdes es) k = Some e -> is_inductor e = false ->
     row (nv + n_vde es) d (nv + k) y = 0) /\
  (* symmetric *)
  (forall i j, d i j = d j i).
Proof.
  intros cmin nv es W ND WK.
  destruct (dyn_ok nv es ND WK W) as (d & H1 & H2).
  exists (add_cmin nv cmin d).
  assert (HIGH : forall i j, (nv <= i)%nat -> add_cmin nv cmin d i j = d i j).
  { intros i j Hi. unfold add_cmin. destruct (Rlt_dec 0 cmin); auto.
    destruct (Nat.ltb_spec i nv); [lia|reflexivity]. }
  assert (ROWH : forall k y, row (nv + n_vde es) (add_cmin nv cmin d) (nv + k) y
                 = row (nv + n_vde es) (raw_entry nv es) (nv + k) y).
  { intros k y. unfold row. apply rsum_ext. intros j _. rewrite HIGH, H2 by lia. reflexivity. }
  repeat apply conj.
  - unfold generate_D. rewrite H1. reflexivity.
  - unfold generate_AC. rewrite ac_loop_eq, H1. reflexivity.
  - intros n y Hn Y0. rewrite <- (raw_node_row nv es W n y) by lia.
    unfold add_cmin. destruct (Rlt_dec 0 cmin).
    + transitivity (rsum (nv + n_vde es) (fun j => raw_entry nv es n j * y j + cmin * (dlt j n * y j))).
      * unfold row. apply rsum_ext. intros j Hj. rewrite H2.
        destruct (Nat.ltb_spec n nv); [|lia]. simpl.
        destruct (Nat.ltb_spec j nv).
        -- unfold cmin_mat. destruct (Nat.eqb_spec n 0); [lia|]. simpl.
           destruct (Nat.eqb_spec j 0) as [->|]; [rewrite Y0; lra|].
           rewrite (dlt_sym n j). lra.
        -- rewrite dlt_other by lia. lra.
      * rewrite rsum_plus, rsum_scal, rsum_dlt by lia. reflexivity.
    + unfold row. rewrite Rplus_0_r. apply rsum_ext. intros j _. rewrite H2. reflexivity.
  - intros k id n1 n2 l y H. rewrite ROWH. apply (raw_ind_row nv es W k id n1 n2 l y H).
  - intros k e y H Hi. rewrite ROWH. eapply (raw_other_row nv es W); eauto.
  - intros i j. unfold add_cmin. destruct (Rlt_dec 0 cmin).
    + rewrite (andb_comm (i <? nv)%nat), !H2, (raw_sym nv es ND WK i j), (cmin_sym nv i j). reflexivity.
    + rewrite !H2. apply raw_sym; auto.
Qed.
Print Assumptions C07_dynamic_matrix.

Definition demoL : list lelem :=
  [EV "V1" 1 0 5 false; EL "L1" 1 2 7; EL "L2" 2 0 3; EK "K1" "L2" "L1" (1/2) 2; EC "C1" 1 2 4].

Example C07_example : wf_circ 3 demoL /\ NoDup (map (fun e => upper (lid e)) (vdes demoL)) /\
  Forall (wf_coupling demoL) demoL /\
  (forall y, flux 3 demoL y "L1" = 2 * y 5%nat).
Proof.
  repeat split.
  - unfold wf_circ, demoL. repeat constructor; simpl; try lia; discriminate.
  - simpl. repeat constructor; simpl; intuition discriminate.
  - unfold demoL. repeat constructor; simpl; auto.
    + exists (EL "L2" 2 0 3). simpl. tauto.
    + exists (EL "L1" 1 2 7). simpl. tauto.
    + discriminate.
  - intros y. unfold flux, cur. simpl. lra.
Qed.

(** * C64: gmin matrix *)
Theorem C64_gmin_adds_node_conductances : forall nv nb g m y i,
  (0 < nv)%nat -> let t := (nv - 1 + nb)%nat in (i < t)%nat ->
  row t (fun i j => m i j + build_gmin_matrix nv g i j) i y
  = row t m i y + (if (i <? nv - 1)%nat then g * y i else 0).
Proof.
  intros nv nb g m y i Hnv t Hi. unfold row.
  transitivity (rsum t (fun j => m i j * y j + (if (i <? nv - 1)%nat then g else 0) * (dlt j i * y j))).
  - apply rsum_ext. intros j _. unfold build_gmin_matrix. rewrite gmin_loop_val. unfold mzero, dlt.
    rewrite (Nat.eqb_sym i j).
    destruct (j =? i)%nat; simpl; [|lra]. destruct (i <? nv - 1)%nat; lra.
  - rewrite rsum_plus, rsum_scal, rsum_dlt by auto. destruct (i <? nv - 1)%nat; lra.
Qed.
Print Assumptions C64_gmin_adds_node_conductances.

Example C64_example : forall m y,
  row 4 (fun i j => m i j + build_gmin_matrix 4 3 i j) 3 y = row 4 m 3 y + 0 /\
  row 4 (fun i j => m i j + build_gmin_matrix 4 3 i j) 2 y = row 4 m 2 y + 3 * y 2%nat.
Proof.
  intros m y. split.
  - apply (C64_gmin_adds_node_conductances 4 1 3 m y 3); lia.
  - apply (C64_gmin_adds_node_conductances 4 1 3 m y 2); lia.
Qed.
