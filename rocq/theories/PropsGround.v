(** Property theorems about the ground path check (C60). *)
From Coq Require Import Reals String List Bool Arith Lia Lra.
From Verif Require Import Base BaseFacts Nodes Circuit Rsum Mna MnaSpec MnaFacts Newton Diode PropsDiode Ground.
Import ListNotations.
Open Scope R_scope.

(** ** Specification *)

(** The elements through which a DC current may flow freely: resistors, the elements
    that fix a voltage, and nonlinear elements. *)
Definition conducts (e : lelem) : Prop :=
  match e with
  | ER _ n1 n2 _ => n1 <> n2
  | EV _ _ _ _ _ | EE _ _ _ _ _ _ | EH _ _ _ _ _ | EL _ _ _ _ | ENL _ _ _ => True
  | _ => False
  end.
Definition touches (n : nat) (e : lelem) : Prop := term1 e = n \/ term2 e = n.

Inductive dc_path (es : list lelem) : nat -> nat -> Prop :=
| path_here : forall n, dc_path es n n
| path_step : forall e a b c, In e es -> conducts e ->
    (term1 e = a /\ term2 e = b \/ term2 e = a /\ term1 e = b) -> dc_path es b c -> dc_path es a c.

Lemma Req_b_true : forall a b, Req_b a b = true <-> a = b.
Proof. intros a b. destruct (Req_b_spec a b); split; congruence. Qed.

(** ** The entries the check reads *)
Definition pick1 (k : nat) : vec := fun j => dlt j k.

Lemma row_pick : forall tot m n k, (k < tot)%nat -> row tot m n (pick1 k) = m n k.
Proof.
  intros tot m n k H. unfold row, pick1. rewrite <- (rsum_dlt tot k (fun j => m n j) H).
  apply rsum_ext. intros i _. ring.
Qed.
Lemma row_zero : forall tot m n, row tot m n vzero = 0.
Proof. intros. unfold row, vzero. apply rsum_0. intros. ring. Qed.

Lemma entry_kcl : forall nv es m N n k, wf_circ nv es -> generate_mna_and_N nv es = Ok (m, N) ->
  (n < nv)%nat -> (k < nv + n_vde es)%nat -> m n k = kcl nv es es 0 n (pick1 k) - kcl nv es es 0 n vzero.
Proof.
  intros nv es m N n k W G Hn Hk.
  rewrite <- (node_row_is_kcl nv es m N (pick1 k) n W G Hn), <- (node_row_is_kcl nv es m N vzero n W G Hn).
  rewrite row_pick, row_zero by exact Hk. ring.
Qed.

Definition positive_resistors (es : list lelem) : Prop := forall id n1 n2 r, In (ER id n1 n2 r) es -> 0 < r.
Definition no_controlled_current (n : nat) (es : list lelem) : Prop :=
  forall e, In e es -> touches n e -> match e with EG _ _ _ _ _ _ | EF _ _ _ _ _ => False | _ => True end.

Definition gsum (n : nat) (es : list lelem) : R :=
  lsum (fun e => match e with
                 | ER _ n1 n2 r => if (n1 =? n2)%nat then 0 else if (n1 =? n)%nat || (n2 =? n)%nat then 1 / r else 0
                 | _ => 0 end) es.

Lemma diag_sum : forall nv all es n k, (n < nv)%nat -> wf_circ nv es -> no_controlled_current n es ->
  kcl nv all es k n (pick1 n) - kcl nv all es k n vzero = gsum n es.
Proof.
  intros nv all es. induction es as [|e es IH]; intros n k Hn W F.
  - unfold gsum. simpl. ring.
  - inversion W as [|? ? We Wes]; subst. destruct We as (W1 & W2 & _).
    assert (F' : no_controlled_current n es) by (intros e' He'; apply F; right; exact He').
    specialize (IH n (if is_vde e then S k else k) Hn Wes F').
    assert (Fe := F e (or_introl eq_refl)). unfold touches in Fe.
    unfold gsum in *. cbn [lsum fold_right kcl].
    set (A := kcl nv all es _ n (pick1 n)) in *. set (B := kcl nv all es _ n vzero) in *.
    assert (K : forall j, pick1 n (nv + j)%nat = 0) by (intros j; unfold pick1; apply dlt_other; lia).
    match goal with |- _ = ?r + _ => assert (Q : forall q, q = r -> A - B + q = r + (A - B)) by (intros; lra) end.
    rewrite <- IH.
    unfold vzero, pick1 in *.
    destruct e; cbn [dc_current term1 term2] in *; try rewrite K;
      try (destruct (Nat.eqb_spec n1 n); destruct (Nat.eqb_spec n2 n); cbn [orb]; try lra).
    + subst. rewrite Nat.eqb_refl, !dlt_same. lra.
    + subst. rewrite (proj2 (Nat.eqb_neq n n2)) by congruence. rewrite dlt_same, dlt_other by assumption. unfold Rdiv; lra.
    + subst. rewrite (proj2 (Nat.eqb_neq n1 n)) by congruence. rewrite dlt_same, dlt_other by assumption. unfold Rdiv; lra.
    + destruct (n1 =? n2)%nat; lra.
    + destruct (0 =? n)%nat; lra.
    + exfalso. apply Fe. auto.
    + exfalso. apply Fe. auto.
    + destruct (vde_index all src) as [j|]; [rewrite K|]; lra.
    + exfalso. apply Fe. auto.
Qed.

Lemma gsum_zero : forall n es, positive_resistors es ->
  0 <= gsum n es /\ (gsum n es = 0 <-> forall id n1 n2 r, In (ER id n1 n2 r) es -> n1 <> n2 -> n1 <> n /\ n2 <> n).
Proof.
  intros n es. induction es as [|e es IH]; intros P.
  - unfold gsum. simpl. split; [lra|]. split; [intros _ ? ? ? ? []|reflexivity].
  - assert (P' : positive_resistors es) by (intros id n1 n2 r H; apply (P id n1 n2 r); right; exact H).
    destruct (IH P') as [A B]. unfold gsum in *. cbn [lsum fold_right] in *.
    set (T := match e with ER _ _ _ _ => _ | _ => _ end).
    assert (TT : 0 <= T /\ (T = 0 <-> forall id n1 n2 r, e = ER id n1 n2 r -> n1 <> n2 -> n1 <> n /\ n2 <> n)).
    { unfold T. destruct e; try (split; [lra|split; [intros _ ? ? ? ? E; discriminate E|reflexivity]]).
      assert (R0 := P id n1 n2 r (or_introl eq_refl)).
      assert (R1 : 0 < 1 / r) by (unfold Rdiv; rewrite Rmult_1_l; apply Rinv_0_lt_compat; exact R0).
      destruct (Nat.eqb_spec n1 n2) as [E|E].
      - split; [lra|]. split; [|reflexivity]. intros _ ? ? ? ? X Y. inversion X; subst. congruence.
      - destruct (Nat.eqb_spec n1 n) as [E1|E1]; destruct (Nat.eqb_spec n2 n) as [E2|E2]; cbn [orb];
          (split; [lra|]); (split; [intros H; try lra|intros H; try (destruct (H _ _ _ _ eq_refl E); congruence); reflexivity]).
        intros ? ? ? ? X _. inversion X; subst. auto. }
    destruct TT as [T0 T1]. split; [lra|]. split.
    + intros H. assert (T = 0) by lra. assert (lsum (fun e => match e with
                 | ER _ n1 n2 r => if (n1 =? n2)%nat then 0 else if (n1 =? n)%nat || (n2 =? n)%nat then 1 / r else 0
                 | _ => 0 end) es = 0) by (unfold lsum in *; lra).
      intros id n1 n2 r [E|E]; [apply (proj1 T1 H0 id n1 n2 r E)|apply (proj1 B H1 id n1 n2 r E)].
    + intros H. assert (T = 0) by (apply T1; intros id n1 n2 r E; apply (H id n1 n2 r); left; exact E).
      assert (X := proj2 B (fun id n1 n2 r E => H id n1 n2 r (or_intror E))). unfold lsum in *. lra.
Qed.

(** The column of the [k]-th current. *)
Fixpoint colsum (n k k0 : nat) (es : list lelem) : R :=
  match es with
  | [] => 0
  | e :: es' =>
      (if is_vde e && (k0 =? k)%nat then dlt n (term1 e) - dlt n (term2 e) else 0)
      + colsum n k (if is_vde e then S k0 else k0) es'
  end.

Lemma col_sum : forall nv all es n k k0, (n < nv)%nat -> wf_circ nv es -> no_controlled_current n es ->
  kcl nv all es k0 n (pick1 (nv + k)) - kcl nv all es k0 n vzero = colsum n k k0 es.
Proof.
  intros nv all es. induction es as [|e es IH]; intros n k k0 Hn W F.
  - simpl. ring.
  - inversion W as [|? ? We Wes]; subst. destruct We as (W1 & W2 & WS & _).
    assert (F' : no_controlled_current n es) by (intros e' He'; apply F; right; exact He').
    specialize (IH n k (if is_vde e then S k0 else k0) Hn Wes F').
    assert (Fe := F e (or_introl eq_refl)). unfold touches in Fe.
    cbn [colsum kcl].
    set (A := kcl nv all es _ n (pick1 (nv + k))) in *. set (B := kcl nv all es _ n vzero) in *.
    assert (K : forall j, (j < nv)%nat -> pick1 (nv + k) j = 0) by (intros j Hj; unfold pick1; apply dlt_other; lia).
    assert (K' : forall j, pick1 (nv + k) (nv + j)%nat = if (j =? k)%nat then 1 else 0).
    { intros j. unfold pick1, dlt. destruct (Nat.eqb_spec (nv + j) (nv + k)); destruct (Nat.eqb_spec j k); auto; lia. }
    rewrite <- IH. unfold dlt. rewrite (Nat.eqb_sym n (term1 e)), (Nat.eqb_sym n (term2 e)).
    unfold vzero in *.
    destruct e; cbn [dc_current term1 term2 is_vde andb sense_nodes] in *; try rewrite K';
      try (rewrite (K n1), (K n2) by assumption; unfold Rdiv);
      try (destruct (Nat.eqb_spec n1 n); destruct (Nat.eqb_spec n2 n); destruct (k0 =? k)%nat; try lra; exfalso; apply Fe; auto; fail);
      try (destruct (n1 =? n)%nat; destruct (n2 =? n)%nat; destruct (k0 =? k)%nat; lra).
    + destruct (0 =? n)%nat; lra.
Qed.

Lemma colsum_before : forall n es k k0, (k < k0)%nat -> colsum n k k0 es = 0.
Proof.
  intros n es. induction es as [|e es IH]; intros k k0 H; simpl; auto.
  rewrite (proj2 (Nat.eqb_neq k0 k)) by lia. rewrite andb_false_r.
  rewrite IH by (destruct (is_vde e); lia). ring.
Qed.

Lemma colsum_zero : forall nv n es k0, wf_circ nv es ->
  ((forall k, (k0 <= k < k0 + n_vde es)%nat -> colsum n k k0 es = 0) <->
   (forall e, In e es -> is_vde e = true -> ~ touches n e)).
Proof.
  intros nv n es. induction es as [|e es IH]; intros k0 W.
  - split; [intros _ e []|reflexivity].
  - inversion W as [|? ? We Wes]; subst. destruct We as (_ & _ & _ & D).
    unfold n_vde in *. simpl. destruct (is_vde e) eqn:V; cbn [andb List.length].
    + specialize (IH (S k0) Wes). split.
      * intros H e' [E|E] V'.
        { subst e'. specialize (H k0 ltac:(lia)). rewrite Nat.eqb_refl, colsum_before in H by lia.
          specialize (D eq_refl). unfold touches, dlt in *. intros [T|T]; subst n.
          - rewrite Nat.eqb_refl, (proj2 (Nat.eqb_neq _ _) D) in H. lra.
          - rewrite Nat.eqb_refl in H. destruct (Nat.eqb_spec (term2 e) (term1 e)); [congruence|lra]. }
        { apply (proj1 IH); auto. intros k Hk. specialize (H k ltac:(lia)).
          rewrite (proj2 (Nat.eqb_neq k0 k)) in H by lia. lra. }
      * intros H k Hk. destruct (Nat.eqb_spec k0 k) as [E|E].
        { rewrite colsum_before by lia. specialize (H e (or_introl eq_refl) V). unfold touches, dlt in *.
          destruct (Nat.eqb_spec n (term1 e)); [exfalso; apply H; auto|].
          destruct (Nat.eqb_spec n (term2 e)); [exfalso; apply H; auto|]. lra. }
        { rewrite (proj2 IH (fun e' X => H e' (or_intror X)) k) by lia. ring. }
    + specialize (IH k0 Wes). split.
      * intros H e' [E|E] V'; [congruence|]. apply (proj1 IH); auto. intros k Hk. specialize (H k Hk). lra.
      * intros H k Hk. rewrite (proj2 IH (fun e' X => H e' (or_intror X)) k) by lia. ring.
Qed.

(** * C60 *)

Lemma reported_spec : forall nv es m N n, wf_circ nv es -> generate_mna_and_N nv es = Ok (m, N) ->
  positive_resistors es -> no_controlled_current n es ->
  (In n (reported nv es m) <-> (1 <= n < nv)%nat /\ forall e, In e es -> conducts e -> ~ touches n e).
Proof.
  intros nv es m N n W G P F. unfold reported. rewrite !filter_In, in_seq.
  assert (S1 : (1 <= n < nv)%nat -> suspicious nv (nv + n_vde es) m n = true <->
     (forall id n1 n2 r, In (ER id n1 n2 r) es -> n1 <> n2 -> n1 <> n /\ n2 <> n) /\
     (forall e, In e es -> is_vde e = true -> ~ touches n e)).
  { intros Hn. unfold suspicious. rewrite andb_true_iff, Req_b_true, negb_true_iff.
    rewrite (entry_kcl nv es m N n n W G) by lia. rewrite diag_sum by (try lia; auto).
    destruct (gsum_zero n es P) as [_ A]. rewrite A.
    assert (CZ := colsum_zero nv n es 0 W).
    assert (E : existsb (fun j => negb (Req_b (m n j) 0)) (seq nv (nv + n_vde es - nv)) = false <->
                forall k, (0 <= k < 0 + n_vde es)%nat -> colsum n k 0 es = 0).
    { split.
      - intros H k Hk. rewrite <- (col_sum nv es es n k 0) by (try lia; auto).
        rewrite <- (entry_kcl nv es m N n (nv + k) W G) by lia.
        destruct (Req_b (m n (nv + k)%nat) 0) eqn:Q; [apply Req_b_true; exact Q|].
        assert (X : existsb (fun j => negb (Req_b (m n j) 0)) (seq nv (nv + n_vde es - nv)) = true).
        { apply existsb_exists. exists (nv + k)%nat. rewrite Q. split; [apply in_seq; lia|reflexivity]. }
        congruence.
      - intros H. apply not_true_iff_false. intros X. apply existsb_exists in X. destruct X as [j [Hj Q]].
        apply in_seq in Hj. replace j with (nv + (j - nv))%nat in Q by lia.
        rewrite (entry_kcl nv es m N n (nv + (j - nv)) W G) in Q by lia.
        rewrite col_sum in Q by (try lia; auto). rewrite H in Q by lia.
        apply negb_true_iff in Q. assert (Z : Req_b 0 0 = true) by (apply Req_b_true; reflexivity). congruence. }
    rewrite E, CZ. reflexivity. }
  assert (S2 : negb (nl_output es n) = true <-> forall id n1 n2, In (ENL id n1 n2) es -> n1 <> n /\ n2 <> n).
  { rewrite negb_true_iff. unfold nl_output. split.
    - intros H id n1 n2 I1. assert (X := proj2 (not_true_iff_false _) H). split; intros E; apply X;
        apply existsb_exists; exists (ENL id n1 n2); (split; [exact I1|]); subst; rewrite Nat.eqb_refl; try reflexivity; apply orb_true_r.
    - intros H. apply not_true_iff_false. intros X. apply existsb_exists in X. destruct X as [e [I1 Q]].
      destruct e; try discriminate Q. destruct (H _ _ _ I1) as [A B]. apply orb_true_iff in Q.
      destruct Q as [Q|Q]; apply Nat.eqb_eq in Q; congruence. }
  split.
  - intros [[Hs Su] Nl]. assert (Hn : (1 <= n < nv)%nat) by lia. split; [exact Hn|].
    destruct (proj1 (S1 Hn) Su) as [A B]. assert (C := proj1 S2 Nl).
    intros e I1 Ce. destruct e; cbn [conducts] in Ce; try contradiction; try (apply (B _ I1 eq_refl)).
    + destruct (A _ _ _ _ I1 Ce). unfold touches. simpl. tauto.
    + destruct (C _ _ _ I1). unfold touches. simpl. tauto.
  - intros [Hn H]. split; [split; [lia|]|].
    + apply (S1 Hn). split.
      * intros id n1 n2 r I1 D. specialize (H _ I1 D). unfold touches in H. simpl in H. tauto.
      * intros e I1 V. apply H; auto. destruct e; simpl in *; try discriminate; exact I.
    + apply S2. intros id n1 n2 I1. specialize (H _ I1 I). unfold touches in H. simpl in H. tauto.
Qed.

(** What the check decides: with positive resistances, a node (where no controlled
    current source ends) is reported exactly if no conducting element ends there. *)
Theorem C60_isolated_nodes : forall nv es m N n, wf_circ nv es -> generate_mna_and_N nv es = Ok (m, N) ->
  positive_resistors es -> no_controlled_current n es ->
  (In n (reported nv es m) <-> (1 <= n < nv)%nat /\ forall e, In e es -> conducts e -> ~ touches n e).
Proof. exact reported_spec. Qed.
Print Assumptions C60_isolated_nodes.

(** There are no false alarms: a node with a DC path to ground is not reported. *)
Theorem C60_no_false_alarm : forall nv es m N n, wf_circ nv es -> generate_mna_and_N nv es = Ok (m, N) ->
  positive_resistors es -> no_controlled_current n es -> dc_path es n 0 -> ~ In n (reported nv es m).
Proof.
  intros nv es m N n W G P F D I1. apply (C60_isolated_nodes nv es m N n W G P F) in I1. destruct I1 as [Hn H].
  inversion D as [x Ex|e a b c Ie Ce T D' Ea Ec]; subst; [lia|].
  apply (H e Ie Ce). unfold touches. tauto.
Qed.
Print Assumptions C60_no_false_alarm.

Local Open Scope string_scope.

(** The check passes on two nodes joined by a resistor, and nothing else. *)
Theorem C60_refuted : forall r, 0 < r -> let es := [ER "R1" 1 2 r] in
  exists m N, generate_mna_and_N 3 es = Ok (m, N) /\ check_ground_paths 3 es m = true /\ ~ dc_path es 1 0.
Proof.
  intros r Hr es.
  assert (W : wf_circ 3 es) by (unfold wf_circ, es; repeat constructor; simpl; try lia; discriminate).
  destruct (generate_mna_and_N 3 es) as [[m N]|] eqn:G; [|discriminate G].
  exists m, N. split; [reflexivity|]. split.
  - assert (P : positive_resistors es) by (intros id n1 n2 q [E|[]]; inversion E; subst; exact Hr).
    assert (F : forall n, no_controlled_current n es) by (intros n e [E|[]] _; subst e; exact I).
    unfold check_ground_paths. destruct (reported 3 es m) as [|n l] eqn:E; [reflexivity|].
    assert (X : In n (reported 3 es m)) by (rewrite E; left; reflexivity).
    apply (reported_spec 3 es m N n W G P (F n)) in X. destruct X as [Hn X]. exfalso.
    apply (X (ER "R1" 1 2 r) (or_introl eq_refl)); [discriminate|]. unfold touches. simpl. lia.
  - assert (Q : forall a b, dc_path es a b -> (a = 1 \/ a = 2)%nat -> (b = 1 \/ b = 2)%nat).
    { intros a b D. induction D as [n|e a b c Ie Ce T D IH]; auto.
      intros Ha. apply IH. destruct Ie as [E|[]]; subst e. simpl in T. lia. }
    intros D. destruct (Q _ _ D (or_introl eq_refl)); discriminate.
Qed.
Print Assumptions C60_refuted.

(** The hypotheses of the two theorems above hold, and the conclusion is not empty:
    the node between two capacitors is reported. *)
Example C60_example : forall m N, let es := [EV "V1" 1 0 5 false; EC "C1" 1 2 1; EC "C2" 2 0 1; ER "R1" 1 3 2; ENL "D1" 3 4] in
  generate_mna_and_N 5 es = Ok (m, N) -> forall n, In n (reported 5 es m) <-> n = 2%nat.
Proof.
  intros m N es G n.
  assert (W : wf_circ 5 es) by (unfold wf_circ, es; repeat constructor; simpl; try lia; discriminate).
  assert (P : positive_resistors es).
  { intros id n1 n2 q H. simpl in H. repeat destruct H as [H|H]; try discriminate H; try contradiction. inversion H; subst. lra. }
  assert (F : no_controlled_current n es).
  { intros e H _. simpl in H. repeat destruct H as [H|H]; subst; try contradiction; exact I. }
  rewrite (C60_isolated_nodes 5 es m N n W G P F). split.
  - intros [Hn H].
    assert (A := H (EV "V1" 1 0 5 false) ltac:(simpl; tauto) I).
    assert (B := H (ER "R1" 1 3 2) ltac:(simpl; tauto) ltac:(discriminate)).
    assert (C := H (ENL "D1" 3 4) ltac:(simpl; tauto) I).
    unfold touches in *. simpl in *. lia.
  - intros ->. split; [lia|]. intros e H. simpl in H. unfold touches.
    repeat destruct H as [H|H]; subst; simpl; try contradiction; try lia.
Qed.

(** A negative resistance in parallel to a positive one causes a false alarm. *)
Example C60_false_alarm : forall m N, let es := [ER "R1" 1 0 2; ER "R2" 1 0 (-2)] in
  generate_mna_and_N 2 es = Ok (m, N) -> In 1%nat (reported 2 es m).
Proof.
  intros m N es G. unfold generate_mna_and_N in G. simpl in G. inversion G; subst. clear G.
  unfold reported, suspicious, nl_output. cbn [filter seq Nat.sub existsb orb negb es].
  unfold es. cbn [n_vde filter is_vde List.length Nat.add existsb seq Nat.sub negb].
  match goal with |- context [Req_b ?a 0] => assert (Z : Req_b a 0 = true) end.
  { apply Req_b_true. unfold madd, mset, mzero. simpl. lra. }
  rewrite Z. simpl. auto.
Qed.
