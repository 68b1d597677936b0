(** Proofs about the assembly of the MNA system. *)
From Coq Require Import Reals String Ascii List Bool Arith Lia Lra.
From Verif Require Import Base BaseFacts Nodes Circuit CircuitFacts Rsum Mna MnaSpec.
Import ListNotations.
Open Scope R_scope.

Lemma filter_as_celem : forall es, length (filter vdef (map as_celem es)) = n_vde es.
Proof.
  unfold n_vde. induction es as [|e es IH]; simpl; [reflexivity|].
  destruct (is_vde e); simpl; auto.
Qed.

Lemma vde_index_lt : forall es s j, vde_index es s = Ok j -> (j < n_vde es)%nat.
Proof.
  intros es s j H. unfold vde_index in H.
  apply find_vde_index_from_spec in H. destruct H as (pre & e & post & E & V & _ & -> & _).
  rewrite <- filter_as_celem, E, filter_app, app_length. simpl. rewrite V. simpl. lia.
Qed.

Lemma n_vde_app : forall a b, n_vde (a ++ b) = (n_vde a + n_vde b)%nat.
Proof. intros. unfold n_vde. rewrite filter_app, app_length. reflexivity. Qed.

Lemma n_vde_cons : forall e es, n_vde (e :: es) = ((if is_vde e then 1 else 0) + n_vde es)%nat.
Proof. intros. unfold n_vde. simpl. destruct (is_vde e); reflexivity. Qed.

Section Fixed.
  Variables (nv : nat) (all : list lelem) (x : vec).
  Let tot := (nv + n_vde all)%nat.

  (** Contributions of the three passes to the row of node [n]. *)
  Definition c1 (n : nat) (e : lelem) : R :=
    match e with
    | ER _ n1 n2 r => (dlt n n1 - dlt n n2) * ((x n1 - x n2) / r)
    | EG _ n1 n2 s1 s2 a => (dlt n n1 - dlt n n2) * (a * (x s1 - x s2))
    | EI _ n1 n2 dc td => (dlt n n1 - dlt n n2) * (if td then 0 else dc)
    | _ => 0
    end.

  Fixpoint c2 (n k : nat) (es : list lelem) : R :=
    match es with
    | [] => 0
    | e :: es' =>
        if is_vde e then (dlt n (term1 e) - dlt n (term2 e)) * x (nv + k)%nat + c2 n (S k) es'
        else c2 n k es'
    end.

  Definition c3 (n : nat) (e : lelem) : R :=
    match e with
    | EF _ n1 n2 src a =>
        (dlt n n1 - dlt n n2) * match vde_index all src with Ok j => a * x (nv + j)%nat | Err _ => 0 end
    | _ => 0
    end.

  Lemma kcl_split : forall es k n,
    kcl nv all es k n x = lsum (c1 n) es + c2 n k es + lsum (c3 n) es.
  Proof.
    assert (E : forall a n i, (if (a =? n)%nat then i else 0) = dlt n a * i).
    { intros. unfold dlt. rewrite Nat.eqb_sym. destruct (n =? a)%nat; lra. }
    induction es as [|e es IH]; intros k n; simpl; [lra|].
    rewrite IH, !E. destruct e; simpl; lra.
  Qed.

  (** ** Pass 1 *)
  Definition inside (m : mat) (b : nat) : Prop :=
    forall i j, (b <= i \/ b <= j)%nat -> m i j = 0.
  Definition vinside (v : vec) (b : nat) : Prop := forall i, (b <= i)%nat -> v i = 0.

  Lemma inside_madd : forall m b a c v, inside m b -> (a < b)%nat -> (c < b)%nat -> inside (madd m a c v) b.
  Proof.
    intros m b a c v I Ha Hc i j H. rewrite madd_other; [apply I; auto|]. lia.
  Qed.

  Lemma inside_mset : forall m b a c v, inside m b -> (a < b)%nat -> (c < b)%nat -> inside (mset m a c v) b.
  Proof.
    intros m b a c v I Ha Hc i j H. rewrite mset_other; [apply I; auto|]. lia.
  Qed.

  Lemma inside_mono : forall m b b', inside m b -> (b <= b')%nat -> inside m b'.
  Proof. intros m b b' I H i j K. apply I. lia. Qed.

  Lemma vinside_vadd : forall v b a r, vinside v b -> (a < b)%nat -> vinside (vadd v a r) b.
  Proof. intros v b a r I Ha i H. unfold vadd. rewrite vset_other; [apply I; auto|lia]. Qed.

  Lemma pass1_spec : forall es st n, wf_circ nv es ->
    inside (fst st) nv -> vinside (snd st) nv ->
    let st' := fold_left stamp1 es st in
    inside (fst st') nv /\ vinside (snd st') nv /\
    row tot (fst st') n x + snd st' n = row tot (fst st) n x + snd st n + lsum (c1 n) es.
  Proof.
    induction es as [|e es IH]; intros [m v] n W I V; simpl.
    - repeat split; auto. lra.
    - inversion W as [|? ? We Wes]; subst. destruct We as (W1 & W2 & W3 & _).
      assert (B : forall a, (a < nv)%nat -> (a < tot)%nat) by (intros; unfold tot; lia).
      destruct e; simpl in *;
        try (destruct (IH (m, v) n Wes I V) as (A1 & A2 & A3); simpl in *;
             repeat split; auto; rewrite A3; lra).
      + match goal with |- context [fold_left stamp1 es ?s] =>
          destruct (IH s n Wes) as (A1 & A2 & A3) end; simpl; auto.
        { repeat apply inside_madd; auto. }
        repeat split; auto. rewrite A3. simpl. rewrite !row_madd by auto. unfold Rdiv. lra.
      + destruct td.
        * destruct (IH (m, v) n Wes I V) as (A1 & A2 & A3); simpl in *.
          repeat split; auto. rewrite A3. lra.
        * match goal with |- context [fold_left stamp1 es ?s] =>
            destruct (IH s n Wes) as (A1 & A2 & A3) end; simpl; auto.
          { repeat apply vinside_vadd; auto. }
          repeat split; auto. rewrite A3. simpl. rewrite !vadd_val. lra.
      + inversion W3 as [|? ? S1 W3']; subst. inversion W3' as [|? ? S2 _]; subst.
        match goal with |- context [fold_left stamp1 es ?s] =>
          destruct (IH s n Wes) as (A1 & A2 & A3) end; simpl; auto.
        { repeat apply inside_madd; auto. }
        repeat split; auto. rewrite A3. simpl. rewrite !row_madd by auto. lra.
  Qed.

  (** ** Pass 2 *)
  Definition branch (m : mat) (idx n1 n2 : nat) : mat :=
    mset (mset (mset (mset m n1 idx 1) n2 idx (-1)) idx n1 1) idx n2 (-1).

  Lemma branch_node_row : forall m idx n1 n2 n, inside m idx ->
    (n1 < nv)%nat -> (n2 < nv)%nat -> (nv <= idx < tot)%nat -> n1 <> n2 -> (n < nv)%nat ->
    row tot (branch m idx n1 n2) n x = row tot m n x + (dlt n n1 - dlt n n2) * x idx.
  Proof.
    intros m idx n1 n2 n I H1 H2 Hi Hn Hl. unfold branch.
    rewrite !row_mset by (unfold tot in *; lia).
    rewrite (dlt_other n idx) by lia.
    rewrite (mset_other m n1 idx 1 n2 idx) by lia.
    rewrite (I n1 idx), (I n2 idx) by lia. lra.
  Qed.

  Lemma branch_own_row : forall m idx n1 n2, inside m idx ->
    (n1 < nv)%nat -> (n2 < nv)%nat -> (nv <= idx < tot)%nat -> n1 <> n2 ->
    row tot (branch m idx n1 n2) idx x = x n1 - x n2.
  Proof.
    intros m idx n1 n2 I H1 H2 Hi Hn. unfold branch.
    rewrite !row_mset by (unfold tot in *; lia).
    rewrite !dlt_same. rewrite (dlt_other idx n1), (dlt_other idx n2) by lia.
    rewrite !mset_other by lia. rewrite !(I idx) by lia.
    unfold row. rewrite rsum_0; [lra|]. intros j _. rewrite I by lia. lra.
  Qed.

  Lemma branch_entry : forall m idx n1 n2 j, inside m idx ->
    (n1 < idx)%nat -> (n2 < idx)%nat -> j <> n1 -> j <> n2 -> branch m idx n1 n2 idx j = 0.
  Proof.
    intros. unfold branch. rewrite !mset_other by lia. apply H. lia.
  Qed.

  Lemma inside_branch : forall m idx n1 n2, inside m idx -> (n1 < idx)%nat -> (n2 < idx)%nat ->
    inside (branch m idx n1 n2) (S idx).
  Proof.
    intros. unfold branch. repeat apply inside_mset; try lia. eapply inside_mono; eauto.
  Qed.

  Lemma branch_other_row : forall m idx n1 n2 i j, (n1 < nv)%nat -> (n2 < nv)%nat ->
    (nv <= i)%nat -> i <> idx -> branch m idx n1 n2 i j = m i j.
  Proof. intros. unfold branch. rewrite !mset_other by lia. reflexivity. Qed.

  (** One stamp of the second pass. *)
  Lemma stamp_vde_spec : forall e k m v m' v', wf_elem nv e -> is_vde e = true ->
    (k < n_vde all)%nat -> inside m (nv + k) -> vinside v (nv + k) ->
    stamp_vde nv all k (m, v) e = Ok (m', v') ->
    inside m' (S (nv + k)) /\ vinside v' (S (nv + k)) /\
    (forall n, (n < nv)%nat ->
       row tot m' n x = row tot m n x + (dlt n (term1 e) - dlt n (term2 e)) * x (nv + k)%nat) /\
    (forall n, (n < nv + k)%nat -> v' n = v n) /\
    (forall i j, (nv <= i < nv + k)%nat -> m' i j = m i j) /\
    (forall x0, x0 = x -> x 0%nat = 0 -> sense_apart e -> (forall id n1 n2 src a, e <> EH id n1 n2 src a) ->
       row tot m' (nv + k) x + v' (nv + k)%nat = branch_law nv all x e) /\
    (forall id n1 n2 src a, e = EH id n1 n2 src a ->
       exists j, vde_index all src = Ok j /\ (j <= k)%nat /\
       row tot m' (nv + k) x + v' (nv + k)%nat = x n1 - x n2 + a * x (nv + j)%nat).
  Proof.
    intros e k m v m' v' (W1 & W2 & W3 & W4) Hv Hk I V H.
    assert (VM : vinside v (S (nv + k))) by (intros i Hi; apply V; lia).
    assert (Hidx : (nv <= nv + k < tot)%nat) by (unfold tot; lia).
    specialize (W4 Hv).
    assert (V0 : v (nv + k)%nat = 0) by (apply V; lia).
    destruct e; simpl in Hv; try discriminate; simpl in *.
    - (* EL *) inversion H; subst; clear H.
      fold (branch m (nv + k) n1 n2). repeat apply conj.
      + apply inside_branch; auto; lia.
      + exact VM.
      + intros n Hn. apply branch_node_row; auto.
      + auto.
      + intros i j Hij. apply branch_other_row; lia.
      + intros x0 _ _ _ _. rewrite branch_own_row by auto. lra.
      + intros; discriminate.
    - (* EV *)
      fold (branch m (nv + k) n1 n2) in H. inversion H; subst; clear H. repeat apply conj.
      + apply inside_branch; auto; lia.
      + destruct td; auto. intros i Hi. rewrite vset_other by lia. apply VM; lia.
      + intros n Hn. apply branch_node_row; auto.
      + intros n Hn. destruct td; auto. apply vset_other; lia.
      + intros i j Hij. apply branch_other_row; lia.
      + intros x0 _ _ _ _. rewrite branch_own_row by auto.
        destruct td; [lra|]. rewrite vset_same. lra.
      + intros; discriminate.
    - (* EE *)
      fold (branch m (nv + k) n1 n2) in H. inversion H; subst; clear H.
      inversion W3 as [|? ? S1 W3']; subst. inversion W3' as [|? ? S2 _]; subst.
      repeat apply conj.
      + do 2 (apply inside_mset; [|lia|lia]). apply inside_branch; auto; lia.
      + exact VM.
      + intros n Hn. rewrite !row_mset by (unfold tot; lia).
        rewrite (dlt_other n (nv + k)) by lia. rewrite branch_node_row by auto. lra.
      + auto.
      + intros i j Hij. rewrite !mset_other by lia. apply branch_other_row; lia.
      + intros x0 _ X0 (A1 & A2 & A3) _.
        rewrite !row_mset by (unfold tot; lia).
        rewrite branch_own_row by auto. rewrite dlt_same, V0.
        assert (E1 : (- alpha - branch m (nv + k) n1 n2 (nv + k)%nat s1) * x s1 = - alpha * x s1).
        { destruct (Nat.eq_dec s1 0) as [->|N]; [rewrite X0; lra|].
          destruct (A1 N). rewrite branch_entry; auto; try lia. lra. }
        assert (E2 : (alpha - mset (branch m (nv + k) n1 n2) (nv + k) s1 (- alpha) (nv + k)%nat s2) * x s2
                     = alpha * x s2).
        { destruct (Nat.eq_dec s2 0) as [->|N]; [rewrite X0; lra|].
          destruct (A2 N). rewrite mset_other.
          - rewrite branch_entry; auto; try lia. lra.
          - right. intros E. apply N. rewrite E. apply A3. auto. }
        rewrite E1, E2. lra.
      + intros; discriminate.
    - (* EH *)
      fold (branch m (nv + k) n1 n2) in H.
      destruct (vde_index all src) as [j|] eqn:Ej; [|discriminate]. simpl in H.
      destruct (Nat.leb_spec j k); [|discriminate]. inversion H; subst; clear H.
      repeat apply conj.
      + apply inside_mset; [|lia|lia]. apply inside_branch; auto; lia.
      + exact VM.
      + intros n Hn. rewrite row_mset by (unfold tot; lia).
        rewrite (dlt_other n (nv + k)) by lia. rewrite branch_node_row by auto. lra.
      + auto.
      + intros i j' Hij. rewrite !mset_other by lia. apply branch_other_row; lia.
      + intros x0 _ _ _ N. exfalso. eapply N; reflexivity.
      + intros id' a1 a2 src' a' E. inversion E; subst. exists j. split; [exact Ej|]. split; auto.
        rewrite row_mset by (unfold tot; lia). rewrite dlt_same.
        rewrite branch_own_row by auto. rewrite branch_entry; auto; try lia.
        rewrite V0. lra.
  Qed.

  Lemma stamp_vde_ok_pair : forall e k st r, stamp_vde nv all k st e = Ok r ->
    exists m v, r = (m, v).
  Proof. intros e k st [m v] _. eauto. Qed.

  Lemma pass2_spec : forall es k m v m' v', wf_circ nv es ->
    (k + n_vde es = n_vde all)%nat -> inside m (nv + k) -> vinside v (nv + k) ->
    pass2 nv all es k (m, v) = Ok (m', v') ->
    (forall n, (n < nv)%nat -> row tot m' n x = row tot m n x + c2 n k es) /\
    (forall n, (n < nv + k)%nat -> v' n = v n) /\
    (forall i j, (nv <= i < nv + k)%nat -> m' i j = m i j).
  Proof.
    induction es as [|e es IH]; intros k m v m' v' W K I V H; cbn [pass2 c2] in *.
    - inversion H; subst. repeat split; auto. intros; lra.
    - inversion W as [|? ? We Wes]; subst. rewrite n_vde_cons in K.
      destruct (is_vde e) eqn:Ev.
      + destruct (stamp_vde nv all k (m, v) e) as [[m1 v1]|] eqn:ES; [|discriminate]. cbn [bindr] in H.
        destruct (stamp_vde_spec e k m v m1 v1 We Ev) as (A1 & A2 & A3 & A4 & A5 & _); auto; [lia|].
        destruct (IH (S k) m1 v1 m' v' Wes) as (B1 & B2 & B3); auto; try lia.
        { replace (nv + S k)%nat with (S (nv + k)) by lia. exact A1. }
        { replace (nv + S k)%nat with (S (nv + k)) by lia. exact A2. }
        repeat split.
        * intros n Hn. rewrite B1, A3 by auto. lra.
        * intros n Hn. rewrite B2, A4 by lia. reflexivity.
        * intros i j Hij. rewrite B3, A5 by lia. reflexivity.
      + apply IH; auto.
  Qed.

  (** The own row of a voltage-defined element. *)
  Lemma pass2_own : forall pre e post k m v m' v', wf_circ nv (pre ++ e :: post) -> is_vde e = true ->
    (k + n_vde (pre ++ e :: post) = n_vde all)%nat -> inside m (nv + k) -> vinside v (nv + k) ->
    pass2 nv all (pre ++ e :: post) k (m, v) = Ok (m', v') ->
    let r := (nv + (k + n_vde pre))%nat in
    (x 0%nat = 0 -> sense_apart e -> (forall id n1 n2 src a, e <> EH id n1 n2 src a) ->
       row tot m' r x + v' r = branch_law nv all x e) /\
    (forall id n1 n2 src a, e = EH id n1 n2 src a ->
       exists j, vde_index all src = Ok j /\ (j <= k + n_vde pre)%nat /\
       row tot m' r x + v' r = x n1 - x n2 + a * x (nv + j)%nat).
  Proof.
    induction pre as [|a pre IH]; intros e post k m v m' v' W Ev K I V H; cbn [pass2 app] in *.
    - inversion W as [|? ? We Wes]; subst. rewrite n_vde_cons, Ev in K. rewrite Ev in H.
      destruct (stamp_vde nv all k (m, v) e) as [[m1 v1]|] eqn:ES; [|discriminate]. cbn [bindr] in H.
      destruct (stamp_vde_spec e k m v m1 v1 We Ev) as (A1 & A2 & A3 & A4 & A5 & A6 & A7); auto; [lia|].
      destruct (pass2_spec post (Datatypes.S k) m1 v1 m' v' Wes) as (B1 & B2 & B3); auto; try lia.
      { replace (nv + Datatypes.S k)%nat with (Datatypes.S (nv + k)) by lia. exact A1. }
      { replace (nv + Datatypes.S k)%nat with (Datatypes.S (nv + k)) by lia. exact A2. }
      change (n_vde []) with 0%nat. rewrite Nat.add_0_r.
      assert (R : row tot m' (nv + k) x + v' (nv + k)%nat = row tot m1 (nv + k) x + v1 (nv + k)%nat).
      { rewrite B2 by lia. f_equal. unfold row. apply rsum_ext. intros j _. rewrite B3 by lia. reflexivity. }
      rewrite R. split.
      + intros X0 SA NH. apply (A6 x); auto.
      + intros. eapply A7; eauto.
    - inversion W as [|? ? We Wes]; subst. rewrite n_vde_cons in K.
      rewrite (n_vde_cons a pre). destruct (is_vde a) eqn:Ea.
      + destruct (stamp_vde nv all k (m, v) a) as [[m1 v1]|] eqn:ES; [|discriminate]. cbn [bindr] in H.
        destruct (stamp_vde_spec a k m v m1 v1 We Ea) as (A1 & A2 & _); auto; [lia|].
        replace (k + (1 + n_vde pre))%nat with (Datatypes.S k + n_vde pre)%nat by lia.
        eapply IH; eauto; try lia.
        { replace (nv + Datatypes.S k)%nat with (Datatypes.S (nv + k)) by lia. exact A1. }
        { replace (nv + Datatypes.S k)%nat with (Datatypes.S (nv + k)) by lia. exact A2. }
      + apply IH with (m := m) (v := v) (post := post); auto.
  Qed.

  (** ** Pass 3 *)
  Lemma pass3_spec : forall es m m', wf_circ nv es -> pass3 nv all es m = Ok m' ->
    (forall n, row tot m' n x = row tot m n x + lsum (c3 n) es) /\
    (forall i j, (nv <= i)%nat -> m' i j = m i j).
  Proof.
    induction es as [|e es IH]; intros m m' W H; simpl in *.
    - inversion H; subst. split; auto. intros; lra.
    - inversion W as [|? ? We Wes]; subst. destruct We as (W1 & W2 & _).
      destruct e; simpl in *;
        try (destruct (IH m m' Wes H) as [A B]; split; auto; intros n; rewrite A; lra).
      destruct (vde_index all src) as [j|] eqn:Ej; [|discriminate]. simpl in H.
      destruct (IH _ m' Wes H) as [A B]. pose proof (vde_index_lt _ _ _ Ej) as Hj. split.
      + intros n. rewrite A. rewrite !row_madd by (unfold tot; lia). lra.
      + intros i j' Hi. rewrite B by auto. rewrite !madd_other by lia. reflexivity.
  Qed.
End Fixed.

(** ** The assembled system *)
Lemma generate_inv : forall nv es m N, generate_mna_and_N nv es = Ok (m, N) ->
  exists m2, pass2 nv es es 0 (fold_left stamp1 es (mzero, vzero)) = Ok (m2, N) /\
             pass3 nv es es m2 = Ok m.
Proof.
  intros nv es m N H. unfold generate_mna_and_N in H.
  destruct (pass2 _ _ _ _ _) as [[m2 N2]|] eqn:E; [|discriminate]. simpl in H.
  destruct (pass3 nv es es m2) as [m3|] eqn:E3; [|discriminate]. simpl in H.
  inversion H; subst. eauto.
Qed.

Lemma mzero_inside : forall b, inside mzero b.
Proof. intros b i j _. reflexivity. Qed.

Lemma vzero_inside : forall b, vinside vzero b.
Proof. intros b i _. reflexivity. Qed.

Lemma node_row_is_kcl : forall nv es m N x n, wf_circ nv es ->
  generate_mna_and_N nv es = Ok (m, N) -> (n < nv)%nat ->
  row (nv + n_vde es) m n x + N n = kcl nv es es 0 n x.
Proof.
  intros nv es m N x n W H Hn.
  destruct (generate_inv _ _ _ _ H) as [m2 [E2 E3]].
  destruct (pass1_spec nv es x es (mzero, vzero) n W) as (A1 & A2 & A3);
    [apply mzero_inside|apply vzero_inside|].
  destruct (fold_left stamp1 es (mzero, vzero)) as [m1 v1]. simpl in A1, A2, A3.
  destruct (pass2_spec nv es x es 0 m1 v1 m2 N W) as (B1 & B2 & _); auto; try lia.
  { rewrite Nat.add_0_r. exact A1. }
  { rewrite Nat.add_0_r. exact A2. }
  destruct (pass3_spec nv es x es m2 m W E3) as [C1 _].
  rewrite C1, B1, B2, kcl_split by lia.
  assert (Z : row (nv + n_vde es) mzero n x = 0).
  { unfold row. apply rsum_0. intros. unfold mzero. lra. }
  rewrite Z in A3. unfold vzero in A3. lra.
Qed.

Lemma own_row : forall nv pre e post m N x, wf_circ nv (pre ++ e :: post) ->
  generate_mna_and_N nv (pre ++ e :: post) = Ok (m, N) -> is_vde e = true ->
  let es := pre ++ e :: post in let r := (nv + n_vde pre)%nat in
  (x 0%nat = 0 -> sense_apart e -> (forall id n1 n2 src a, e <> EH id n1 n2 src a) ->
     row (nv + n_vde es) m r x + N r = branch_law nv es x e) /\
  (forall id n1 n2 src a, e = EH id n1 n2 src a ->
     exists j, vde_index es src = Ok j /\ (j <= n_vde pre)%nat /\
     row (nv + n_vde es) m r x + N r = x n1 - x n2 + a * x (nv + j)%nat).
Proof.
  intros nv pre e post m N x W H Ev es r. fold es in H, W.
  destruct (generate_inv _ _ _ _ H) as [m2 [E2 E3]].
  destruct (pass1_spec nv es x es (mzero, vzero) 0 W) as (A1 & A2 & A3);
    [apply mzero_inside|apply vzero_inside|].
  destruct (fold_left stamp1 es (mzero, vzero)) as [m1 v1]. simpl in A1, A2, A3.
  assert (P := pass2_own nv es x pre e post 0 m1 v1 m2 N W Ev eq_refl).
  rewrite Nat.add_0_r in P. specialize (P A1 A2 E2). simpl in P. fold r in P.
  destruct (pass3_spec nv es x es m2 m W E3) as [_ C2].
  assert (R : row (nv + n_vde es) m r x = row (nv + n_vde es) m2 r x).
  { unfold row. apply rsum_ext. intros j _. rewrite C2; auto. unfold r. lia. }
  rewrite R. exact P.
Qed.

(** KCL sums to zero over all the nodes, ground included. *)
Lemma kcl_total : forall nv all es k x, wf_circ nv es ->
  rsum nv (fun n => kcl nv all es k n x) = 0.
Proof.
  intros nv all es. induction es as [|e es IH]; intros k x W; simpl.
  - apply rsum_0; auto.
  - inversion W as [|? ? We Wes]; subst. destruct We as (W1 & W2 & _).
    rewrite rsum_plus, IH, rsum_minus by auto.
    set (i := dc_current nv all x k e).
    assert (S : forall a, (a < nv)%nat -> rsum nv (fun n => if (a =? n)%nat then i else 0) = i).
    { intros a Ha. transitivity (rsum nv (fun j => if (j =? a)%nat then i else 0)).
      - apply rsum_ext. intros j _. rewrite Nat.eqb_sym. reflexivity.
      - apply (rsum_single nv a (fun _ => i) Ha). }
    rewrite !S by auto. lra.
Qed.

Lemma row_reduce : forall n m i y,
  row n (reduce_mat m) i y = row (S n) m (S i) (fun j => match j with O => 0 | S j' => y j' end).
Proof.
  intros. unfold row. rewrite rsum_shift. unfold reduce_mat.
  rewrite Rmult_0_r, Rplus_0_l. reflexivity.
Qed.

Lemma gmin_loop_val : forall n g m i j,
  gmin_loop n g m i j = if (i =? j)%nat && (i <? n)%nat then g else m i j.
Proof.
  induction n as [|n IH]; intros g m i j; simpl.
  - rewrite andb_false_r. reflexivity.
  - unfold mset. rewrite IH.
    destruct (Nat.eqb_spec i n), (Nat.eqb_spec j n), (Nat.eqb_spec i j),
      (Nat.ltb_spec i n), (Nat.ltb_spec i (S n)); simpl; auto; try lia.
Qed.
