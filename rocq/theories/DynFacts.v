(** Proofs about the dynamic matrix. *)
From Coq Require Import Reals String Ascii List Bool Arith Lia Lra.
From Verif Require Import Base BaseFacts Nodes Circuit CircuitFacts Rsum Mna MnaSpec MnaFacts.
Import ListNotations.
Open Scope R_scope.

Lemma madd_val : forall m a b v i j, madd m a b v i j = m i j + dlt i a * dlt j b * v.
Proof.
  intros. unfold madd, mset, dlt.
  destruct (Nat.eqb_spec i a), (Nat.eqb_spec j b); simpl; subst; lra.
Qed.

Lemma mset_val : forall m a b v i j, m a b = 0 -> mset m a b v i j = m i j + dlt i a * dlt j b * v.
Proof.
  intros. unfold mset, dlt.
  destruct (Nat.eqb_spec i a), (Nat.eqb_spec j b); simpl; subst; lra.
Qed.

(** ** The voltage-defined elements by number *)
Definition vdes (es : list lelem) : list lelem := filter is_vde es.

Lemma vde_index_app : forall es s k r, find_vde_index_from (map as_celem es) s k = Ok r ->
  exists e, nth_error (vdes es) (r - k) = Some e /\ upper (lid e) = upper s /\ (k <= r)%nat.
Proof.
  induction es as [|e es IH]; intros s k r; simpl; [discriminate|].
  destruct (is_vde e) eqn:Ev; simpl.
  - destruct (String.eqb_spec (upper (lid e)) (upper s)) as [E|E].
    + intros H; inversion H; subst. rewrite Nat.sub_diag. simpl. eauto.
    + intros H. destruct (IH _ _ _ H) as (e' & H1 & H2 & H3). exists e'.
      replace (r - k)%nat with (S (r - S k)) by lia. simpl. repeat split; auto. lia.
  - intros H. apply IH; exact H.
Qed.

Lemma vde_index_nth : forall es s r, vde_index es s = Ok r ->
  exists e, nth_error (vdes es) r = Some e /\ upper (lid e) = upper s.
Proof.
  intros es s r H. destruct (vde_index_app es s 0 r H) as (e & H1 & H2 & _).
  rewrite Nat.sub_0_r in H1. eauto.
Qed.

Lemma nth_vde_index_from : forall es s k r e,
  NoDup (map (fun e => upper (lid e)) (vdes es)) ->
  nth_error (vdes es) r = Some e -> upper (lid e) = upper s ->
  find_vde_index_from (map as_celem es) s k = Ok (k + r)%nat.
Proof.
  induction es as [|a es IH]; intros s k r e ND H E; simpl in *; [destruct r; discriminate|].
  destruct (is_vde a) eqn:Ea; simpl in *.
  - inversion ND as [|? ? Hn ND']; subst. destruct r as [|r]; simpl in H.
    + inversion H; subst. rewrite E, String.eqb_refl. f_equal. lia.
    + destruct (String.eqb_spec (upper (lid a)) (upper s)) as [E'|E'].
      * exfalso. apply Hn. rewrite E', <- E.
        apply (in_map (fun e => upper (lid e))). eapply nth_error_In; eauto.
      * rewrite (IH s (S k) r e); auto. f_equal. lia.
  - apply (IH s k r e); auto.
Qed.

Lemma nth_vde_index : forall es s r e,
  NoDup (map (fun e => upper (lid e)) (vdes es)) ->
  nth_error (vdes es) r = Some e -> upper (lid e) = upper s -> vde_index es s = Ok r.
Proof. intros. unfold vde_index. rewrite (nth_vde_index_from es s 0 r e); auto. Qed.

Lemma nth_unique : forall es r r' e e',
  NoDup (map (fun e => upper (lid e)) (vdes es)) ->
  nth_error (vdes es) r = Some e -> nth_error (vdes es) r' = Some e' ->
  upper (lid e) = upper (lid e') -> r = r'.
Proof.
  intros es r r' e e' ND H H' E.
  pose proof (nth_vde_index es (lid e') r e ND H E) as A.
  pose proof (nth_vde_index es (lid e') r' e' ND H' eq_refl) as B. congruence.
Qed.

(** ** Well-formed couplings: exact ids of two different inductors *)
Definition is_inductor (e : lelem) : bool := match e with EL _ _ _ _ => true | _ => false end.

Definition wf_coupling (all : list lelem) (e : lelem) : Prop :=
  match e with
  | EK _ l1 l2 _ _ =>
      (exists e1, In e1 all /\ is_inductor e1 = true /\ lid e1 = l1) /\
      (exists e2, In e2 all /\ is_inductor e2 = true /\ lid e2 = l2) /\
      upper l1 <> upper l2
  | _ => True
  end.

(** Current derivative of the voltage-defined element called [s]. *)
Definition cur (nv : nat) (all : list lelem) (y : vec) (s : string) : R :=
  match vde_index all s with Ok j => y (nv + j)%nat | Err _ => 0 end.

(** Sum over the couplings of [M * dI/dt] of the other winding. *)
Definition flux (nv : nat) (all : list lelem) (y : vec) (id : string) : R :=
  lsum (fun e => match e with
                 | EK _ l1 l2 _ m => if String.eqb l1 id then m * cur nv all y l2
                                     else if String.eqb l2 id then m * cur nv all y l1 else 0
                 | _ => 0 end) all.

Section Fixed.
  Variables (nv : nat) (all : list lelem).
  Hypothesis ND : NoDup (map (fun e => upper (lid e)) (vdes all)).
  Hypothesis WK : Forall (wf_coupling all) all.
  Hypothesis WC : wf_circ nv all.

  Lemma inductor_index : forall e, In e all -> is_inductor e = true ->
    exists j, vde_index all (lid e) = Ok j /\ nth_error (vdes all) j = Some e.
  Proof.
    intros e He Hi. assert (Hv : In e (vdes all)).
    { apply filter_In. split; auto. destruct e; simpl in *; auto; discriminate. }
    apply In_nth_error in Hv. destruct Hv as [j Hj]. exists j. split; auto.
    eapply nth_vde_index; eauto.
  Qed.

  (** Entry of the coupling sum. *)
  Definition cpl (id : string) (j : nat) : R := flux nv all (dlt j) id.

  Lemma add_couplings_spec : forall k id es d,
    Forall (wf_coupling all) es ->
    exists d', add_couplings nv k all id (couplings_of es id) d = Ok d' /\
      forall i j, d' i j = d i j - dlt i (nv + k) *
        lsum (fun e => match e with
                 | EK _ l1 l2 _ m => if String.eqb l1 id then m * cur nv all (dlt j) l2
                                     else if String.eqb l2 id then m * cur nv all (dlt j) l1 else 0
                 | _ => 0 end) es.
  Proof.
    intros k id. induction es as [|e es IH]; intros d W; simpl.
    - exists d. split; auto. intros; lra.
    - inversion W as [|? ? We Wes]; subst.
      destruct e; simpl; try (destruct (IH d Wes) as (d' & H1 & H2); exists d'; split; auto;
                              intros i j; rewrite H2; lra).
      destruct We as ((e1 & I1 & T1 & L1) & (e2 & I2 & T2 & L2) & NE).
      destruct (inductor_index e1 I1 T1) as (j1 & J1 & _). rewrite L1 in J1.
      destruct (inductor_index e2 I2 T2) as (j2 & J2 & _). rewrite L2 in J2.
      destruct (String.eqb_spec l1 id) as [E1|E1].
      + simpl. rewrite <- E1, String.eqb_refl. simpl. rewrite J2. simpl.
        rewrite E1. destruct (IH (madd d (nv + k) (nv + j2) (- m)) Wes) as (d' & H1 & H2).
        exists d'. split; auto. intros i j. rewrite H2, madd_val. unfold cur.
        rewrite J2. rewrite (dlt_sym j). 
        rewrite (dlt_sym (nv + j2) j). lra.
      + destruct (String.eqb_spec l2 id) as [E2|E2]; simpl.
        * destruct (String.eqb_spec (upper id) (upper l1)) as [E3|E3]; [congruence|].
          destruct (String.eqb_spec (upper id) (upper l2)) as [E4|E4]; [|congruence].
          simpl. rewrite J1. simpl.
          destruct (IH (madd d (nv + k) (nv + j1) (- m)) Wes) as (d' & H1 & H2).
          exists d'. split; auto. intros i j. rewrite H2, madd_val. unfold cur. rewrite J1.
          lra.
        * destruct (IH d Wes) as (d' & H1 & H2). exists d'. split; auto.
          intros i j. rewrite H2. lra.
  Qed.

  Definition cap_entry (i j : nat) (e : lelem) : R :=
    match e with
    | EC _ n1 n2 c => c * ((dlt i n1 - dlt i n2) * (dlt j n1 - dlt j n2))
    | _ => 0
    end.

  Fixpoint ind_entry (i j k : nat) (es : list lelem) : R :=
    match es with
    | [] => 0
    | e :: es' =>
        (match e with
         | EL id _ _ l => dlt i (nv + k) * (- l * dlt j (nv + k) - cpl id j)
         | _ => 0 end)
        + ind_entry i j (if is_vde e then S k else k) es'
    end.

  Lemma dyn_loop_spec : forall es k d, wf_circ nv es ->
    (forall i j, (nv + k <= i)%nat -> d i j = 0) ->
    exists d', dyn_loop nv all es k d = Ok d' /\
      forall i j, d' i j = d i j + lsum (cap_entry i j) es + ind_entry i j k es.
  Proof.
    induction es as [|e es IH]; intros k d W Z.
    - exists d. split; auto. intros; simpl; lra.
    - inversion W as [|? ? We Wes]; subst. destruct We as (W1 & W2 & _).
      destruct e; simpl in W1, W2;
        try (cbn [dyn_loop is_vde]; destruct (IH k d Wes Z) as (d' & H1 & H2);
             exists d'; split; [exact H1|]; intros i j; rewrite H2; simpl; lra);
        try (cbn [dyn_loop is_vde]; destruct (IH (S k) d Wes) as (d' & H1 & H2);
             [intros i j Hi; apply Z; lia|];
             exists d'; split; [exact H1|]; intros i j; rewrite H2; simpl; lra).
      + (* capacitor *)
        cbn [dyn_loop].
        destruct (IH k (madd (madd (madd (madd d n1 n1 c) n1 n2 (- c)) n2 n2 c) n2 n1 (- c)) Wes)
          as (d' & H1 & H2).
        { intros i j Hi. rewrite !madd_other by lia. apply Z; lia. }
        exists d'. split; auto. intros i j. rewrite H2. simpl.
        rewrite !madd_val. lra.
      + (* inductor *)
        cbn [dyn_loop].
        destruct (add_couplings_spec k id all (mset d (nv + k) (nv + k) (- l)) WK) as (d1 & A1 & A2).
        rewrite A1. cbn [bindr].
        destruct (IH (S k) d1 Wes) as (d' & H1 & H2).
        { intros i j Hi. rewrite A2, (dlt_other i (nv + k)) by lia.
          rewrite mset_other by lia. rewrite Z by lia. lra. }
        exists d'. split; auto. intros i j. rewrite H2, A2. simpl.
        rewrite mset_val by (apply Z; lia). unfold cpl, flux. lra.
  Qed.

  Lemma ind_entry_nth : forall es k i j, 
    ind_entry i j k es =
    if (i <? nv + k)%nat then 0
    else match nth_error (vdes es) (i - (nv + k)) with
         | Some (EL id _ _ l) => - l * dlt i j - cpl id j
         | _ => 0
         end.
  Proof.
    induction es as [|e es IH]; intros k i j; simpl.
    - destruct (i <? nv + k)%nat; auto. destruct (i - (nv + k))%nat; reflexivity.
    - rewrite IH. clear IH. destruct (is_vde e) eqn:Ev.
      + destruct (Nat.ltb_spec i (nv + S k)), (Nat.ltb_spec i (nv + k)).
        * destruct e; try lra. rewrite dlt_other by lia. lra.
        * assert (E : i = (nv + k)%nat) by lia. rewrite <- E, Nat.sub_diag. simpl.
          destruct e; try lra. rewrite dlt_same, (dlt_sym j i). lra.
        * lia.
        * assert (E : (i - (nv + k) = S (i - (nv + S k)))%nat) by lia. rewrite E. simpl.
          destruct e; try lra. rewrite dlt_other by lia. lra.
      + destruct e; simpl in Ev; try discriminate; destruct (i <? nv + k)%nat; lra.
  Qed.

  Definition raw_entry (i j : nat) : R := lsum (cap_entry i j) all + ind_entry i j 0 all.

  Lemma cpl_low : forall id j, (j < nv)%nat -> cpl id j = 0.
  Proof.
    intros id j Hj. unfold cpl, flux. apply lsum_0. intros e _.
    assert (C : forall s, cur nv all (dlt j) s = 0).
    { intros s. unfold cur. destruct (vde_index all s); auto. apply dlt_other. lia. }
    destruct e; auto. destruct (l1 =? id)%string; [rewrite C; lra|].
    destruct (l2 =? id)%string; [rewrite C; lra|reflexivity].
  Qed.

  Lemma cap_entry_high : forall i j es, wf_circ nv es -> (nv <= i)%nat -> lsum (cap_entry i j) es = 0.
  Proof.
    intros i j es W Hi. apply lsum_0. intros e He.
    unfold wf_circ in W. rewrite Forall_forall in W. destruct (W e He) as (W1 & W2 & _).
    destruct e; simpl in *; auto. rewrite !(dlt_other i) by lia. lra.
  Qed.

  Lemma cap_entry_sym : forall i j es, lsum (cap_entry i j) es = lsum (cap_entry j i) es.
  Proof. intros. apply lsum_ext. intros e _. destruct e; simpl; lra. Qed.

  (** The mutual term between the inductors [ia] (number [a]) and [ib]
      (number [b]) written symmetrically. *)
  Lemma cpl_sym_form : forall a b ea eb,
    nth_error (vdes all) a = Some ea -> nth_error (vdes all) b = Some eb ->
    is_inductor ea = true ->
    cpl (lid ea) (nv + b) =
    lsum (fun e => match e with
            | EK _ l1 l2 _ m =>
                if (String.eqb l1 (lid ea) && String.eqb l2 (lid eb))
                   || (String.eqb l2 (lid ea) && String.eqb l1 (lid eb))
                then m else 0
            | _ => 0 end) all.
  Proof.
    intros a b ea eb Ha Hb Ia. unfold cpl, flux. apply lsum_ext. intros e He.
    destruct e; auto. rewrite Forall_forall in WK.
    destruct (WK _ He) as ((e1 & I1 & T1 & L1) & (e2 & I2 & T2 & L2) & NE).
    destruct (inductor_index e1 I1 T1) as (j1 & J1 & N1). rewrite L1 in J1.
    destruct (inductor_index e2 I2 T2) as (j2 & J2 & N2). rewrite L2 in J2.
    assert (C : forall ex jx lx, vde_index all lx = Ok jx -> nth_error (vdes all) jx = Some ex ->
              lid ex = lx -> cur nv all (dlt (nv + b)) lx = if String.eqb lx (lid eb) then 1 else 0).
    { intros ex jx lx J N L. unfold cur. rewrite J. subst lx.
      destruct (String.eqb_spec (lid ex) (lid eb)) as [E|E].
      - rewrite (nth_unique all jx b ex eb ND N Hb); [apply dlt_same|congruence].
      - apply dlt_other. intros Eb. assert (b = jx) by lia. subst. congruence. }
    destruct (String.eqb_spec l1 (lid ea)) as [E1|E1]; simpl.
    - rewrite (C e2 j2 l2 J2 N2 L2).
      assert (E2 : (l2 =? lid ea)%string = false).
      { apply String.eqb_neq. intros E2. apply NE. congruence. }
      rewrite E2. simpl. rewrite orb_false_r. destruct (l2 =? lid eb)%string; lra.
    - destruct (String.eqb_spec l2 (lid ea)) as [E2|E2]; simpl.
      + rewrite (C e1 j1 l1 J1 N1 L1). destruct (l1 =? lid eb)%string; lra.
      + reflexivity.
  Qed.

  (** A coupling never reaches an element that is not an inductor. *)
  Lemma cpl_non_inductor : forall id b eb,
    nth_error (vdes all) b = Some eb -> is_inductor eb = false -> cpl id (nv + b) = 0.
  Proof.
    intros id b eb Hb Ib. unfold cpl, flux. apply lsum_0. intros e He.
    destruct e; auto. rewrite Forall_forall in WK.
    destruct (WK _ He) as ((e1 & I1 & T1 & L1) & (e2 & I2 & T2 & L2) & NE).
    destruct (inductor_index e1 I1 T1) as (j1 & J1 & N1). rewrite L1 in J1.
    destruct (inductor_index e2 I2 T2) as (j2 & J2 & N2). rewrite L2 in J2.
    assert (C1 : cur nv all (dlt (nv + b)) l1 = 0).
    { unfold cur. rewrite J1. apply dlt_other. intros E. assert (b = j1) by lia. congruence. }
    assert (C2 : cur nv all (dlt (nv + b)) l2 = 0).
    { unfold cur. rewrite J2. apply dlt_other. intros E. assert (b = j2) by lia. congruence. }
    rewrite C1, C2. destruct (l1 =? id)%string; [lra|]. destruct (l2 =? id)%string; lra.
  Qed.

  Lemma cpl_out : forall id j, nth_error (vdes all) (j - nv) = None -> cpl id j = 0.
  Proof.
    intros id j H. unfold cpl, flux. apply lsum_0. intros e He.
    assert (C : forall s, cur nv all (dlt j) s = 0).
    { intros s. unfold cur. destruct (vde_index all s) eqn:E; auto.
      apply dlt_other. intros Ej. apply vde_index_nth in E. destruct E as (e' & E & _).
      subst j. replace (nv + a - nv)%nat with a in H by lia. congruence. }
    destruct e; auto. destruct (l1 =? id)%string; [rewrite C; lra|].
    destruct (l2 =? id)%string; [rewrite C; lra|reflexivity].
  Qed.

  Lemma ind_entry_sym : forall i j, ind_entry i j 0 all = ind_entry j i 0 all.
  Proof.
    assert (HALF : forall i j, (i < nv)%nat -> ind_entry i j 0 all = ind_entry j i 0 all).
    { intros i j Hi. rewrite !ind_entry_nth, !Nat.add_0_r.
      destruct (Nat.ltb_spec i nv); [|lia].
      destruct (Nat.ltb_spec j nv); [reflexivity|].
      destruct (nth_error (vdes all) (j - nv)) as [[]|]; auto.
      rewrite cpl_low, dlt_other by lia. lra. }
    intros i j. destruct (lt_dec i nv) as [Hi|Hi]; [apply HALF; auto|].
    destruct (lt_dec j nv) as [Hj|Hj]; [symmetry; apply HALF; auto|].
    rewrite !ind_entry_nth, !Nat.add_0_r.
    destruct (Nat.ltb_spec i nv); [lia|]. destruct (Nat.ltb_spec j nv); [lia|].
    destruct (nth_error (vdes all) (i - nv)) as [ea|] eqn:Ea;
    destruct (nth_error (vdes all) (j - nv)) as [eb|] eqn:Eb.
    - destruct (is_inductor ea) eqn:Ia, (is_inductor eb) eqn:Ib.
      + assert (Fa := cpl_sym_form _ _ _ _ Ea Eb Ia).
        assert (Fb := cpl_sym_form _ _ _ _ Eb Ea Ib).
        replace (nv + (j - nv))%nat with j in Fa by lia.
        replace (nv + (i - nv))%nat with i in Fb by lia.
        assert (FF : cpl (lid ea) j = cpl (lid eb) i).
        { rewrite Fa, Fb. apply lsum_ext. intros e _. destruct e; auto.
          rewrite orb_comm, (andb_comm (l2 =? lid ea)%string), (andb_comm (l1 =? lid ea)%string).
          reflexivity. }
        destruct (Nat.eq_dec i j) as [->|Nij].
        * assert (ea = eb) by congruence. subst. reflexivity.
        * rewrite (dlt_other i j), (dlt_other j i) by lia.
          destruct ea; simpl in Ia; try discriminate. destruct eb; simpl in Ib; try discriminate.
          simpl in FF. rewrite FF. lra.
      + assert (Nij : i <> j) by (intros ->; congruence).
        destruct ea; simpl in Ia; try discriminate.
        pose proof (cpl_non_inductor id _ _ Eb Ib) as Z0.
        replace (nv + (j - nv))%nat with j in Z0 by lia. rewrite Z0, (dlt_other i j) by auto.
        destruct eb; simpl in Ib; try discriminate; lra.
      + assert (Nij : i <> j) by (intros ->; congruence).
        destruct eb; simpl in Ib; try discriminate.
        pose proof (cpl_non_inductor id _ _ Ea Ia) as Z0.
        replace (nv + (i - nv))%nat with i in Z0 by lia. rewrite Z0, (dlt_other j i) by auto.
        destruct ea; simpl in Ia; try discriminate; lra.
      + destruct ea; simpl in Ia; try discriminate; destruct eb; simpl in Ib; try discriminate; reflexivity.
    - destruct ea; auto. rewrite cpl_out by auto. rewrite dlt_other; [lra|]. intros ->; congruence.
    - destruct eb; auto. rewrite cpl_out by auto. rewrite dlt_other; [lra|]. intros ->; congruence.
    - reflexivity.
  Qed.

  Lemma dyn_ok : exists d, dyn_loop nv all all 0 mzero = Ok d /\ forall i j, d i j = raw_entry i j.
  Proof.
    destruct (dyn_loop_spec all 0 mzero WC) as (d & H1 & H2); [reflexivity|].
    exists d. split; auto. intros i j. rewrite H2. unfold raw_entry, mzero. lra.
  Qed.

  Lemma raw_sym : forall i j, raw_entry i j = raw_entry j i.
  Proof. intros. unfold raw_entry. rewrite cap_entry_sym, ind_entry_sym. reflexivity. Qed.

  Lemma cmin_sym : forall i j, cmin_mat nv i j = cmin_mat nv j i.
  Proof.
    intros. unfold cmin_mat.
    destruct (Nat.eqb_spec i 0), (Nat.eqb_spec j 0); simpl; auto. apply dlt_sym.
  Qed.

  (** Rows *)
  Let tot := (nv + n_vde all)%nat.

  Lemma cap_row : forall es n y, wf_circ nv es ->
    rsum tot (fun j => lsum (cap_entry n j) es * y j) = dyn_kcl es n y.
  Proof.
    intros es n y W.
    transitivity (rsum tot (fun j => lsum (fun e => cap_entry n j e * y j) es)).
    { apply rsum_ext. intros j _. rewrite (Rmult_comm (lsum _ _)), <- lsum_scal.
      apply lsum_ext. intros; lra. }
    rewrite rsum_lsum. unfold dyn_kcl. apply lsum_ext. intros e He.
    unfold wf_circ in W. rewrite Forall_forall in W. destruct (W e He) as (W1 & W2 & _).
    destruct e; simpl in *; try (rewrite rsum_0; [lra|intros; lra]).
    transitivity (rsum tot (fun j => c * (dlt n n1 - dlt n n2) * (dlt j n1 * y j - dlt j n2 * y j))).
    { apply rsum_ext. intros; lra. }
    rewrite rsum_scal, rsum_minus, !rsum_dlt by (unfold tot; lia). lra.
  Qed.

  Lemma cpl_row : forall id y, rsum tot (fun j => cpl id j * y j) = flux nv all y id.
  Proof.
    intros id y.
    assert (C : forall s, rsum tot (fun j => cur nv all (dlt j) s * y j) = cur nv all y s).
    { intros s. unfold cur. destruct (vde_index all s) as [r|] eqn:E.
      - rewrite rsum_dlt; auto. apply vde_index_lt in E. unfold tot. lia.
      - apply rsum_0. intros; lra. }
    unfold cpl, flux.
    transitivity (rsum tot (fun j => lsum (fun e => match e with
       | EK _ l1 l2 _ m => if String.eqb l1 id then m * (cur nv all (dlt j) l2 * y j)
                           else if String.eqb l2 id then m * (cur nv all (dlt j) l1 * y j) else 0
       | _ => 0 end) all)).
    { apply rsum_ext. intros j _. rewrite (Rmult_comm (lsum _ _)), <- lsum_scal.
      apply lsum_ext. intros e _. destruct e; try lra.
      destruct (l1 =? id)%string; [lra|]. destruct (l2 =? id)%string; lra. }
    rewrite rsum_lsum. apply lsum_ext. intros e _.
    destruct e; try (apply rsum_0; intros; lra).
    destruct (l1 =? id)%string; [rewrite rsum_scal, C; reflexivity|].
    destruct (l2 =? id)%string; [rewrite rsum_scal, C; reflexivity|].
    apply rsum_0; intros; lra.
  Qed.

  Lemma raw_node_row : forall n y, (n < nv)%nat ->
    row tot raw_entry n y = dyn_kcl all n y.
  Proof.
    intros n y Hn. unfold row. rewrite <- (cap_row all n y WC). apply rsum_ext. intros j _.
    unfold raw_entry. rewrite ind_entry_nth, Nat.add_0_r.
    destruct (Nat.ltb_spec n nv); [lra|lia].
  Qed.

  Lemma raw_ind_row : forall k id n1 n2 l y, nth_error (vdes all) k = Some (EL id n1 n2 l) ->
    row tot raw_entry (nv + k) y = - l * y (nv + k)%nat - flux nv all y id.
  Proof.
    intros k id n1 n2 l y H. unfold row.
    assert (Hk : (nv + k < tot)%nat).
    { unfold tot, n_vde. fold (vdes all).
      assert (k < length (vdes all))%nat by (apply nth_error_Some; congruence). lia. }
    rewrite <- (cpl_row id y).
    transitivity (rsum tot (fun j => - l * (dlt j (nv + k) * y j) - cpl id j * y j)).
    { apply rsum_ext. intros j _. unfold raw_entry.
      rewrite cap_entry_high by (auto; lia).
      rewrite ind_entry_nth, Nat.add_0_r. destruct (Nat.ltb_spec (nv + k) nv); [lia|].
      replace (nv + k - nv)%nat with k by lia. rewrite H, (dlt_sym (nv + k) j). lra. }
    rewrite rsum_minus, rsum_scal, rsum_dlt by auto. reflexivity.
  Qed.

  Lemma raw_other_row : forall k e y, nth_error (vdes all) k = Some e -> is_inductor e = false ->
    row tot raw_entry (nv + k) y = 0.
  Proof.
    intros k e y H Hi. unfold row. apply rsum_0. intros j _. unfold raw_entry.
    rewrite cap_entry_high by (auto; lia).
    rewrite ind_entry_nth, Nat.add_0_r. destruct (Nat.ltb_spec (nv + k) nv); [lia|].
    replace (nv + k - nv)%nat with k by lia. rewrite H.
    destruct e; simpl in Hi; try discriminate; lra.
  Qed.
End Fixed.

Lemma ac_loop_eq : forall nv all es k d, ac_loop nv all es k d = dyn_loop nv all es k d.
Proof.
  induction es as [|e es IH]; intros k d; simpl; [reflexivity|].
  destruct e; try apply IH. destruct (add_couplings _ _ _ _ _ _); [apply IH|reflexivity].
Qed.
