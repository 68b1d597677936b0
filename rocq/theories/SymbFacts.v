(** Proofs about the symbolic formulation. *)
From Coq Require Import Reals String Ascii List Bool Arith Lia Lra.
From Verif Require Import Base BaseFacts Str Nodes Circuit CircuitFacts Rsum Mna MnaSpec MnaFacts DynFacts Symb.
Import ListNotations.
Open Scope R_scope.

(** The parameter of an element, the [td] flag, and whether the element is
    part of the system at all. *)
Definition val (e : lelem) : R :=
  match e with
  | ER _ _ _ x | EC _ _ _ x | EL _ _ _ x | EK _ _ _ _ x | EV _ _ _ x _ | EI _ _ _ x _
  | EE _ _ _ _ _ x | EG _ _ _ _ _ x | EF _ _ _ _ x | EH _ _ _ _ x => x
  | ENL _ _ _ => 0
  end.
Definition time_dependent (e : lelem) : bool :=
  match e with EV _ _ _ _ td | EI _ _ _ _ td => td | _ => false end.
Definition used (ac : bool) (e : lelem) : bool :=
  match e with EC _ _ _ _ | EL _ _ _ _ | EK _ _ _ _ _ => ac | ENL _ _ _ => false | _ => true end.

Ltac fin := first [lra | rewrite Rplus_0_l; reflexivity | f_equal; lra].

Section Agree.
  Variables (gs ac : bool) (s : R) (is_symbolic : lelem -> bool) (subs : sdict) (env : sym -> R).
  Variables (nv : nat) (all : list lelem).
  Hypothesis HV : forall e, In e all -> used ac e = true -> value_of is_symbolic subs env e = Ok (val e).
  Hypothesis HG : forall id n1 n2 r, In (ER id n1 n2 r) all ->
    conductance gs is_symbolic subs env all (ER id n1 n2 r) = Ok (1 / r).
  Hypothesis TD : forall e, In e all -> time_dependent e = false.
  Hypothesis ND : NoDup (map (fun e => upper (lid e)) (vdes all)).
  Hypothesis WK : Forall (wf_coupling all) all.
  Hypothesis WC : wf_circ nv all.

  Let t := if ac then s else 0.

  Lemma y_pass1_ok : forall es (m : mat) (v : vec) (ms : mat) (vs : vec) (q : mat), incl es all -> wf_circ nv es ->
    (forall i j, ms i j = m i j + t * q i j) -> (forall i, vs i = v i) ->
    inside m nv -> vinside v nv -> inside q nv ->
    exists ms' vs', y_pass1 gs ac s is_symbolic subs env all es (ms, vs) = Ok (ms', vs') /\
      (forall i j, ms' i j = fst (fold_left stamp1 es (m, v)) i j + t * (q i j + lsum (cap_entry i j) es)) /\
      (forall i, vs' i = snd (fold_left stamp1 es (m, v)) i) /\
      inside (fst (fold_left stamp1 es (m, v))) nv /\ vinside (snd (fold_left stamp1 es (m, v))) nv.
  Proof.
    induction es as [|e es IH]; intros m v ms vs q INC W HM HVs Im Iv Iq.
    - exists ms, vs. simpl. repeat split; auto. intros i j. rewrite HM. lra.
    - inversion W as [|? ? We Wes]; subst. destruct We as (W1 & W2 & W3 & _).
      assert (He : In e all) by (apply INC; left; reflexivity).
      assert (INC' : incl es all) by (intros x Hx; apply INC; right; exact Hx).
      destruct e; cbn [y_pass1 y_stamp1 fold_left stamp1]; simpl in W1, W2;
        try (cbn [bindr]; destruct (IH m v ms vs q INC' Wes HM HVs Im Iv Iq) as (ms' & vs' & A1 & A2 & A3 & A4 & A5);
             exists ms', vs'; repeat split; auto; intros i j; rewrite A2; cbn [lsum cap_entry]; fin).
      + (* R *)
        rewrite (HG _ _ _ _ He). cbn [bindr].
        match goal with |- context [y_pass1 _ _ _ _ _ _ _ _ (?ms0, ?vs0)] =>
          match goal with |- context [fold_left stamp1 _ (?m0, ?v0)] =>
            destruct (IH m0 v0 ms0 vs0 q INC' Wes) as (ms' & vs' & A1 & A2 & A3 & A4 & A5); auto end end.
        { intros i j. rewrite !madd_val, HM. lra. }
        { repeat apply inside_madd; auto. }
        exists ms', vs'. repeat split; auto. intros i j. rewrite A2. cbn [lsum cap_entry]. fin.
      + (* C *)
        unfold t in *. destruct ac eqn:Ac.
        * rewrite HV by auto. cbn [bindr val].
          match goal with |- context [y_pass1 _ _ _ _ _ _ _ _ (?ms0, ?vs0)] =>
            destruct (IH m v ms0 vs0 (fun i j => q i j + cap_entry i j (EC id n1 n2 c)) INC' Wes)
              as (ms' & vs' & A1 & A2 & A3 & A4 & A5); auto end.
          { intros i j. rewrite !madd_val, HM. cbn [cap_entry]. lra. }
          { intros i j Hij. rewrite Iq by auto. cbn [cap_entry].
            destruct Hij; [rewrite (dlt_other i n1), (dlt_other i n2) by lia
                          |rewrite (dlt_other j n1), (dlt_other j n2) by lia]; lra. }
          exists ms', vs'. repeat split; auto. intros i j. rewrite A2. cbn [lsum cap_entry]. fin.
        * cbn [bindr]. destruct (IH m v ms vs q INC' Wes HM HVs Im Iv Iq) as (ms' & vs' & A1 & A2 & A3 & A4 & A5).
          exists ms', vs'. repeat split; auto. intros i j. rewrite A2. fin.
      + (* I *)
        rewrite HV by auto. cbn [bindr val]. pose proof (TD _ He) as Ht. cbn in Ht. subst td.
        match goal with |- context [y_pass1 _ _ _ _ _ _ _ _ (?ms0, ?vs0)] =>
          match goal with |- context [fold_left stamp1 _ (?m0, ?v0)] =>
            destruct (IH m0 v0 ms0 vs0 q INC' Wes) as (ms' & vs' & A1 & A2 & A3 & A4 & A5); auto end end.
        { intros i. rewrite !vadd_val, HVs. lra. }
        { repeat apply vinside_vadd; auto. }
        exists ms', vs'. repeat split; auto. intros i j. rewrite A2. cbn [lsum cap_entry]. fin.
      + (* G *)
        rewrite HV by auto. cbn [bindr val].
        cbn in W3. inversion W3 as [|? ? S1 W3']; subst. inversion W3' as [|? ? S2 _]; subst.
        match goal with |- context [y_pass1 _ _ _ _ _ _ _ _ (?ms0, ?vs0)] =>
          match goal with |- context [fold_left stamp1 _ (?m0, ?v0)] =>
            destruct (IH m0 v0 ms0 vs0 q INC' Wes) as (ms' & vs' & A1 & A2 & A3 & A4 & A5); auto end end.
        { intros i j. rewrite !madd_val, HM. lra. }
        { repeat apply inside_madd; auto. }
        exists ms', vs'. repeat split; auto. intros i j. rewrite A2. cbn [lsum cap_entry]. fin.
  Qed.

  Lemma mset_rel : forall m ms q a b x, (forall i j, ms i j = m i j + t * q i j) -> q a b = 0 ->
    forall i j, mset ms a b x i j = mset m a b x i j + t * q i j.
  Proof.
    intros m ms q a b x H Z i j. unfold mset.
    destruct (Nat.eqb_spec i a) as [->|]; simpl; auto.
    destruct (Nat.eqb_spec j b) as [->|]; auto. rewrite Z. lra.
  Qed.

  (** The own inductances, [k] being the number of the first element. *)
  Fixpoint self_ind (i j k : nat) (es : list lelem) : R :=
    match es with
    | [] => 0
    | e :: es' =>
        (match e with EL _ _ _ l => dlt i (nv + k) * (- l * dlt j (nv + k)) | _ => 0 end)
        + self_ind i j (if is_vde e then S k else k) es'
    end.

  Lemma y_pass2_ok : forall es k (m : mat) (v : vec) (ms : mat) (vs : vec) (q : mat) (m' : mat) (v' : vec), incl es all -> wf_circ nv es ->
    (forall i j, ms i j = m i j + t * q i j) -> (forall i, vs i = v i) ->
    inside m (nv + k) -> inside q (nv + k) ->
    pass2 nv all es k (m, v) = Ok (m', v') ->
    exists ms' vs', y_pass2 ac s is_symbolic subs env nv all es k (ms, vs) = Ok (ms', vs') /\
      (forall i j, ms' i j = m' i j + t * (q i j + self_ind i j k es)) /\
      (forall i, vs' i = v' i).
  Proof.
    induction es as [|e es IH]; intros k m v ms vs q m' v' INC W HM HVs Im Iq H; cbn [pass2 y_pass2 self_ind] in *.
    - inversion H; subst. exists ms, vs. repeat split; auto. intros i j. rewrite HM. lra.
    - inversion W as [|? ? We Wes]; subst.
      assert (He : In e all) by (apply INC; left; reflexivity).
      assert (INC' : incl es all) by (intros x Hx; apply INC; right; exact Hx).
      destruct (is_vde e) eqn:Ev.
      2:{ destruct (IH k m v ms vs q m' v' INC' Wes HM HVs Im Iq H) as (ms' & vs' & A1 & A2 & A3).
          exists ms', vs'. repeat split; auto. intros i j. rewrite A2.
          destruct e; try discriminate; lra. }
      destruct We as (W1 & W2 & W3 & W4).
      assert (Kidx : (nv + S k = S (nv + k))%nat) by lia.
      assert (BR : forall n1 n2, (n1 < nv)%nat -> (n2 < nv)%nat ->
        forall i j, branch ms (nv + k) n1 n2 i j = branch m (nv + k) n1 n2 i j + t * q i j).
      { intros n1 n2 H1 H2. unfold branch.
        repeat (apply mset_rel; [|apply Iq; lia]). exact HM. }
      assert (Iq' : inside q (nv + S k)) by (intros i j Hij; apply Iq; lia).
      destruct e; try discriminate; cbn [stamp_vde y_stamp_vde] in *; simpl in W1, W2;
        fold (branch m (nv + k) n1 n2) in H; fold (branch ms (nv + k) n1 n2).
      + (* L *)
        cbn [bindr] in H.
        assert (IB : inside (branch m (nv + k) n1 n2) (nv + S k)) by (rewrite Kidx; apply inside_branch; auto; lia).
        unfold t in *. destruct ac eqn:Ac.
        * rewrite HV by auto. cbn [bindr val].
          destruct (IH (S k) (branch m (nv + k) n1 n2) v (mset (branch ms (nv + k) n1 n2) (nv + k) (nv + k) (- s * l)) vs
                     (fun i j => q i j + dlt i (nv + k) * (- l * dlt j (nv + k))) m' v' INC' Wes) as (ms' & vs' & A1 & A2 & A3);
            [| | | | exact H|].
          { intros i j. rewrite mset_val.
            - rewrite BR by auto. lra.
            - rewrite BR by auto. rewrite branch_entry by (auto; lia). rewrite Iq by lia. lra. }
          { exact HVs. }
          { exact IB. }
          { intros i j Hij. rewrite Iq by lia.
            destruct Hij; [rewrite (dlt_other i) by lia|rewrite (dlt_other j) by lia]; lra. }
          exists ms', vs'. repeat split; auto. intros i j. rewrite A2. lra.
        * cbn [bindr]. destruct (IH (S k) _ v _ vs q m' v' INC' Wes (BR n1 n2 W1 W2) HVs IB Iq' H)
            as (ms' & vs' & A1 & A2 & A3).
          exists ms', vs'. repeat split; auto. intros i j. rewrite A2. lra.
      + (* V *)
        pose proof (TD _ He) as Ht. cbn in Ht. subst td. rewrite HV by auto. cbn [bindr val] in *.
        assert (IB : inside (branch m (nv + k) n1 n2) (nv + S k)) by (rewrite Kidx; apply inside_branch; auto; lia).
        destruct (IH (S k) (branch m (nv + k) n1 n2) (vset v (nv + k) (- dc)) (branch ms (nv + k) n1 n2)
                    (vset vs (nv + k) (- dc)) q m' v' INC' Wes (BR n1 n2 W1 W2)) as (ms' & vs' & A1 & A2 & A3);
          [|exact IB|exact Iq'|exact H|].
        { intros i. unfold vset. destruct (i =? nv + k)%nat; auto. }
        exists ms', vs'. repeat split; auto. intros i j. rewrite A2. lra.
      + (* E *)
        rewrite HV by auto. cbn [bindr val] in *.
        cbn in W3. inversion W3 as [|? ? S1 W3']; subst. inversion W3' as [|? ? S2 _]; subst.
        match type of H with pass2 _ _ _ _ (?m0, _) = _ =>
          destruct (IH (S k) m0 v (mset (mset (branch ms (nv + k) n1 n2) (nv + k) s1 (- alpha)) (nv + k) s2 alpha) vs q m' v' INC' Wes)
            as (ms' & vs' & A1 & A2 & A3); [| | | |exact H|] end.
        { do 2 (apply mset_rel; [|apply Iq; lia]). apply BR; auto. }
        { exact HVs. }
        { rewrite Kidx. do 2 (apply (inside_mset nv all); [|lia|lia]). apply inside_branch; auto; lia. }
        { exact Iq'. }
        exists ms', vs'. repeat split; auto. intros i j. rewrite A2. lra.
      + (* H *)
        rewrite HV by auto. cbn [bindr val] in *.
        destruct (vde_index all src) as [jj|] eqn:Ej; cbn [bindr] in *; [|discriminate].
        destruct (jj <=? k)%nat eqn:Ek; cbn [bindr] in *; [|discriminate].
        apply Nat.leb_le in Ek.
        match type of H with pass2 _ _ _ _ (?m0, _) = _ =>
          destruct (IH (S k) m0 v (mset (branch ms (nv + k) n1 n2) (nv + k) (nv + jj) alpha) vs q m' v' INC' Wes)
            as (ms' & vs' & A1 & A2 & A3); [| | | |exact H|] end.
        { apply mset_rel; [|apply Iq; lia]. apply BR; auto. }
        { exact HVs. }
        { rewrite Kidx. apply (inside_mset nv all); [|lia|lia]. apply inside_branch; auto; lia. }
        { exact Iq'. }
        exists ms', vs'. repeat split; auto. intros i j. rewrite A2. lra.
  Qed.

  Lemma y_couplings_ok : forall k id es m, ac = true -> incl es all -> Forall (wf_coupling all) es ->
    exists m', y_couplings s is_symbolic subs env nv k all id es m = Ok m' /\
      forall i j, m' i j = m i j - s * (dlt i (nv + k) *
        lsum (fun e => match e with
                 | EK _ l1 l2 _ m => if String.eqb l1 id then m * cur nv all (dlt j) l2
                                     else if String.eqb l2 id then m * cur nv all (dlt j) l1 else 0
                 | _ => 0 end) es).
  Proof.
    intros k id es m Ac. revert m. induction es as [|e es IH]; intros d INC W; cbn [y_couplings lsum].
    - exists d. split; auto. intros; lra.
    - inversion W as [|? ? We Wes]; subst.
      assert (He : In e all) by (apply INC; left; reflexivity).
      assert (INC' : incl es all) by (intros x Hx; apply INC; right; exact Hx).
      destruct e; try (destruct (IH d INC' Wes) as (d' & H1 & H2); exists d'; split; auto;
                              intros i j; rewrite H2; lra).
      destruct We as ((e1 & I1 & T1 & L1) & (e2 & I2 & T2 & L2) & NE).
      destruct (inductor_index all ND e1 I1 T1) as (j1 & J1 & _). rewrite L1 in J1.
      destruct (inductor_index all ND e2 I2 T2) as (j2 & J2 & _). rewrite L2 in J2.
      rewrite HV by (auto; exact Ac). cbn [bindr val].
      destruct (String.eqb_spec l1 id) as [E1|E1]; cbn [orb].
      + unfold other_inductor. rewrite <- E1, String.eqb_refl. cbn [bindr]. rewrite J2. cbn [bindr].
        rewrite E1. destruct (IH (madd d (nv + k) (nv + j2) (- s * m)) INC' Wes) as (d' & H1 & H2).
        exists d'. split; auto. intros i j. rewrite H2, madd_val. unfold cur. rewrite J2. lra.
      + destruct (String.eqb_spec l2 id) as [E2|E2].
        * unfold other_inductor. destruct (String.eqb_spec (upper id) (upper l1)) as [E3|E3]; [congruence|].
          destruct (String.eqb_spec (upper id) (upper l2)) as [E4|E4]; [|congruence].
          cbn [bindr]. rewrite J1. cbn [bindr].
          destruct (IH (madd d (nv + k) (nv + j1) (- s * m)) INC' Wes) as (d' & H1 & H2).
          exists d'. split; auto. intros i j. rewrite H2, madd_val. unfold cur. rewrite J1. lra.
        * destruct (IH d INC' Wes) as (d' & H1 & H2). exists d'. split; auto.
          intros i j. rewrite H2. lra.
  Qed.

  (** The mutual inductances. *)
  Definition mutual (i j : nat) (e : lelem) : R :=
    match e with
    | EL id _ _ _ => match vde_index all id with Ok k => - (dlt i (nv + k) * cpl nv all id j) | Err _ => 0 end
    | _ => 0
    end.

  Lemma y_pass3_ok : forall es m ms q m', incl es all ->
    (forall i j, ms i j = m i j + t * q i j) ->
    pass3 nv all es m = Ok m' ->
    exists ms', y_pass3 ac s is_symbolic subs env nv all es ms = Ok ms' /\
      forall i j, ms' i j = m' i j + t * (q i j + lsum (mutual i j) es).
  Proof.
    induction es as [|e es IH]; intros m ms q m' INC HM H; cbn [pass3 y_pass3 lsum] in *.
    - inversion H; subst. exists ms. split; auto. intros i j. rewrite HM. lra.
    - assert (He : In e all) by (apply INC; left; reflexivity).
      assert (INC' : incl es all) by (intros x Hx; apply INC; right; exact Hx).
      destruct e; cbn [stampF bindr] in H;
        try (destruct (IH m ms q m' INC' HM H) as (ms' & A1 & A2); exists ms'; split; auto;
             intros i j; rewrite A2; cbn [mutual]; lra).
      + (* L *)
        destruct (inductor_index all ND _ He eq_refl) as (k & Hk & _). cbn [lid] in Hk.
        pose proof (fun A => y_couplings_ok k id all ms A (incl_refl _) WK) as YC.
        unfold t in *. destruct ac eqn:Ac.
        * rewrite Hk. cbn [bindr].
          destruct (YC eq_refl) as (mc & C1 & C2).
          rewrite C1. cbn [bindr].
          destruct (IH m mc (fun i j => q i j + mutual i j (EL id n1 n2 l)) m' INC') as (ms' & A1 & A2).
          { intros i j. rewrite C2, HM. cbn [mutual]. rewrite Hk. unfold cpl, flux. lra. }
          { exact H. }
          exists ms'. split; auto. intros i j. rewrite A2. lra.
        * destruct (IH m ms q m' INC' HM H) as (ms' & A1 & A2). exists ms'. split; auto.
          intros i j. rewrite A2. lra.
      + (* F *)
        destruct (vde_index all src) as [jj|] eqn:Ej; cbn [bindr] in *; [|discriminate].
        rewrite HV by auto. cbn [bindr val].
        match type of H with pass3 _ _ _ ?m0 = _ =>
          destruct (IH m0 (madd (madd ms n1 (nv + jj) alpha) n2 (nv + jj) (- alpha)) q m' INC') as (ms' & A1 & A2);
            [|exact H|] end.
        { intros i j. rewrite !madd_val, HM. lra. }
        exists ms'. split; auto. intros i j. rewrite A2. cbn [mutual]. lra.
  Qed.

  Lemma own_index : forall pre e post, all = pre ++ e :: post -> is_vde e = true ->
    vde_index all (lid e) = Ok (n_vde pre).
  Proof.
    intros pre e post E Hv. apply (nth_vde_index all (lid e) (n_vde pre) e ND); auto.
    rewrite E. unfold vdes. rewrite filter_app. cbn [filter]. rewrite Hv.
    unfold n_vde. rewrite nth_error_app2, Nat.sub_diag by lia. reflexivity.
  Qed.

  Lemma ind_split : forall es pre i j, all = pre ++ es ->
    self_ind i j (n_vde pre) es + lsum (mutual i j) es = ind_entry nv all i j (n_vde pre) es.
  Proof.
    induction es as [|e es IH]; intros pre i j E; cbn [self_ind lsum ind_entry]; [lra|].
    assert (E' : all = (pre ++ [e]) ++ es) by (rewrite <- app_assoc; exact E).
    pose proof (IH (pre ++ [e]) i j E') as IHe. rewrite n_vde_app, n_vde_cons in IHe.
    change (n_vde []) with 0%nat in IHe.
    destruct (is_vde e) eqn:Ev.
    - replace (n_vde pre + (1 + 0))%nat with (S (n_vde pre)) in IHe by lia.
      rewrite <- IHe. destruct e; try discriminate; cbn [mutual]; try lra.
      rewrite (own_index pre (EL id n1 n2 l) es E eq_refl : vde_index all id = Ok (n_vde pre)). lra.
    - replace (n_vde pre + (0 + 0))%nat with (n_vde pre) in IHe by lia.
      rewrite <- IHe. destruct e; try discriminate; cbn [mutual]; lra.
  Qed.

  Lemma symbolic_agrees : forall m N, generate_mna_and_N nv all = Ok (m, N) ->
    exists ms Ns d, symbolic_mna_and_N gs ac s is_symbolic subs env nv all = Ok (ms, Ns) /\
      generate_D 0 nv all = Ok d /\
      (forall i j, ms i j = m i j + t * d i j) /\ (forall i, Ns i = N i).
  Proof.
    intros m N H. destruct (generate_inv _ _ _ _ H) as (m2 & E2 & E3).
    unfold symbolic_mna_and_N.
    destruct (y_pass1_ok all mzero vzero mzero vzero mzero) as (ms1 & vs1 & A1 & A2 & A3 & A4 & A5);
      auto using incl_refl, mzero_inside, vzero_inside.
    { intros i j. unfold mzero. lra. }
    rewrite A1. cbn [bindr]. destruct (fold_left stamp1 all (mzero, vzero)) as [m1 v1]. cbn [fst snd] in *.
    destruct (y_pass2_ok all 0 m1 v1 ms1 vs1 (fun i j => mzero i j + lsum (cap_entry i j) all) m2 N)
      as (ms2 & vs2 & B1 & B2 & B3); auto using incl_refl.
    { rewrite Nat.add_0_r. exact A4. }
    { rewrite Nat.add_0_r. intros i j Hij. unfold mzero. destruct Hij as [Hi|Hj].
      - rewrite (cap_entry_high nv) by auto. lra.
      - rewrite cap_entry_sym, (cap_entry_high nv) by auto. lra. }
    rewrite B1. cbn [bindr fst snd].
    destruct (y_pass3_ok all m2 ms2 (fun i j => mzero i j + lsum (cap_entry i j) all + self_ind i j 0 all) m
                (incl_refl _) B2 E3) as (ms3 & C1 & C2).
    rewrite C1. cbn [bindr].
    destruct (dyn_ok nv all ND WK WC) as (d & D1 & D2).
    exists ms3, vs2, d. split; [reflexivity|]. split; [|split; auto].
    - unfold generate_D. rewrite D1. cbn [bindr]. unfold add_cmin.
      destruct (Rlt_dec 0 0); [lra|reflexivity].
    - intros i j. rewrite C2, D2. unfold raw_entry.
      pose proof (ind_split all [] i j eq_refl) as E. change (n_vde []) with 0%nat in E. unfold mzero. rewrite <- E. lra.
  Qed.
End Agree.

(** ** Dictionaries of symbols *)
Lemma sym_eqb_spec : forall a b, reflect (a = b) (sym_eqb a b).
Proof.
  intros [n r p] [n' r' p']. unfold sym_eqb. cbn [y_name y_real y_pos].
  destruct (String.eqb_spec n n') as [->|], (Bool.eqb_spec r r') as [->|], (Bool.eqb_spec p p') as [->|];
    cbn; constructor; congruence.
Qed.

Lemma sget_supdate : forall d k v k', sget (supdate d k v) k' = if sym_eqb k k' then Some v else sget d k'.
Proof.
  intros d k v k'. unfold sget, supdate. cbn [find fst].
  destruct (sym_eqb_spec k k') as [E|E]; [reflexivity|].
  induction d as [|[a b] d IH]; cbn [filter find fst]; [reflexivity|].
  destruct (sym_eqb_spec a k) as [->|Ea]; cbn [negb find fst].
  - destruct (sym_eqb_spec k k'); [contradiction|exact IH].
  - destruct (sym_eqb a k'); [reflexivity|exact IH].
Qed.
