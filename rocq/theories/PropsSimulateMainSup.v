(** Superposition in transient analyses (C227). *)
From Coq Require Import Ascii String Reals List Bool Arith ZArith Lia Lra Permutation.
From Verif Require Import Base BaseFacts Str Units Directive Lines Reader Netlist ModelLines Nodes NodesFacts Circuit CircuitFacts Rsum Mna MnaSpec DcSolve Newton
  NewtonFacts DynFacts Df Tran TranFacts PropsTran Ac AcFacts Sweep Csv PropsCsv Results PropsDirective PropsReader PropsNetlist PropsResults PropsMna PropsDc PropsAc Session PropsSetup
  RunQueue Ics PropsIcs Subckt PropsSubckt Simulate PropsSimulate SimulateAc PropsSimulateAc SimulateDc PropsSimulateDc SimulateTran PropsSimulateTran SimulateNl PropsSimulateNl
  SimulateSub PropsSimulateSub PropsSimulateHier PropsSimulateSubLaws PropsSimulateOp PropsSimulatePz SimulateMain PropsSimulateMain Lagrange PropsSimulateMainEq PropsSimulateMainRel.
Import ListNotations.
Open Scope R_scope.

(** * The slopes of the methods are linear *)
Lemma rsum_mix : forall n (a1 a2 a3 : nat -> R) k1 k2 s,
  rsum n (fun j => (a3 j - k1 * a1 j - k2 * a2 j) * s ^ j) = rsum n (fun j => a3 j * s ^ j) - k1 * rsum n (fun j => a1 j * s ^ j) - k2 * rsum n (fun j => a2 j * s ^ j).
Proof. intros n a1 a2 a3 k1 k2 s. induction n as [|n IH]; cbn [rsum]; [ring|]. rewrite IH. ring. Qed.
Lemma slope_mix : forall P (tm : P -> R) d past p x1 dx1 x2 dx2 x3 dx3 k1 k2,
  slope_rule tm d past p x1 dx1 -> slope_rule tm d past p x2 dx2 -> slope_rule tm d past p x3 dx3 ->
  slope_rule tm d past p (fun q => x3 q - k1 * x1 q - k2 * x2 q) (fun q => dx3 q - k1 * dx1 q - k2 * dx2 q).
Proof.
  intros P tm d past p x1 dx1 x2 dx2 x3 dx3 k1 k2. destruct past as [|q rest]; [intros; exact Logic.I|]. cbn [slope_rule].
  assert (B : dx1 p = (x1 p - x1 q) / (tm p - tm q) -> dx2 p = (x2 p - x2 q) / (tm p - tm q) -> dx3 p = (x3 p - x3 q) / (tm p - tm q) ->
    dx3 p - k1 * dx1 p - k2 * dx2 p = (x3 p - k1 * x1 p - k2 * x2 p - (x3 q - k1 * x1 q - k2 * x2 q)) / (tm p - tm q)).
  { intros -> -> ->. unfold Rdiv. ring. }
  destruct d as [| |k|s]; [exact B| | |intros; exact Logic.I].
  - destruct rest as [|r rest]; [exact B|]. intros H1 H2 H3.
    replace ((dx3 p - k1 * dx1 p - k2 * dx2 p + (dx3 q - k1 * dx1 q - k2 * dx2 q)) / 2) with ((dx3 p + dx3 q) / 2 - k1 * ((dx1 p + dx1 q) / 2) - k2 * ((dx2 p + dx2 q) / 2)) by field.
    rewrite H1, H2, H3. unfold Rdiv. ring.
  - destruct (List.length (q :: rest) <=? k)%nat; [exact B|]. intros (a1 & P1 & Q1 & D1) (a2 & P2 & Q2 & D2) (a3 & P3 & Q3 & D3). exists (fun j => a3 j - k1 * a1 j - k2 * a2 j). cbv zeta beta in *.
    split; [rewrite rsum_mix, P1, P2, P3; reflexivity|]. split; [intros r IR; rewrite rsum_mix, (Q1 r IR), (Q2 r IR), (Q3 r IR); reflexivity|].
    apply (deriv_ext (minus_fct (minus_fct (fun s => rsum (S k) (fun j => a3 j * s ^ j)) (mult_real_fct k1 (fun s => rsum (S k) (fun j => a1 j * s ^ j)))) (mult_real_fct k2 (fun s => rsum (S k) (fun j => a2 j * s ^ j)))));
      [intros s; symmetry; apply rsum_mix|].
    apply derivable_pt_lim_minus; [apply derivable_pt_lim_minus; [exact D3|]|]; apply derivable_pt_lim_scal; assumption.
Qed.
Lemma slope_map : forall P Q (f : P -> Q) (tm : Q -> R) (tm' : P -> R) d past p x dx, (forall q, In q (p :: past) -> tm (f q) = tm' q) ->
  slope_rule tm d (map f past) (f p) x dx -> slope_rule tm' d past p (fun q => x (f q)) (fun q => dx (f q)).
Proof.
  intros P Q f tm tm' d past p x dx E. destruct past as [|q rest]; [intros; exact Logic.I|]. cbn [map slope_rule].
  pose proof (E p (or_introl eq_refl)) as EP. pose proof (E q (or_intror (or_introl eq_refl))) as EQ. rewrite EP, EQ. destruct d as [| |k|s]; auto.
  - destruct rest; auto.
  - change (f q :: map f rest) with (map f (q :: rest)). rewrite map_length. destruct (List.length (q :: rest) <=? k)%nat; [auto|]. intros (a & H1 & H2 & H3). exists a. cbv zeta beta in *.
    split; [exact H1|]. split; [|exact H3]. intros r IR. rewrite <- E by (right; rewrite <- (firstn_skipn k (q :: rest)); apply in_or_app; left; exact IR).
    apply H2. rewrite firstn_map. apply in_map. exact IR.
Qed.

(** * The laws are linear *)
Section Mix.
  Variables (s1 s2 s3 : pelem -> R) (k1 k2 g c : R).
  Lemma mix_leaving : forall l1 l2 l3 V1 I1 dV1 V2 I2 dV2 V3 I3 dV3 n, superposed s1 s2 s3 k1 k2 l1 l2 l3 ->
    tr_leaving (fun _ => 0) (fun m => V3 m - k1 * V1 m - k2 * V2 m) (fun m => I3 m - k1 * I1 m - k2 * I2 m) (fun m => dV3 m - k1 * dV1 m - k2 * dV2 m) n l1
      = tr_leaving s3 V3 I3 dV3 n l3 - k1 * tr_leaving s1 V1 I1 dV1 n l1 - k2 * tr_leaving s2 V2 I2 dV2 n l2.
  Proof.
    intros l1 l2 l3 V1 I1 dV1 V2 I2 dV2 V3 I3 dV3 n H. induction H as [|e1 e2 e3 l1 l2 l3 R2 R3 S3 _ IH]; [cbn; ring|]. cbn [tr_leaving]. rewrite IH.
    destruct (revalued_shape _ _ R2) as (_ & _ & _ & F2 & E2). destruct (revalued_shape _ _ R3) as (_ & _ & _ & F3 & E3).
    assert (T : tr_through (fun _ => 0) (fun m => V3 m - k1 * V1 m - k2 * V2 m) (fun m => I3 m - k1 * I1 m - k2 * I2 m) (fun m => dV3 m - k1 * dV1 m - k2 * dV2 m) e1
      = tr_through s3 V3 I3 dV3 e3 - k1 * tr_through s1 V1 I1 dV1 e1 - k2 * tr_through s2 V2 I2 dV2 e2).
    { destruct e1, e2; cbn [revalued] in R2; try discriminate R2; destruct e3; cbn [revalued] in R3; try discriminate R3;
        try (injection R2; injection R3; intros; subst; cbn [tr_through through]; unfold Rdiv; ring).
      - destruct R2 as (-> & -> & ->). destruct R3 as (-> & -> & ->). cbn [tr_through through]. ring.
      - cbn [tr_through through]. rewrite S3. ring. }
    unfold tr_leaving1. rewrite F2, F3, E2, E3, T. repeat match goal with |- context [if ?b then _ else _] => destruct b end; ring.
  Qed.
  Lemma mix_linked : forall J1 J2 J3 id l1 l2 l3, superposed s1 s2 s3 k1 k2 l1 l2 l3 ->
    linked (fun m => J3 m - k1 * J1 m - k2 * J2 m) id l1 = linked J3 id l3 - k1 * linked J1 id l1 - k2 * linked J2 id l2.
  Proof.
    intros J1 J2 J3 id l1 l2 l3 H. induction H as [|e1 e2 e3 l1 l2 l3 R2 R3 S3 _ IH]; [cbn; ring|].
    destruct e1, e2; cbn [revalued] in R2; try discriminate R2; destruct e3; cbn [revalued] in R3; try discriminate R3; cbn [linked]; try exact IH.
    injection R2; injection R3; intros; subst. rewrite IH. repeat match goal with |- context [if ?b then _ else _] => destruct b end; ring.
  Qed.
  Lemma mix_law : forall p1 p2 p3 l1 l2 l3 V1 I1 dI1 V2 I2 dI2 V3 I3 dI3, superposed s1 s2 s3 k1 k2 p1 p2 p3 -> superposed s1 s2 s3 k1 k2 l1 l2 l3 ->
    Forall (tr_law s1 p1 V1 I1 dI1) l1 -> Forall (tr_law s2 p2 V2 I2 dI2) l2 -> Forall (tr_law s3 p3 V3 I3 dI3) l3 ->
    Forall (tr_law (fun _ => 0) p1 (fun m => V3 m - k1 * V1 m - k2 * V2 m) (fun m => I3 m - k1 * I1 m - k2 * I2 m) (fun m => dI3 m - k1 * dI1 m - k2 * dI2 m)) l1.
  Proof.
    intros p1 p2 p3 l1 l2 l3 V1 I1 dI1 V2 I2 dI2 V3 I3 dI3 SP H. induction H as [|e1 e2 e3 l1 l2 l3 R2 R3 S3 _ IH]; intros L1 L2 L3; [constructor|].
    inversion L1 as [|? ? A1 B1]; inversion L2 as [|? ? A2 B2]; inversion L3 as [|? ? A3 B3]; subst. constructor; [|exact (IH B1 B2 B3)].
    destruct e1, e2; cbn [revalued] in R2; try discriminate R2; destruct e3; cbn [revalued] in R3; try discriminate R3; try exact Logic.I;
      first [destruct R2 as (-> & -> & ->); destruct R3 as (-> & -> & ->) | injection R2; injection R3; intros; subst]; cbn [tr_law law] in *; try exact Logic.I; rewrite ?(mix_linked _ _ _ _ _ _ _ SP);
      match type of A1 with ?l1 = ?r1 => match type of A2 with ?l2 = ?r2 => match type of A3 with ?l3 = ?r3 =>
        apply Rminus_diag_uniq; transitivity ((l3 - r3) - k1 * (l1 - r1) - k2 * (l2 - r2)); [rewrite ?S3; ring|rewrite A1, A2, A3; ring] end end end.
  Qed.

  (** One point *)
  Variables p1 p2 p3 : list pelem.
  Hypothesis SP : superposed s1 s2 s3 k1 k2 p1 p2 p3.
  Hypothesis SO : Forall (ac_sound p1) p1.
  Hypothesis REG : forall k, 0 < k -> tr_regular k g c p1.
  Lemma point_mix : forall k V1 I1 dV1 dI1 V2 I2 dV2 dI2 V3 I3 dV3 dI3, 0 < k ->
    tr_laws s1 g c p1 V1 I1 dV1 dI1 -> tr_laws s2 g c p2 V2 I2 dV2 dI2 -> tr_laws s3 g c p3 V3 I3 dV3 dI3 ->
    (forall n, In n (node_list p1) -> n <> lit "0" -> dV3 n - k1 * dV1 n - k2 * dV2 n = k * (V3 n - k1 * V1 n - k2 * V2 n)) ->
    (forall id, In id (current_ids p1) -> dI3 id - k1 * dI1 id - k2 * dI2 id = k * (I3 id - k1 * I1 id - k2 * I2 id)) ->
    (forall n, In n (node_list p1) -> V3 n - k1 * V1 n - k2 * V2 n = 0) /\ (forall id, In id (current_ids p1) -> I3 id - k1 * I1 id - k2 * I2 id = 0).
  Proof.
    intros k V1 I1 dV1 dI1 V2 I2 dV2 dI2 V3 I3 dV3 dI3 K (G1 & D1 & KCL1 & LW1) (G2 & D2 & KCL2 & LW2) (G3 & D3 & KCL3 & LW3) HV HI.
    destruct (superposed_shape _ _ _ _ _ _ _ _ SP) as (N2 & N3 & _ & _). rewrite N2 in KCL2. rewrite N3 in KCL3.
    set (W := fun m => V3 m - k1 * V1 m - k2 * V2 m). set (J := fun m => I3 m - k1 * I1 m - k2 * I2 m). set (dW := fun m => dV3 m - k1 * dV1 m - k2 * dV2 m). set (dJ := fun m => dI3 m - k1 * dI1 m - k2 * dI2 m).
    set (w := fun n => if in_dec (list_eq_dec ascii_dec) n (node_list p1) then W n else 0).
    set (j := fun n => if in_dec (list_eq_dec ascii_dec) n (current_ids p1) then J n else 0).
    assert (WI : forall n, In n (node_list p1) -> w n = W n) by (intros n IN; unfold w; destruct (in_dec _ _ _); [reflexivity|contradiction]).
    assert (JI : forall n, In n (current_ids p1) -> j n = J n) by (intros n IN; unfold j; destruct (in_dec _ _ _); [reflexivity|contradiction]).
    assert (WD : forall n, In n (node_list p1) -> k * w n = dW n).
    { intros n IN. rewrite (WI n IN). destruct (list_eq_dec ascii_dec n (lit "0")) as [->|N0]; [unfold W, dW; rewrite G1, G2, G3, D1, D2, D3; ring|symmetry; apply HV; assumption]. }
    assert (JD : forall n, In n (current_ids p1) -> k * j n = dJ n) by (intros n IN; rewrite (JI n IN); symmetry; apply HI; exact IN).
    destruct (REG k K w j (fun n => k * w n) (fun n => k * j n) (fun _ => eq_refl) (fun _ => eq_refl)) as (A & B).
    - assert (W0 : w (lit "0") = 0) by (unfold w; destruct (in_dec _ _ _); [unfold W; rewrite G1, G2, G3; ring|reflexivity]).
      split; [exact W0|]. split; [rewrite W0; ring|]. split.
      + intros n IN N0. rewrite (leaving_agree p1 (so_nl p1 SO) w W j J (fun m => k * w m) dW WI JI WD (fun _ => 0) (fun _ => 0) n p1 (incl_refl _) (fun _ _ => eq_refl)).
        unfold W, J, dW. rewrite (mix_leaving _ _ _ V1 I1 dV1 V2 I2 dV2 V3 I3 dV3 n SP). specialize (KCL1 n IN N0). specialize (KCL2 n IN N0). specialize (KCL3 n IN N0).
        pose proof (WI n IN) as E1. pose proof (WD n IN) as E2. cbv beta. rewrite E2, E1. unfold W, dW. nra.
      + apply Forall_forall. intros e IE.
        apply (law_agree p1 (so_nl p1 SO) W w J j dJ (fun m => k * j m) (fun n IN => eq_sym (WI n IN)) (fun n IN => eq_sym (JD n IN)) (fun _ => 0) (fun _ => 0) e IE eq_refl).
        exact (proj1 (Forall_forall _ _) (mix_law _ _ _ _ _ _ V1 I1 dI1 V2 I2 dI2 V3 I3 dI3 SP SP LW1 LW2 LW3) e IE).
    - split; intros n IN; [rewrite <- (A n IN); symmetry; exact (WI n IN)|rewrite <- (B n IN); symmetry; exact (JI n IN)].
  Qed.
End Mix.

(** * The whole run *)
Record point3 := mkP3 { a1 : tpoint; a2 : tpoint; a3 : tpoint }.
Section Run.
  Variables (src1 src2 src3 : R -> pelem -> R) (k1 k2 g c : R) (p1 p2 p3 : list pelem) (d : dform).
  Hypothesis SP : forall time, superposed (src1 time) (src2 time) (src3 time) k1 k2 p1 p2 p3.
  Hypothesis SO : Forall (ac_sound p1) p1.
  Hypothesis REG : forall k, 0 < k -> tr_regular k g c p1.
  Hypothesis BD : built_in d.
  Let devV (q : point3) n := p_V (a3 q) n - k1 * p_V (a1 q) n - k2 * p_V (a2 q) n.
  Let devI (q : point3) n := p_I (a3 q) n - k1 * p_I (a1 q) n - k2 * p_I (a2 q) n.
  Let devdV (q : point3) n := p_dV (a3 q) n - k1 * p_dV (a1 q) n - k2 * p_dV (a2 q) n.
  Let devdI (q : point3) n := p_dI (a3 q) n - k1 * p_dI (a1 q) n - k2 * p_dI (a2 q) n.
  Definition meets (q : point3) : Prop := (forall n, In n (node_list p1) -> n <> lit "0" -> devV q n = 0) /\ (forall id, In id (current_ids p1) -> devI q id = 0).
  Definition moves (q : point3) : Prop := (forall n, In n (node_list p1) -> n <> lit "0" -> devdV q n = 0) /\ (forall id, In id (current_ids p1) -> devdI q id = 0).
  Fixpoint meeting (run : list point3) : Prop :=
    match run with [] => True | p :: past => meets p /\ (past <> [] -> moves p) /\ meeting past end.
  Lemma meeting_in : forall run p, meeting run -> In p run -> meets p.
  Proof. induction run as [|q run IH]; intros p RS I'; [destruct I'|]. destruct RS as (H & _ & R'). destruct I' as [<-|I']; [exact H|exact (IH p R' I')]. Qed.
  Lemma run_mix : forall run start, meets start ->
    (forall q, In q (run ++ [start]) -> p_t (a2 q) = p_t (a1 q) /\ p_t (a3 q) = p_t (a1 q)) ->
    marches src1 g c p1 d (map a1 (run ++ [start])) -> marches src2 g c p2 d (map a2 (run ++ [start])) -> marches src3 g c p3 d (map a3 (run ++ [start])) -> meeting (run ++ [start]).
  Proof.
    intros run start HS. destruct (superposed_shape _ _ _ _ _ _ _ _ (SP 0)) as (N2 & N3 & C2 & C3). induction run as [|p run IH]; intros TE M1 M2 M3.
    - cbn [app meeting]. split; [exact HS|]. split; [congruence|exact Logic.I].
    - cbn [app map] in *. pose proof (marches_times p1 c _ _ _ _ _ _ M1 eq_refl) as (LT & ND). cbn [marches] in M1, M2, M3. destruct M1 as (M1 & Q1), M2 as (M2 & Q2), M3 as (M3 & Q3).
      specialize (IH (fun q I' => TE q (or_intror I')) Q1 Q2 Q3). inversion ND as [|? ? _ ND']; subst. destruct (TE p (or_introl eq_refl)) as (T2 & T3).
      set (past := run ++ [start]) in *. assert (NE : past <> []) by (unfold past; destruct run; discriminate).
      assert (E1 : exists x r, map a1 past = x :: r) by (destruct past; [congruence|cbn; eauto]). assert (E2 : exists x r, map a2 past = x :: r) by (destruct past; [congruence|cbn; eauto]).
      assert (E3 : exists x r, map a3 past = x :: r) by (destruct past; [congruence|cbn; eauto]).
      destruct E1 as (x1 & r1 & E1). destruct E2 as (x2 & r2 & E2). destruct E3 as (x3 & r3 & E3). rewrite E1 in M1. rewrite E2 in M2. rewrite E3 in M3. rewrite <- E1 in M1. rewrite <- E2 in M2. rewrite <- E3 in M3.
      destruct M1 as (_ & L1 & SV1 & SI1), M2 as (_ & L2 & SV2 & SI2), M3 as (_ & L3 & SV3 & SI3). rewrite N2 in SV2. rewrite N3 in SV3. rewrite C2 in SI2. rewrite C3 in SI3. rewrite T2 in L2. rewrite T3 in L3.
      set (tm := fun q => p_t (a1 q)).
      assert (LT' : forall q, In q past -> tm q < tm p) by (intros q I'; apply LT; apply in_map; exact I').
      assert (ND2 : NoDup (map tm past)) by (rewrite map_map in ND'; exact ND').
      destruct (slope_rest point3 tm d p past NE LT' ND2 BD) as (k & K & SR).
      assert (QU : forall q' r, past = q' :: r -> r <> [] -> moves q') by (intros q' r E NR; rewrite E in IH; apply IH; exact NR).
      assert (TM2 : forall q, In q (p :: past) -> p_t (a2 q) = tm q) by (intros q I'; apply TE; exact I').
      assert (TM3 : forall q, In q (p :: past) -> p_t (a3 q) = tm q) by (intros q I'; apply TE; exact I').
      assert (DV : forall n, In n (node_list p1) -> n <> lit "0" -> devdV p n = k * devV p n).
      { intros n IN N0. rewrite <- (Rminus_0_r (devV p n)).
        apply (SR (fun q => devV q n) (fun q => devdV q n)); [intros q' I'; apply (meeting_in _ _ IH I'); assumption|intros q' r E NR; apply (QU q' r E NR); assumption|].
        apply slope_mix; [apply (slope_map _ _ a1 p_t tm d past p (fun q => p_V q n) (fun q => p_dV q n)); [reflexivity|apply SV1; assumption]
          |apply (slope_map _ _ a2 p_t tm d past p (fun q => p_V q n) (fun q => p_dV q n)); [exact TM2|apply SV2; assumption]
          |apply (slope_map _ _ a3 p_t tm d past p (fun q => p_V q n) (fun q => p_dV q n)); [exact TM3|apply SV3; assumption]]. }
      assert (DI : forall id, In id (current_ids p1) -> devdI p id = k * devI p id).
      { intros n IN. rewrite <- (Rminus_0_r (devI p n)).
        apply (SR (fun q => devI q n) (fun q => devdI q n)); [intros q' I'; apply (meeting_in _ _ IH I'); assumption|intros q' r E NR; apply (QU q' r E NR); assumption|].
        apply slope_mix; [apply (slope_map _ _ a1 p_t tm d past p (fun q => p_I q n) (fun q => p_dI q n)); [reflexivity|apply SI1; assumption]
          |apply (slope_map _ _ a2 p_t tm d past p (fun q => p_I q n) (fun q => p_dI q n)); [exact TM2|apply SI2; assumption]
          |apply (slope_map _ _ a3 p_t tm d past p (fun q => p_I q n) (fun q => p_dI q n)); [exact TM3|apply SI3; assumption]]. }
      destruct (point_mix _ _ _ k1 k2 g c p1 p2 p3 (SP (p_t (a1 p))) SO REG k _ _ _ _ _ _ _ _ _ _ _ _ K L1 L2 L3 DV DI) as (A & B).
      cbn [meeting]. split; [split; [intros n IN _; exact (A n IN)|exact B]|]. split; [|exact IH]. intros _. split.
      + intros n IN N0. rewrite (DV n IN N0). unfold devV. rewrite (A n IN). ring.
      + intros id IN. rewrite (DI id IN). unfold devI. rewrite (B id IN). ring.
  Qed.
End Run.
Lemma zip3 : forall (l1 l2 l3 : list tpoint), map p_t l2 = map p_t l1 -> map p_t l3 = map p_t l1 ->
  exists l, map a1 l = l1 /\ map a2 l = l2 /\ map a3 l = l3 /\ forall q, In q l -> p_t (a2 q) = p_t (a1 q) /\ p_t (a3 q) = p_t (a1 q).
Proof.
  induction l1 as [|x l1 IH]; intros l2 l3 E2 E3; destruct l2 as [|y l2]; try discriminate E2; destruct l3 as [|z l3]; try discriminate E3.
  - exists []. repeat split; destruct H.
  - injection E2 as A2 E2. injection E3 as A3 E3. destruct (IH l2 l3 E2 E3) as (l & <- & <- & <- & H). exists (mkP3 x y z :: l). repeat split; destruct H0 as [<-|H0]; try assumption; apply (H _ H0).
Qed.

(** * C227 *)

(** A run of the program on some netlist file, with some steps, options, solvers and guesses: it read the elements [parts], the method of integration is [d],
    and [rows] is the transient analysis from [a] in its dictionary.  It starts from zero ([op] is [false]), or from the operating point in the dictionary. *)
Definition tran_found (at_time : str -> R -> R) (d : dform) (op : bool) (cmin gmin a : R) (parts : list pelem) (t : ntab) (es : list lelem) (rows : list (R * vec)) : Prop :=
  exists solve csolve JT check locked o tdo damp_first maxit acit trit fuel topt guess skip inv modules has_module rounds settings rest icmod
    fs user depth files filename rs dirs before line after words s b m,
  main_file solve csolve JT check locked o tdo damp_first maxit acit trit fuel topt cmin gmin at_time guess skip inv modules has_module rounds settings rest icmod
    fs user depth files filename = Ok (parts, t, es, rs) /\
  directives fs files filename dirs /\ dirs = before ++ line :: after /\ asks "tran" line words /\ Forall (fun l => ~ of_type "tran" l) after /\
  quantity "tstep" (Some 0)%nat words s /\ quantity "tstop" (Some 1)%nat words b /\ (quantity "tstart" None words a \/ (absent "tstart" None words /\ a = 0)) /\
  ((exists v, parameter "method" None words v /\ m = Some (ss v)) \/ (absent "method" None words /\ m = None)) /\ choose_df has_module (tran_method settings m) = Ok d /\ 0 < s /\
  (if op then uses_ic words 1 /\ Forall (fun l => ~ of_type "op" l) after /\ exists before1 opline before2 owords x flag,
     before = before1 ++ opline :: before2 /\ asks "op" opline owords /\ Forall (fun l => ~ of_type "op" l) before2 /\ dget streqb rs (lit "op") = Some (ROp (Some (x, flag)))
   else uses_ic words 0) /\
  (forall line l, user line = Ok l -> Forall word_names l) /\
  solver_ok solve (op_size t es) /\ d_first tdo = false /\ (0 < maxit)%nat /\ (0 < trit)%nat /\ (0 < fuel)%nat /\ o_std o = true /\
  dget streqb rs (lit "tran") = Some (RTran (Some rows)).

Lemma report_zero : forall t es name v, op_report t es (SimulateTran.tran_start None) name = Ok v -> v = 0.
Proof.
  intros t es name v. unfold op_report. destruct (names_of _ _) as [nodes|e]; [|discriminate]. cbn [bindr]. unfold op_getitem. destruct (upper_mem _ _); [|discriminate].
  destruct (find_header _ _ _) as [k|]; [|intros H; injection H as <-; reflexivity].
  destruct (nth_error _ k) as [z|] eqn:E; [|discriminate]. intros H. injection H as <-. apply nth_error_In in E. apply in_map_iff in E. destruct E as (i & <- & _). reflexivity.
Qed.
Lemma tran_found_laws : forall at_time d op cmin gmin a parts t es rows, tran_found at_time d op cmin gmin a parts t es rows ->
  Forall (ac_sound parts) parts -> (forall k, 0 < k -> tr_regular k gmin (Rmax 0 cmin) parts) ->
  let report := tran_report t es rows in
  built_in d /\ exists start points, marches (fun time => dc_source (fun id => at_time id time)) gmin (Rmax 0 cmin) parts d (rev (start :: points)) /\ p_t start = a /\
    (if op then let dc := dc_source (fun id => at_time id 0) in well_posed dc parts -> forall V I, laws dc V I parts ->
       (forall n, In n (node_list parts) -> n <> lit "0" -> p_V start n = V n) /\ (forall id, In id (current_ids parts) -> p_I start id = I id)
     else (forall n, In n (node_list parts) -> n <> lit "0" -> p_V start n = 0) /\ (forall id, In id (current_ids parts) -> p_I start id = 0)) /\
    (forall name, slower name = lit "t" -> report name = Ok (map p_t points)) /\
    (forall n name, In n (node_list parts) -> n <> lit "0" -> slower name = slower (lit "V" ++ n) -> report name = Ok (map (fun p => p_V p n) points)) /\
    (forall id name, In id (current_ids parts) -> slower name = slower (lit "I(" ++ id ++ lit ")") -> report name = Ok (map (fun p => p_I p id) points)).
Proof.
  intros at_time d op cmin gmin a parts t es rows (solve & csolve & JT & check & locked & o & tdo & damp_first & maxit & acit & trit & fuel & topt & guess & skip & inv & modules & has_module & rounds & settings & rest & icmod
    & fs & user & depth & files & filename & rs & dirs & before & line & after & words & s & b & m & M & DI & BLA & A & LAST & QS & QB & QA & QM & CD & SP & START & US & SV & DF & MX & TX & FU & OS & DG) SO REG report.
  split; [exact (chosen_built_in _ _ _ CD)|]. destruct op.
  - destruct START as (UIC & OLAST & before1 & opline & before2 & owords & x & flag & EB & AO & LO & OG). rewrite EB, <- app_assoc in BLA. cbn [app] in BLA.
    destruct (C213_tran solve csolve JT check locked o tdo damp_first maxit acit trit fuel topt cmin gmin at_time guess skip inv modules has_module rounds settings rest icmod
      fs user depth files filename parts t es rs dirs before1 opline before2 line after owords words a s b m M DI BLA AO LO A LAST OLAST QS QB QA QM UIC SP US SO REG SV DF MX TX FU OS)
      as (q & r & OG' & TG & K). rewrite OG in OG'. injection OG' as <-. rewrite DG in TG. injection TG as <-.
    destruct (K x flag rows eq_refl eq_refl) as (d' & start & points & CD' & MA & T0 & NE & LA & OV & OI & DC & RT & RV & RI). rewrite CD in CD'. injection CD' as <-.
    exists start, points. split; [exact MA|]. split; [exact T0|]. split; [|auto]. cbv zeta in DC |- *. apply DC. eapply Forall_impl; [|exact SO]. intros e He. apply He.
  - destruct (C212_tran solve csolve JT check locked o tdo damp_first maxit acit trit fuel topt cmin gmin at_time guess skip inv modules has_module rounds settings rest icmod
      fs user depth files filename parts t es rs dirs before line after words a s b m 0 M DI BLA A LAST QS QB QA QM START) as (LD & x & r & RUN & TG & _ & K0 & _). rewrite DG in TG. injection TG as <-. rewrite (K0 eq_refl) in RUN.
    destruct (C209_load _ _ _ _ _ _ US LD) as (other & OT & LD'). destruct SV as [S1 S2]. destruct fuel as [|fuel'] eqn:EF; [lia|].
    destruct (C196_tran fs other files filename parts t es LD' OT SO solve JT check locked o tdo trit fuel' topt cmin gmin at_time inv modules has_module (tran_method settings m) (step_control settings true)
      a s b None rounds rows S1 S2 DF TX OS SP REG RUN) as (d' & start & points & CD' & MA & T0 & NE & LA & SV & SI & R1 & R2 & R3). rewrite CD in CD'. injection CD' as <-.
    exists start, points. split; [exact MA|]. split; [exact T0|]. split; [|auto]. split.
    + intros n IN N0. exact (report_zero _ _ _ _ (SV n _ IN N0 eq_refl)).
    + intros id IN. exact (report_zero _ _ _ _ (SI id _ IN eq_refl)).
Qed.

(** [l3] is [k1] times [l1] and [k2] times [l2]. *)
Definition mixes (k1 k2 : R) (l1 l2 l3 : list R) : Prop := List.length l2 = List.length l1 /\ l3 = map (fun p => k1 * fst p + k2 * snd p) (combine l1 l2).

Theorem C227_superposition : forall at1 at2 at3 d op cmin gmin a parts1 parts2 parts3 t1 t2 t3 es1 es2 es3 rows1 rows2 rows3 k1 k2,
  tran_found at1 d op cmin gmin a parts1 t1 es1 rows1 -> tran_found at2 d op cmin gmin a parts2 t2 es2 rows2 -> tran_found at3 d op cmin gmin a parts3 t3 es3 rows3 ->
  let dc at_time time := dc_source (fun id => at_time id time) in
  (forall time, superposed (dc at1 time) (dc at2 time) (dc at3 time) k1 k2 parts1 parts2 parts3) ->
  Forall (ac_sound parts1) parts1 -> Forall (ac_sound parts2) parts2 -> Forall (ac_sound parts3) parts3 ->
  (forall parts k, In parts [parts1; parts2; parts3] -> 0 < k -> tr_regular k gmin (Rmax 0 cmin) parts) ->
  (op = true -> well_posed (dc at1 0) parts1 /\ well_posed (dc at2 0) parts2 /\ well_posed (dc at3 0) parts3) ->
  (* the times are the same *)
  tran_report t2 es2 rows2 (lit "t") = tran_report t1 es1 rows1 (lit "t") -> tran_report t3 es3 rows3 (lit "t") = tran_report t1 es1 rows1 (lit "t") ->
  let mixed name := exists l1 l2 l3, tran_report t1 es1 rows1 name = Ok l1 /\ tran_report t2 es2 rows2 name = Ok l2 /\ tran_report t3 es3 rows3 name = Ok l3 /\ mixes k1 k2 l1 l2 l3 in
  (forall n name, In n (node_list parts1) -> n <> lit "0" -> slower name = slower (lit "V" ++ n) -> mixed name) /\
  (forall id name, In id (current_ids parts1) -> slower name = slower (lit "I(" ++ id ++ lit ")") -> mixed name).
Proof.
  intros at1 at2 at3 d op cmin gmin a parts1 parts2 parts3 t1 t2 t3 es1 es2 es3 rows1 rows2 rows3 k1 k2 F1 F2 F3 dc SU O1 O2 O3 REG WP E2 E3 mixed.
  assert (G1 : forall k, 0 < k -> tr_regular k gmin (Rmax 0 cmin) parts1) by (intros k; apply REG; cbn; auto). assert (G2 : forall k, 0 < k -> tr_regular k gmin (Rmax 0 cmin) parts2) by (intros k; apply REG; cbn; auto).
  assert (G3 : forall k, 0 < k -> tr_regular k gmin (Rmax 0 cmin) parts3) by (intros k; apply REG; cbn; auto).
  destruct (tran_found_laws _ _ _ _ _ _ _ _ _ _ F1 O1 G1) as (BD & b1 & l1 & M1 & A1 & B1 & RT1 & RV1 & RI1).
  destruct (tran_found_laws _ _ _ _ _ _ _ _ _ _ F2 O2 G2) as (_ & b2 & l2 & M2 & A2 & B2 & RT2 & RV2 & RI2).
  destruct (tran_found_laws _ _ _ _ _ _ _ _ _ _ F3 O3 G3) as (_ & b3 & l3 & M3 & A3 & B3 & RT3 & RV3 & RI3). destruct (superposed_shape _ _ _ _ _ _ _ _ (SU 0)) as (N2 & N3 & C2 & C3).
  rewrite N2, C2 in *. rewrite N3, C3 in *.
  rewrite (RT1 (lit "t") eq_refl), (RT2 (lit "t") eq_refl) in E2. injection E2 as E2. rewrite (RT1 (lit "t") eq_refl), (RT3 (lit "t") eq_refl) in E3. injection E3 as E3.
  destruct (zip3 l1 l2 l3 E2 E3) as (l & Z1 & Z2 & Z3 & TE).
  assert (HS : meets k1 k2 parts1 (mkP3 b1 b2 b3)).
  { destruct op.
    - destruct (WP eq_refl) as (W1 & W2 & W3). pose proof W1 as (V1 & I1 & L1 & _). pose proof W2 as (V2 & I2 & L2 & _).
      assert (L3 : laws (dc at3 0) (fun m => k1 * V1 m + k2 * V2 m) (fun m => k1 * I1 m + k2 * I2 m) parts3).
      { destruct L1 as (Z01 & K1 & Q1). destruct L2 as (Z02 & K2 & Q2). split; [rewrite Z01, Z02; ring|]. split; [|exact (superposed_law _ _ _ _ _ _ _ _ _ _ _ _ (SU 0) Q1 Q2)].
        intros n. rewrite (superposed_leaving _ _ _ _ _ _ _ _ _ _ _ _ n (SU 0)), K1, K2. ring. }
      destruct (B1 W1 _ _ L1) as (X1 & Y1). destruct (B2 W2 _ _ L2) as (X2 & Y2). destruct (B3 W3 _ _ L3) as (X3 & Y3). split; cbn [a1 a2 a3].
      + intros n IN N0. rewrite (X1 n IN N0), (X2 n IN N0), (X3 n IN N0). ring.
      + intros n IN. rewrite (Y1 n IN), (Y2 n IN), (Y3 n IN). ring.
    - destruct B1 as (X1 & Y1), B2 as (X2 & Y2), B3 as (X3 & Y3). split; cbn [a1 a2 a3].
      + intros n IN N0. rewrite (X1 n IN N0), (X2 n IN N0), (X3 n IN N0). ring.
      + intros n IN. rewrite (Y1 n IN), (Y2 n IN), (Y3 n IN). ring. }
  assert (ME : meeting k1 k2 parts1 (rev l ++ [mkP3 b1 b2 b3])).
  { apply (run_mix (dc at1) (dc at2) (dc at3) k1 k2 gmin (Rmax 0 cmin) parts1 parts2 parts3 d SU O1 G1 BD (rev l) _ HS).
    - intros q I'. apply in_app_iff in I'. destruct I' as [I'|[<-|[]]]; [apply TE; apply in_rev; exact I'|]. cbn [a1 a2 a3]. rewrite A1, A2, A3. auto.
    - rewrite map_app, map_rev, Z1. exact M1.
    - rewrite map_app, map_rev, Z2. exact M2.
    - rewrite map_app, map_rev, Z3. exact M3. }
  assert (HR : forall q, In q l -> meets k1 k2 parts1 q).
  { intros q IQ. apply (meeting_in k1 k2 parts1 _ q ME). apply in_or_app. left. apply -> in_rev. exact IQ. }
  assert (MX : forall f : tpoint -> R, (forall q, In q l -> f (a3 q) - k1 * f (a1 q) - k2 * f (a2 q) = 0) -> mixes k1 k2 (map f l1) (map f l2) (map f l3)).
  { intros f. rewrite <- Z1, <- Z2, <- Z3. clear. intros H. split; [rewrite !map_length; reflexivity|]. rewrite !map_map. induction l as [|q l IH]; [reflexivity|]. cbn [map combine fst snd].
    rewrite IH by (intros q' I'; apply H; right; exact I'). f_equal. specialize (H q (or_introl eq_refl)). lra. }
  split.
  - intros n name IN N0 SN. exists (map (fun p => p_V p n) l1), (map (fun p => p_V p n) l2), (map (fun p => p_V p n) l3). repeat split; auto; apply MX; intros q IQ; apply (HR q IQ); assumption.
  - intros id name IN SN. exists (map (fun p => p_I p id) l1), (map (fun p => p_I p id) l2), (map (fun p => p_I p id) l3). repeat split; auto; apply MX; intros q IQ; apply (HR q IQ); assumption.
Qed.
Print Assumptions C227_superposition.

(** ** The order of the elements *)
Lemma same_superposed : forall s l, superposed s s s 1 0 l l l.
Proof. intros s l. induction l as [|e l IH]; [apply sup_nil|]. apply sup_cons; [destruct e; cbn; auto|destruct e; cbn; auto|ring|exact IH]. Qed.
Lemma order_tr_leaving : forall src V I dV n l l', Permutation l l' -> tr_leaving src V I dV n l = tr_leaving src V I dV n l'.
Proof. intros src V I dV n l l' P. induction P as [|e l l' _ IH|e e' l|l1 l2 l3 _ IH1 _ IH2]; cbn [tr_leaving]; lra. Qed.
Lemma order_tr_laws : forall src g c p p' V I dV dI, Permutation p p' -> tr_laws src g c p' V I dV dI -> tr_laws src g c p V I dV dI.
Proof.
  intros src g c p p' V I dV dI P (A & B & K & L). split; [exact A|]. split; [exact B|]. split.
  - intros n IN N0. rewrite (order_tr_leaving src V I dV n p p' P). apply K; [|exact N0]. apply (order_nodes p p' P). exact IN.
  - apply Forall_forall. intros e IE. pose proof (proj1 (Forall_forall _ _) L e (Permutation_in e P IE)) as H. destruct e; cbn [tr_law] in *; try exact H. rewrite (order_linked dI id p p' P). exact H.
Qed.
Lemma order_marches : forall src g c p p' d run, Permutation p p' -> marches src g c p' d run -> marches src g c p d run.
Proof.
  intros src g c p p' d run P. induction run as [|x run IH]; [auto|]. cbn [marches]. intros (M & R'). split; [|exact (IH R')]. destruct run as [|y run]; [exact Logic.I|].
  destruct M as (T & L & SV & SI). split; [exact T|]. split; [exact (order_tr_laws _ _ _ _ _ _ _ _ _ P L)|].
  split; [intros n IN; apply SV; apply (order_nodes p p' P); exact IN|intros id IN; apply SI; apply (order_ids p p' P); exact IN].
Qed.
Theorem C224_tran : forall at_time d op cmin gmin a parts parts' t t' es es' rows rows',
  tran_found at_time d op cmin gmin a parts t es rows -> tran_found at_time d op cmin gmin a parts' t' es' rows' -> Permutation parts parts' ->
  Forall (ac_sound parts) parts -> (forall k, 0 < k -> tr_regular k gmin (Rmax 0 cmin) parts) ->
  (op = true -> well_posed (dc_source (fun id => at_time id 0)) parts) ->
  (* the times are the same *)
  tran_report t' es' rows' (lit "t") = tran_report t es rows (lit "t") ->
  let same name := exists l, tran_report t es rows name = Ok l /\ tran_report t' es' rows' name = Ok l in
  (forall n name, In n (node_list parts) -> n <> lit "0" -> slower name = slower (lit "V" ++ n) -> same name) /\
  (forall id name, In id (current_ids parts) -> slower name = slower (lit "I(" ++ id ++ lit ")") -> same name).
Proof.
  intros at_time d op cmin gmin a parts parts' t t' es es' rows rows' F F' P O REG WP ET same. pose proof (order_ac_sound _ _ P O) as O'.
  assert (REG' : forall k, 0 < k -> tr_regular k gmin (Rmax 0 cmin) parts').
  { intros k K V I dV dI HV HI L. destruct (REG k K V I dV dI HV HI (order_tr_laws _ _ _ _ _ _ _ _ _ P L)) as (A & B). split; [intros n IN; apply A; apply (order_nodes _ _ P); exact IN|intros n IN; apply B; apply (order_ids _ _ P); exact IN]. }
  destruct (tran_found_laws _ _ _ _ _ _ _ _ _ _ F O REG) as (BD & b & l & M & A & B & RT & RV & RI).
  destruct (tran_found_laws _ _ _ _ _ _ _ _ _ _ F' O' REG') as (_ & b' & l' & M' & A' & B' & RT' & RV' & RI'). apply (order_marches _ _ _ _ _ _ _ P) in M'.
  rewrite (RT (lit "t") eq_refl), (RT' (lit "t") eq_refl) in ET. injection ET as ET.
  destruct (zip3 l l l' eq_refl ET) as (z & Z1 & Z2 & Z3 & TE).
  assert (HS : meets 1 0 parts (mkP3 b b b')).
  { assert (S0 : (forall n, In n (node_list parts) -> n <> lit "0" -> p_V b' n = p_V b n) /\ (forall id, In id (current_ids parts) -> p_I b' id = p_I b id)).
    { destruct op.
      - pose proof (WP eq_refl) as W. pose proof W as (V & I & L & UN). destruct (B W V I L) as (X & Y). pose proof (order_laws _ _ P _ _ _ L) as L'.
        destruct (B' (order_posed _ _ _ P W) V I L') as (X' & Y'). split.
        + intros n IN N0. rewrite (X n IN N0). apply X'; [apply (order_nodes _ _ P); exact IN|exact N0].
        + intros n IN. rewrite (Y n IN). apply Y'. apply (order_ids _ _ P). exact IN.
      - destruct B as (X & Y), B' as (X' & Y'). split.
        + intros n IN N0. rewrite (X n IN N0). apply X'; [apply (order_nodes _ _ P); exact IN|exact N0].
        + intros n IN. rewrite (Y n IN). apply Y'. apply (order_ids _ _ P). exact IN. }
    destruct S0 as (X & Y). split; cbn [a1 a2 a3]; [intros n IN N0; rewrite (X n IN N0); ring|intros n IN; rewrite (Y n IN); ring]. }
  set (src := fun time => dc_source (fun id => at_time id time)) in *.
  assert (ME : meeting 1 0 parts (rev z ++ [mkP3 b b b'])).
  { apply (run_mix src src src 1 0 gmin (Rmax 0 cmin) parts parts parts d (fun time => same_superposed _ _) O REG BD (rev z) _ HS).
    - intros q I'. apply in_app_iff in I'. destruct I' as [I'|[<-|[]]]; [apply TE; apply in_rev; exact I'|]. cbn [a1 a2 a3]. rewrite A, A'. auto.
    - rewrite map_app, map_rev, Z1. exact M.
    - rewrite map_app, map_rev, Z2. exact M.
    - rewrite map_app, map_rev, Z3. exact M'. }
  assert (HR : forall q, In q z -> meets 1 0 parts q).
  { intros q IQ. apply (meeting_in 1 0 parts _ q ME). apply in_or_app. left. apply -> in_rev. exact IQ. }
  assert (MX : forall f : tpoint -> R, (forall q, In q z -> f (a3 q) - 1 * f (a1 q) - 0 * f (a2 q) = 0) -> map f l' = map f l).
  { intros f H. rewrite <- Z1, <- Z3, !map_map. apply map_ext_in. intros q IQ. specialize (H q IQ). lra. }
  split.
  - intros n name IN N0 SN. exists (map (fun p => p_V p n) l). split; [auto|]. rewrite (RV' n name (proj1 (order_nodes _ _ P n) IN) N0 SN). f_equal. apply MX. intros q IQ. apply (HR q IQ); assumption.
  - intros id name IN SN. exists (map (fun p => p_I p id) l). split; [auto|]. rewrite (RI' id name (proj1 (order_ids _ _ P id) IN) SN). f_equal. apply MX. intros q IQ. apply (HR q IQ); assumption.
Qed.
Print Assumptions C224_tran.

(** ** Example: 1 A, 2 A and 4 A out of a resistor and a capacitor in parallel.  From the operating point to that with the conductance [gmin] of 1 S. *)
Definition cap_parts (z : Z) : list pelem :=
  [Netlist.PI (lit "i1") (lit "a") (lit "0") (Some (z, 0)%Z) None None; PR (lit "r1") (lit "a") (lit "0") (1, 0)%Z; PC (lit "c1") (lit "a") (lit "0") (1, 0)%Z None].
Definition cap_es (z : Z) : list lelem := [EI "i1" 1 0 (dR (z, 0)%Z) false; ER "r1" 1 0 (dR (1, 0)%Z); EC "c1" 1 0 (dR (1, 0)%Z)]%string.
Definition cap_lines (w : string) : list str := map lit ["cap"; String.append "I1 A 0 type=idc idc=" w; "R1 a 0 1"; "C1 a 0 1"; ".op"; ".tran 1 1 uic=1"]%string.
Lemma cap_laws : forall src v z, src (Netlist.PI (lit "i1") (lit "a") (lit "0") (Some (z, 0)%Z) None None) = v -> laws src (amp_V (- v)) (fun _ => 0) (cap_parts z).
Proof.
  intros src v z E. split; [reflexivity|]. split; [|repeat constructor]. intros n. unfold cap_parts. cbn [leaving]. unfold leaving1. cbn [first_end second_end through]. rewrite E, d_one.
  change (amp_V (- v) (lit "a")) with (- v). change (amp_V (- v) (lit "0")) with 0. repeat match goal with |- context [if ?b then _ else _] => destruct b end; lra.
Qed.
Lemma cap_posed : forall src z, well_posed src (cap_parts z).
Proof.
  intros src z. set (v := src (Netlist.PI (lit "i1") (lit "a") (lit "0") (Some (z, 0)%Z) None None)). exists (amp_V (- v)), (fun _ => 0). split; [apply cap_laws; reflexivity|].
  intros V I (Z0 & KCL & _). split; [|intros id []]. specialize (KCL (lit "a")). unfold cap_parts in KCL. cbn [leaving] in KCL. unfold leaving1 in KCL. cbn [first_end second_end through] in KCL. fold v in KCL.
  change (streqb (lit "a") (lit "a")) with true in KCL. change (streqb (lit "a") (lit "0")) with false in KCL. cbv iota in KCL. rewrite d_one, Z0 in KCL.
  assert (VA : V (lit "a") = - v) by (unfold Rdiv in KCL; lra). intros n IN. cbn in IN. repeat (destruct IN as [<-|IN]; [first [exact VA|exact Z0]|]). destruct IN.
Qed.
Lemma cap_sound : forall z, Forall (ac_sound (cap_parts z)) (cap_parts z).
Proof. intros z. repeat constructor. Qed.
Lemma cap_dissipative : forall z, Forall dissipative (cap_parts z).
Proof. intros z. repeat constructor; cbn [dissipative]; rewrite d_one; lra. Qed.
Lemma cap_no_loop : forall z, no_source_loop (cap_parts z).
Proof. intros z I _ id a b dc ac f IN. cbn in IN. destruct IN as [IN|[IN|[IN|[]]]]; discriminate IN. Qed.
Lemma cap_regular : forall z k, 0 < k -> tr_regular k 1 (Rmax 0 0) (cap_parts z).
Proof. intros z k K. apply C196_regular; auto using cap_sound, cap_dissipative, cap_no_loop; try lra; try apply Rmax_l; left; lra. Qed.
Lemma cap_found : forall at_time z w, load_all (fun _ => Some (cap_lines w)) (fun _ => Err NetlistParseError) 1 1 (lit "f") = Ok (cap_parts z, shunt_t, cap_es z) ->
  directives (fun _ => Some (cap_lines w)) 1 (lit "f") [lit ".op"; lit ".tran 1 1 uic=1"] ->
  exists rows, tran_found at_time DTrap true 0 1 0 (cap_parts z) shunt_t (cap_es z) rows /\ tran_report shunt_t (cap_es z) rows (lit "t") = Ok [1].
Proof.
  intros at_time z w LD DI.
  set (csolve := fun (_ : cmat) (_ : cvec) => @None cvec). set (JT := fun _ : vec => (mzero, vzero)). set (rest := fun (_ : list pelem * ntab * list lelem) (_ : str) (_ : list (str * Directive.val)) (_ : option result) => @Err result ValueError).
  set (check := fun _ _ _ : vec => true). set (locked := fun _ : list lelem => @nil (nat * nat)). set (modules := fun _ : string => m_ie).
  assert (PL1 : no_equals (lit "1")) by (unfold no_equals; cbn; intuition discriminate). set (words := [lit "1"; lit "1"; lit "uic=1"]).
  assert (SET : exists settings, o_method settings = "TRAP"%string /\ o_no_step settings = true) by (exists (let q := o_vea Session.default_opts in mkOpts q q q q q q q 0%Z 0%Z 0%Z 0%Z "TRAP" true (o_guess Session.default_opts)); split; reflexivity). destruct SET as (settings & ME & NS).
  assert (SV : solver_ok (fun _ => solve1) (op_size shunt_t (cap_es z))) by (apply amp_solver; reflexivity).
  edestruct (C214_tran (fun _ => solve1) csolve JT check locked PropsDc.default_opts (mkTd false true 0) false 20 20 20 30 tran_opts 0 1 at_time (fun _ => vzero) false (fun m => m) modules (fun _ => false) 1
    settings rest (fun _ r => Ok r)) with (parts := cap_parts z) (t := shunt_t) (es := cap_es z) (k := 0%nat) (v1 := lit "1") (v2 := lit "1") (d1 := (1, 0)%Z) (d2 := (1, 0)%Z) as (x & rows & M & TI);
    [exact LD|discriminate|repeat constructor|repeat constructor; cbn [passive]; rewrite ?d_one; lra|apply cap_posed|exact SV|reflexivity|lia|lia|reflexivity|lra
    |intros x; eexists; reflexivity|exact DI|reflexivity|reflexivity|exact PL1|exact PL1|reflexivity|reflexivity|reflexivity|reflexivity|apply cap_sound|apply cap_dissipative|apply cap_no_loop|lia|left; lra
    |reflexivity|exact ME|unfold step_control; rewrite NS; reflexivity|reflexivity|rewrite d_one; lra|rewrite d_one; cbn; lra|].
  exists rows. split.
  - do 22 eexists. exists (fun _ => Some (cap_lines w)), (fun _ => Err NetlistParseError), 1%nat, 1%nat, (lit "f"). eexists. exists [lit ".op"; lit ".tran 1 1 uic=1"], [lit ".op"], (lit ".tran 1 1 uic=1"), [], words, 1, 1, None.
    split; [exact M|]. split; [exact DI|]. split; [reflexivity|]. split; [reflexivity|]. split; [constructor|].
    split; [exists (lit "1"), (1, 0)%Z; split; [split; [exact PL1|exists 0%nat; right; split; reflexivity]|split; [reflexivity|symmetry; exact d_one]]|].
    split; [exists (lit "1"), (1, 0)%Z; split; [split; [exact PL1|exists 1%nat; right; split; reflexivity]|split; [reflexivity|symmetry; exact d_one]]|].
    split; [right; split; [|reflexivity]; intros i u W; (split; [intros v ->|discriminate]); cbn in W; do 3 (destruct i as [|i]; [cbn in W; discriminate W|]); destruct i; discriminate W|].
    split; [right; split; [|reflexivity]; intros i u W; (split; [intros v ->|discriminate]); cbn in W; do 3 (destruct i as [|i]; [cbn in W; discriminate W|]); destruct i; discriminate W|].
    split; [unfold tran_method; rewrite ME; reflexivity|]. split; [lra|].
    split; [split; [right; exists (lit "1"), (1, 0)%Z; split; [split; [exact PL1|exists 2%nat; left; reflexivity]|split; reflexivity]|]; split; [constructor|];
      exists [], (lit ".op"), [], [], x, true; repeat split; constructor|].
    split; [discriminate|]. split; [exact SV|]. split; [reflexivity|]. split; [lia|]. split; [lia|]. split; [lia|]. split; reflexivity.
  - assert (NR : rows <> []) by (intros ->; discriminate TI).
    destruct (tran_table shunt_t (cap_es z) [lit "a"] [] rows) as (T0 & _);
      [reflexivity|reflexivity|repeat constructor; intros []|repeat constructor|repeat constructor; cbn; intuition discriminate|constructor|reflexivity|exact NR|].
    rewrite (T0 (lit "t") eq_refl). f_equal. rewrite TI. cbn [seq map]. rewrite d_one. f_equal. cbn. ring.
Qed.
Ltac cap_run at_time z w :=
  destruct (cap_found at_time z w) as (?rows & ?F & ?T);
  [amp_load|amp_dirs (lit "cap") (cap_lines w) [BLine (lit (String.append "i1 a 0 type=idc idc=" w)); BLine (lit "r1 a 0 1"); BLine (lit "c1 a 0 1"); BLine (lit ".op"); BLine (lit ".tran 1 1 uic=1")]|].
Example C227_example : forall at_time, exists rows1 rows2 rows3 v1 v2,
  tran_found at_time DTrap true 0 1 0 (cap_parts 1) shunt_t (cap_es 1) rows1 /\ tran_found at_time DTrap true 0 1 0 (cap_parts 2) shunt_t (cap_es 2) rows2 /\
  tran_found at_time DTrap true 0 1 0 (cap_parts 4) shunt_t (cap_es 4) rows3 /\
  tran_report shunt_t (cap_es 1) rows1 (lit "VA") = Ok [v1] /\ tran_report shunt_t (cap_es 2) rows2 (lit "VA") = Ok [v2] /\ tran_report shunt_t (cap_es 4) rows3 (lit "VA") = Ok [2 * v1 + 1 * v2].
Proof.
  intros at_time. cap_run at_time 1%Z "1"%string. cap_run at_time 2%Z "2"%string. cap_run at_time 4%Z "4"%string. exists rows, rows0, rows1.
  destruct (C227_superposition at_time at_time at_time DTrap true 0 1 0 (cap_parts 1) (cap_parts 2) (cap_parts 4) shunt_t shunt_t shunt_t (cap_es 1) (cap_es 2) (cap_es 4) rows rows0 rows1 2 1 F F0 F1) as (A & _).
  - intros time. apply sup_cons; [repeat split|repeat split|unfold dc_source, driven, written_dc; rewrite !d_int; lra|].
    apply sup_cons; [reflexivity|reflexivity|unfold dc_source, driven, written_dc; lra|]. apply sup_cons; [reflexivity|reflexivity|unfold dc_source, driven, written_dc; lra|apply sup_nil].
  - apply cap_sound.
  - apply cap_sound.
  - apply cap_sound.
  - intros parts k IN. cbn in IN. destruct IN as [<-|[<-|[<-|[]]]]; apply cap_regular.
  - intros _. repeat split; apply cap_posed.
  - rewrite T, T0. reflexivity.
  - rewrite T, T1. reflexivity.
  - destruct (A (lit "a") (lit "VA") ltac:(left; reflexivity) ltac:(discriminate) eq_refl) as (l1 & l2 & l3 & R1 & R2 & R3 & LN & MX).
    destruct (tran_found_laws _ _ _ _ _ _ _ _ _ _ F (cap_sound 1) (cap_regular 1)) as (_ & start & points & _ & _ & _ & RT & RV & _). rewrite (RT (lit "t") eq_refl) in T. injection T as T.
    rewrite (RV (lit "a") (lit "VA") ltac:(left; reflexivity) ltac:(discriminate) eq_refl) in R1. injection R1 as <-.
    destruct points as [|p [|? ?]]; try discriminate T. cbn [map List.length] in *. destruct l2 as [|v2 [|? ?]]; try discriminate LN. exists (p_V p (lit "a")), v2.
    split; [exact F|]. split; [exact F0|]. split; [exact F1|]. split; [exact (RV (lit "a") (lit "VA") ltac:(left; reflexivity) ltac:(discriminate) eq_refl)|]. split; [exact R2|]. rewrite R3, MX. reflexivity.
Qed.

(** * C228: AC analyses *)
Definition ac_value (e : pelem) : R := match e with PV _ _ _ _ ac _ | Netlist.PI _ _ _ _ ac _ => amplitude true ac | _ => 0 end.
Section AcMix.
  Variables (w g c k1 k2 : R) (Vr1 Vi1 Ir1 Ii1 Vr2 Vi2 Ir2 Ii2 : str -> R).
  Let mx (f1 f2 : str -> R) (m : str) : R := k1 * f1 m + k2 * f2 m.
  Lemma ac_mix_leaving : forall part n l1 l2 l3, part = fst \/ part = snd -> superposed ac_value ac_value ac_value k1 k2 l1 l2 l3 ->
    ac_leaving w true (mx Vr1 Vr2) (mx Vi1 Vi2) (mx Ir1 Ir2) (mx Ii1 Ii2) part n l3 = k1 * ac_leaving w true Vr1 Vi1 Ir1 Ii1 part n l1 + k2 * ac_leaving w true Vr2 Vi2 Ir2 Ii2 part n l2.
  Proof.
    intros part n l1 l2 l3 PT H. induction H as [|e1 e2 e3 l1 l2 l3 R2 R3 S3 _ IH]; [cbn; ring|]. cbn [ac_leaving]. rewrite IH.
    destruct (revalued_shape _ _ R2) as (_ & _ & _ & F2 & E2). destruct (revalued_shape _ _ R3) as (_ & _ & _ & F3 & E3).
    assert (T : part (ac_through w true (mx Vr1 Vr2) (mx Vi1 Vi2) (mx Ir1 Ir2) (mx Ii1 Ii2) e3) = k1 * part (ac_through w true Vr1 Vi1 Ir1 Ii1 e1) + k2 * part (ac_through w true Vr2 Vi2 Ir2 Ii2 e2)).
    { destruct e1, e2; cbn [revalued] in R2; try discriminate R2; destruct e3; cbn [revalued] in R3; try discriminate R3;
        first [destruct R2 as (-> & -> & ->); destruct R3 as (-> & -> & ->) | injection R2; injection R3; intros; subst]; destruct PT as [-> | ->]; cbn [ac_through fst snd ac_value] in *; unfold mx, Rdiv; try ring; exact S3. }
    unfold ac_leaving1. rewrite F2, F3, E2, E3, T. repeat match goal with |- context [if ?b then _ else _] => destruct b end; ring.
  Qed.
  Lemma ac_mix_linked : forall J1 J2 id l1 l2 l3, superposed ac_value ac_value ac_value k1 k2 l1 l2 l3 -> linked (mx J1 J2) id l3 = k1 * linked J1 id l1 + k2 * linked J2 id l2.
  Proof.
    intros J1 J2 id l1 l2 l3 H. induction H as [|e1 e2 e3 l1 l2 l3 R2 R3 S3 _ IH]; [cbn; ring|].
    destruct e1, e2; cbn [revalued] in R2; try discriminate R2; destruct e3; cbn [revalued] in R3; try discriminate R3; cbn [linked]; try exact IH.
    injection R2; injection R3; intros; subst. rewrite IH. unfold mx. repeat match goal with |- context [if ?b then _ else _] => destruct b end; ring.
  Qed.
  Lemma ac_mix_law : forall p1 p2 p3 l1 l2 l3, superposed ac_value ac_value ac_value k1 k2 p1 p2 p3 -> superposed ac_value ac_value ac_value k1 k2 l1 l2 l3 ->
    Forall (ac_law w true p1 Vr1 Vi1 Ir1 Ii1) l1 -> Forall (ac_law w true p2 Vr2 Vi2 Ir2 Ii2) l2 -> Forall (ac_law w true p3 (mx Vr1 Vr2) (mx Vi1 Vi2) (mx Ir1 Ir2) (mx Ii1 Ii2)) l3.
  Proof.
    intros p1 p2 p3 l1 l2 l3 SP H. induction H as [|e1 e2 e3 l1 l2 l3 R2 R3 S3 _ IH]; intros L1 L2; [constructor|].
    inversion L1 as [|? ? A1 B1]; inversion L2 as [|? ? A2 B2]; subst. constructor; [|exact (IH B1 B2)].
    destruct e1, e2; cbn [revalued] in R2; try discriminate R2; destruct e3; cbn [revalued] in R3; try discriminate R3; try exact Logic.I;
      first [destruct R2 as (-> & -> & ->); destruct R3 as (-> & -> & ->) | injection R2; injection R3; intros; subst]; cbn [ac_law ac_value] in *; try exact Logic.I; rewrite ?(ac_mix_linked _ _ _ _ _ _ SP);
      destruct A1 as (A1 & C1), A2 as (A2 & C2); unfold mx; split;
      match goal with |- ?x1 * ?a + ?x2 * ?b - (?x1 * ?a' + ?x2 * ?b') = _ => replace (x1 * a + x2 * b - (x1 * a' + x2 * b')) with (x1 * (a - a') + x2 * (b - b')) by ring end;
      rewrite ?A1, ?A2, ?C1, ?C2, ?S3; ring.
  Qed.
  Lemma ac_mix_laws : forall p1 p2 p3, superposed ac_value ac_value ac_value k1 k2 p1 p2 p3 -> ac_laws w g c true p1 Vr1 Vi1 Ir1 Ii1 -> ac_laws w g c true p2 Vr2 Vi2 Ir2 Ii2 ->
    ac_laws w g c true p3 (mx Vr1 Vr2) (mx Vi1 Vi2) (mx Ir1 Ir2) (mx Ii1 Ii2).
  Proof.
    intros p1 p2 p3 SP (Z1 & Y1 & K1 & L1) (Z2 & Y2 & K2 & L2). destruct (superposed_shape _ _ _ _ _ _ _ _ SP) as (N2 & N3 & _ & _). rewrite N2 in K2.
    split; [unfold mx; rewrite Z1, Z2; ring|]. split; [unfold mx; rewrite Y1, Y2; ring|]. split; [|exact (ac_mix_law _ _ _ _ _ _ SP SP L1 L2)]. intros n IN N0. rewrite N3 in IN.
    rewrite !(ac_mix_leaving _ n _ _ _ (or_introl eq_refl) SP), !(ac_mix_leaving _ n _ _ _ (or_intror eq_refl) SP). destruct (K1 n IN N0) as (X1 & W1). destruct (K2 n IN N0) as (X2 & W2). unfold mx. split.
    - transitivity (k1 * (ac_leaving w true Vr1 Vi1 Ir1 Ii1 fst n p1 + g * Vr1 n - w * c * Vi1 n) + k2 * (ac_leaving w true Vr2 Vi2 Ir2 Ii2 fst n p2 + g * Vr2 n - w * c * Vi2 n)); [ring|rewrite X1, X2; ring].
    - transitivity (k1 * (ac_leaving w true Vr1 Vi1 Ir1 Ii1 snd n p1 + g * Vi1 n + w * c * Vr1 n) + k2 * (ac_leaving w true Vr2 Vi2 Ir2 Ii2 snd n p2 + g * Vi2 n + w * c * Vr2 n)); [ring|rewrite W1, W2; ring].
  Qed.
End AcMix.

(** [l3] is [k1] times [l1] and [k2] times [l2], for complex numbers. *)
Definition cmixes (k1 k2 : R) (l1 l2 l3 : list (R * R)) : Prop :=
  List.length l2 = List.length l1 /\ l3 = map (fun p => (k1 * fst (fst p) + k2 * fst (snd p), k1 * snd (fst p) + k2 * snd (snd p))) (combine l1 l2).
Lemma forall2_cmixes : forall (X1 X2 X3 : R -> R * R -> Prop) k1 k2 ws l1 l2 l3, Forall2 X1 ws l1 -> Forall2 X2 ws l2 -> Forall2 X3 ws l3 ->
  (forall w y z u, In w ws -> X1 w y -> X2 w z -> X3 w u -> u = (k1 * fst y + k2 * fst z, k1 * snd y + k2 * snd z)) -> cmixes k1 k2 l1 l2 l3.
Proof.
  intros X1 X2 X3 k1 k2 ws l1 l2 l3 F1. revert l2 l3. induction F1 as [|w y ws l1 Y F1 IH]; intros l2 l3 F2 F3 H; inversion F2 as [|? z ? l2' Z F2']; inversion F3 as [|? u ? l3' U F3']; subst; [split; reflexivity|].
  destruct (IH l2' l3' F2' F3' (fun w' y' z' u' I' => H w' y' z' u' (or_intror I'))) as (A & B). split; [cbn; rewrite A; reflexivity|]. cbn [combine map fst snd]. rewrite <- B. f_equal. exact (H w y z u (or_introl eq_refl) Y Z U).
Qed.
Theorem C228_superposition : forall fuel cmin gmin a b n sweep parts1 parts2 parts3 t1 t2 t3 es1 es2 es3 rows1 rows2 rows3 angle k1 k2,
  ac_found fuel cmin gmin a b n sweep parts1 t1 es1 rows1 -> ac_found fuel cmin gmin a b n sweep parts2 t2 es2 rows2 -> ac_found fuel cmin gmin a b n sweep parts3 t3 es3 rows3 ->
  superposed ac_value ac_value ac_value k1 k2 parts1 parts2 parts3 ->
  Forall (ac_sound parts1) parts1 -> Forall (ac_sound parts2) parts2 -> Forall (ac_sound parts3) parts3 -> is_angle angle ->
  (forall ws w parts, omegas fuel a b n (Some (ss sweep)) = Ok ws -> In w ws -> In parts [parts1; parts2; parts3] -> ac_well_posed w gmin (Rmax 0 cmin) parts) ->
  let mixed name := exists l1 l2 l3, ac_report angle false t1 es1 rows1 name = Ok l1 /\ ac_report angle false t2 es2 rows2 name = Ok l2 /\ ac_report angle false t3 es3 rows3 name = Ok l3 /\ cmixes k1 k2 l1 l2 l3 in
  (forall n name, In n (node_list parts1) -> n <> lit "0" -> slower name = slower (lit "V" ++ n) -> mixed name) /\
  (forall id name, In id (current_ids parts1) -> slower name = slower (lit "I(" ++ id ++ lit ")") -> mixed name).
Proof.
  intros fuel cmin gmin a b n sweep parts1 parts2 parts3 t1 t2 t3 es1 es2 es3 rows1 rows2 rows3 angle k1 k2 F1 F2 F3 SU O1 O2 O3 AN WP mixed. destruct (superposed_shape _ _ _ _ _ _ _ _ SU) as (N2 & N3 & C2 & C3).
  destruct (ac_found_laws _ _ _ _ _ _ _ _ _ _ _ angle F1 O1 AN) as (ws & OM & K). destruct (K (fun w Hw => WP ws w parts1 OM Hw (or_introl eq_refl))) as (A1 & B1). clear K.
  destruct (ac_found_laws _ _ _ _ _ _ _ _ _ _ _ angle F2 O2 AN) as (ws' & OM' & K). rewrite OM in OM'. injection OM' as <-. destruct (K (fun w Hw => WP ws w parts2 OM Hw (or_intror (or_introl eq_refl)))) as (A2 & B2). clear K.
  destruct (ac_found_laws _ _ _ _ _ _ _ _ _ _ _ angle F3 O3 AN) as (ws' & OM' & K). rewrite OM in OM'. injection OM' as <-. destruct (K (fun w Hw => WP ws w parts3 OM Hw (or_intror (or_intror (or_introl eq_refl))))) as (A3 & B3). clear K.
  rewrite N2, C2 in *. rewrite N3, C3 in *. split.
  - intros m name IN N0 SN. destruct (A1 m name IN N0 SN) as (l1 & R1 & G1). destruct (A2 m name IN N0 SN) as (l2 & R2 & G2). destruct (A3 m name IN N0 SN) as (l3 & R3 & G3). exists l1, l2, l3.
    split; [exact R1|]. split; [exact R2|]. split; [exact R3|]. apply (forall2_cmixes _ _ _ _ _ _ _ _ _ G1 G2 G3). intros w y z u Hw Y Z U.
    destruct (WP ws w parts1 OM Hw (or_introl eq_refl)) as (Vr1 & Vi1 & Ir1 & Ii1 & L1 & _). destruct (WP ws w parts2 OM Hw (or_intror (or_introl eq_refl))) as (Vr2 & Vi2 & Ir2 & Ii2 & L2 & _).
    rewrite (Y _ _ _ _ L1), (Z _ _ _ _ L2), (U _ _ _ _ (ac_mix_laws _ _ _ _ _ _ _ _ _ _ _ _ _ _ _ _ SU L1 L2)). reflexivity.
  - intros id name IN SN. destruct (B1 id name IN SN) as (l1 & R1 & G1). destruct (B2 id name IN SN) as (l2 & R2 & G2). destruct (B3 id name IN SN) as (l3 & R3 & G3). exists l1, l2, l3.
    split; [exact R1|]. split; [exact R2|]. split; [exact R3|]. apply (forall2_cmixes _ _ _ _ _ _ _ _ _ G1 G2 G3). intros w y z u Hw Y Z U.
    destruct (WP ws w parts1 OM Hw (or_introl eq_refl)) as (Vr1 & Vi1 & Ir1 & Ii1 & L1 & _). destruct (WP ws w parts2 OM Hw (or_intror (or_introl eq_refl))) as (Vr2 & Vi2 & Ir2 & Ii2 & L2 & _).
    rewrite (Y _ _ _ _ L1), (Z _ _ _ _ L2), (U _ _ _ _ (ac_mix_laws _ _ _ _ _ _ _ _ _ _ _ _ _ _ _ _ SU L1 L2)). reflexivity.
Qed.
Print Assumptions C228_superposition.

(** The DC values and the time functions of the sources make no difference. *)
Definition same_ac (e e' : pelem) : Prop := revalued e e' /\ ac_value e' = ac_value e.
Lemma revalued_refl : forall e, revalued e e.
Proof. intros e. destruct e; cbn; auto. Qed.
Lemma same_ac_superposed : forall l l', Forall2 same_ac l l' -> superposed ac_value ac_value ac_value 1 0 l l l'.
Proof. intros l l' H. induction H as [|e e' l l' (R' & A) _ IH]; [apply sup_nil|]. apply sup_cons; [apply revalued_refl|exact R'|rewrite A; ring|exact IH]. Qed.
Theorem C228_dc_values : forall fuel cmin gmin a b n sweep parts parts' t t' es es' rows rows' angle,
  ac_found fuel cmin gmin a b n sweep parts t es rows -> ac_found fuel cmin gmin a b n sweep parts' t' es' rows' -> Forall2 same_ac parts parts' ->
  Forall (ac_sound parts) parts -> Forall (ac_sound parts') parts' -> is_angle angle -> (forall ws w, omegas fuel a b n (Some (ss sweep)) = Ok ws -> In w ws -> ac_well_posed w gmin (Rmax 0 cmin) parts /\ ac_well_posed w gmin (Rmax 0 cmin) parts') ->
  let same name := exists l, ac_report angle false t es rows name = Ok l /\ ac_report angle false t' es' rows' name = Ok l in
  (forall n name, In n (node_list parts) -> n <> lit "0" -> slower name = slower (lit "V" ++ n) -> same name) /\
  (forall id name, In id (current_ids parts) -> slower name = slower (lit "I(" ++ id ++ lit ")") -> same name).
Proof.
  intros fuel cmin gmin a b n sweep parts parts' t t' es es' rows rows' angle F F' SA O O' AN WP same.
  destruct (C228_superposition fuel cmin gmin a b n sweep parts parts parts' t t t' es es es' rows rows rows' angle 1 0 F F F' (same_ac_superposed _ _ SA) O O O' AN) as (A & B).
  { intros ws w p OM Hw IN. cbn in IN. destruct (WP ws w OM Hw). destruct IN as [<-|[<-|[<-|[]]]]; assumption. }
  assert (ONE : forall l1 l3, cmixes 1 0 l1 l1 l3 -> l3 = l1).
  { intros l1 l3 (_ & ->). induction l1 as [|(x, y) l1 IH]; [reflexivity|]. cbn [combine map fst snd]. rewrite IH. f_equal. f_equal; ring. }
  split; [intros m name IN N0 SN; destruct (A m name IN N0 SN) as (l1 & l2 & l3 & R1 & R2 & R3 & MX)|intros id name IN SN; destruct (B id name IN SN) as (l1 & l2 & l3 & R1 & R2 & R3 & MX)];
    rewrite R1 in R2; injection R2 as <-; exists l1; (split; [exact R1|]); rewrite R3; f_equal; exact (ONE _ _ MX).
Qed.
Print Assumptions C228_dc_values.
