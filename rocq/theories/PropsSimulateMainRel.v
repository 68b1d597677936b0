(** Relations between results of the program: other orders of the elements (C224), superposition (C225), sweeps through the written value (C226). *)
From Coq Require Import Ascii String Reals List Bool Arith ZArith Lia Lra Permutation.
From Verif Require Import Base BaseFacts Str Units Directive Lines Reader Netlist ModelLines Nodes NodesFacts Circuit CircuitFacts Rsum Mna MnaSpec DcSolve Newton
  NewtonFacts DynFacts Df Tran TranFacts PropsTran Ac AcFacts Sweep Csv PropsCsv Results PropsDirective PropsReader PropsNetlist PropsResults PropsMna PropsDc PropsAc Session PropsSetup
  RunQueue Ics PropsIcs Subckt PropsSubckt Simulate PropsSimulate SimulateAc PropsSimulateAc SimulateDc PropsSimulateDc SimulateTran PropsSimulateTran SimulateNl PropsSimulateNl
  SimulateSub PropsSimulateSub PropsSimulateHier PropsSimulateSubLaws PropsSimulateOp SimulateMain PropsSimulateMain.
Import ListNotations.
Open Scope R_scope.

(** * A run of the program on some netlist file, with some options, solvers and guesses *)

(** It read the elements [parts], and [x] is the operating point in its dictionary. *)
Definition op_found (at_time : str -> R -> R) (parts : list pelem) (t : ntab) (es : list lelem) (x : vec) : Prop :=
  exists solve csolve JT check locked o tdo damp_first maxit acit trit fuel topt cmin gmin guess skip inv modules has_module rounds settings rest icmod
    fs user depth files filename rs dirs before line after words flag,
  main_file solve csolve JT check locked o tdo damp_first maxit acit trit fuel topt cmin gmin at_time guess skip inv modules has_module rounds settings rest icmod
    fs user depth files filename = Ok (parts, t, es, rs) /\
  directives fs files filename dirs /\ dirs = before ++ line :: after /\ asks "op" line words /\ Forall (fun l => ~ of_type "op" l) after /\
  (forall line l, user line = Ok l -> Forall word_names l) /\
  solver_ok solve (op_size t es) /\ d_first tdo = false /\ (0 < maxit)%nat /\ (0 < fuel)%nat /\ o_std o = true /\
  dget streqb rs (lit "op") = Some (ROp (Some (x, flag))).
(** The same for an AC analysis. *)
Definition ac_found (fuel : nat) (cmin gmin : R) (a b n : R) (sweep : str) (parts : list pelem) (t : ntab) (es : list lelem) (rows : list (R * cvec)) : Prop :=
  exists solve csolve JT check locked o tdo maxit acit trit topt at_time guess skip inv modules has_module rounds settings rest icmod
    fs user depth files filename rs dirs before line after words,
  main_file solve csolve JT check locked o tdo false maxit acit trit fuel topt cmin gmin at_time guess skip inv modules has_module rounds settings rest icmod
    fs user depth files filename = Ok (parts, t, es, rs) /\
  directives fs files filename dirs /\ dirs = before ++ line :: after /\ asks "ac" line words /\ Forall (fun l => ~ of_type "ac" l) after /\
  quantity "nsteps" (Some 1)%nat words n /\ quantity "start" (Some 2)%nat words a /\ quantity "stop" (Some 3)%nat words b /\
  (parameter "type" (Some 0)%nat words sweep \/ (absent "type" (Some 0)%nat words /\ sweep = lit "LOG")) /\ nonlinear es = false /\
  (forall line l, user line = Ok l -> Forall word_names l) /\
  csolver_ok (op_size t es) csolve /\ o_std o = true /\
  dget streqb rs (lit "ac") = Some (RAc (Some rows)).

Lemma op_found_laws : forall at_time parts t es x, op_found at_time parts t es x -> Forall (sound parts) parts -> well_posed (dc_source (fun id => at_time id 0)) parts ->
  forall V I, laws (dc_source (fun id => at_time id 0)) V I parts ->
    (forall n name, In n (node_list parts) -> n <> lit "0" -> slower name = slower (lit "V" ++ n) -> op_report t es x name = Ok (V n)) /\
    (forall id name, In id (current_ids parts) -> slower name = slower (lit "I(" ++ id ++ lit ")") -> op_report t es x name = Ok (I id)).
Proof.
  intros at_time parts t es x (solve & csolve & JT & check & locked & o & tdo & damp_first & maxit & acit & trit & fuel & topt & cmin & gmin & guess & skip & inv & modules & has_module & rounds & settings & rest & icmod
    & fs & user & depth & files & filename & rs & dirs & before & line & after & words & flag & M & DI & BLA & A & LAST & US & SV & DF & MX & FU & OS & DG) SO WP.
  destruct (C213_op solve csolve JT check locked o tdo damp_first maxit acit trit fuel topt cmin gmin at_time guess skip inv modules has_module rounds settings rest icmod
    fs user depth files filename parts t es rs dirs before line after words M DI BLA A LAST US SO WP SV DF MX FU OS) as (r & RG & K).
  rewrite DG in RG. injection RG as <-. exact (proj2 (K x flag eq_refl)).
Qed.
Lemma ac_found_laws : forall fuel cmin gmin a b n sweep parts t es rows angle, ac_found fuel cmin gmin a b n sweep parts t es rows -> Forall (ac_sound parts) parts -> is_angle angle ->
  exists ws, omegas fuel a b n (Some (ss sweep)) = Ok ws /\
    ((forall w, In w ws -> ac_well_posed w gmin (Rmax 0 cmin) parts) ->
     (forall n name, In n (node_list parts) -> n <> lit "0" -> slower name = slower (lit "V" ++ n) ->
        exists l, ac_report angle false t es rows name = Ok l /\ Forall2 (fun w z => forall Vr Vi Ir Ii, ac_laws w gmin (Rmax 0 cmin) true parts Vr Vi Ir Ii -> z = (Vr n, Vi n)) ws l) /\
     (forall id name, In id (current_ids parts) -> slower name = slower (lit "I(" ++ id ++ lit ")") ->
        exists l, ac_report angle false t es rows name = Ok l /\ Forall2 (fun w z => forall Vr Vi Ir Ii, ac_laws w gmin (Rmax 0 cmin) true parts Vr Vi Ir Ii -> z = (Ir id, Ii id)) ws l)).
Proof.
  intros fuel cmin gmin a b n sweep parts t es rows angle (solve & csolve & JT & check & locked & o & tdo & maxit & acit & trit & topt & at_time & guess & skip & inv & modules & has_module & rounds & settings & rest & icmod
    & fs & user & depth & files & filename & rs & dirs & before & line & after & words & M & DI & BLA & A & LAST & QN & QA & QB & TY & NL & US & CS & OS & DG) SO AN.
  destruct (C213_ac solve csolve JT check locked o tdo false maxit acit trit fuel topt cmin gmin at_time guess skip inv modules has_module rounds settings rest icmod
    fs user depth files filename parts t es rs dirs before line after words n a b sweep angle M DI BLA A LAST QN QA QB TY NL US SO CS AN eq_refl OS) as (r & RG & K).
  rewrite DG in RG. injection RG as <-. destruct (K rows eq_refl) as (ws & OM & _ & H). exists ws. split; [exact OM|exact H].
Qed.

(** * C224: the order of the elements *)
Lemma order_leaving : forall src V I n parts parts', Permutation parts parts' -> leaving src V I n parts = leaving src V I n parts'.
Proof. intros src V I n parts parts' P. induction P as [|e l l' _ IH|e e' l|l1 l2 l3 _ IH1 _ IH2]; cbn [leaving]; lra. Qed.
Lemma order_ac_leaving : forall w on Vr Vi Ir Ii part n parts parts', Permutation parts parts' -> ac_leaving w on Vr Vi Ir Ii part n parts = ac_leaving w on Vr Vi Ir Ii part n parts'.
Proof. intros w on Vr Vi Ir Ii part n parts parts' P. induction P as [|e l l' _ IH|e e' l|l1 l2 l3 _ IH1 _ IH2]; cbn [ac_leaving]; lra. Qed.
Lemma order_linked : forall J id parts parts', Permutation parts parts' -> linked J id parts = linked J id parts'.
Proof.
  intros J id parts parts' P. induction P as [|e l l' _ IH|e e' l|l1 l2 l3 _ IH1 _ IH2]; [reflexivity| | |congruence].
  - destruct e; cbn [linked]; rewrite IH; reflexivity.
  - destruct e, e'; cbn [linked]; try reflexivity. ring.
Qed.
Section Order.
  Variables parts parts' : list pelem.
  Hypothesis P : Permutation parts parts'.
  Lemma order_nodes : forall n, In n (node_list parts) <-> In n (node_list parts').
  Proof. intros n. unfold node_list. rewrite !in_flat_map. split; intros (e & I1 & I2); exists e; (split; [|exact I2]); [apply (Permutation_in e P I1)|apply (Permutation_in e (Permutation_sym P) I1)]. Qed.
  Lemma order_ids : forall id, In id (current_ids parts) <-> In id (current_ids parts').
  Proof.
    intros id. unfold current_ids. rewrite !in_map_iff. split; intros (e & E & I1); exists e; (split; [exact E|]); apply filter_In in I1; apply filter_In; (split; [|apply I1]);
      [apply (Permutation_in e P (proj1 I1))|apply (Permutation_in e (Permutation_sym P) (proj1 I1))].
  Qed.
  Lemma order_sound : Forall (sound parts) parts -> Forall (sound parts') parts'.
  Proof.
    intros H. apply Forall_forall. intros e IE. pose proof (proj1 (Forall_forall _ _) H e (Permutation_in e (Permutation_sym P) IE)) as S1. destruct e; cbn [sound] in *; try exact S1. apply order_ids. exact S1.
  Qed.
  Lemma order_ac_sound : Forall (ac_sound parts) parts -> Forall (ac_sound parts') parts'.
  Proof.
    intros H. apply Forall_forall. intros e IE. pose proof (proj1 (Forall_forall _ _) H e (Permutation_in e (Permutation_sym P) IE)) as (S1 & S2). split.
    - destruct e; cbn [sound] in *; try exact S1. apply order_ids. exact S1.
    - destruct e; try exact Logic.I. destruct S2 as (NE & (a1 & b1 & w1 & c1 & H1) & (a2 & b2 & w2 & c2 & H2)). split; [exact NE|].
      split; do 4 eexists; [exact (Permutation_in _ P H1)|exact (Permutation_in _ P H2)].
  Qed.
  Lemma order_laws : forall src V I, laws src V I parts -> laws src V I parts'.
  Proof.
    intros src V I (Z & K & L). split; [exact Z|]. split; [intros n; rewrite <- (order_leaving _ _ _ _ _ _ P); apply K|]. apply Forall_forall. intros e IE. exact (proj1 (Forall_forall _ _) L e (Permutation_in e (Permutation_sym P) IE)).
  Qed.
  Lemma order_ac_laws : forall w g c Vr Vi Ir Ii, ac_laws w g c true parts Vr Vi Ir Ii -> ac_laws w g c true parts' Vr Vi Ir Ii.
  Proof.
    intros w g c Vr Vi Ir Ii (Z1 & Z2 & K & L). split; [exact Z1|]. split; [exact Z2|]. split.
    - intros n IN N0. rewrite <- !(order_ac_leaving _ _ _ _ _ _ _ _ _ _ P). apply K; [apply order_nodes; exact IN|exact N0].
    - apply Forall_forall. intros e IE. pose proof (proj1 (Forall_forall _ _) L e (Permutation_in e (Permutation_sym P) IE)) as H. destruct e; cbn [ac_law] in *; try exact H. rewrite <- !(order_linked _ _ _ _ P). exact H.
  Qed.
End Order.
Lemma order_posed : forall src parts parts', Permutation parts parts' -> well_posed src parts -> well_posed src parts'.
Proof.
  intros src parts parts' P (V & I & L & U). exists V, I. split; [exact (order_laws _ _ P _ _ _ L)|]. intros V' I' L'. destruct (U V' I' (order_laws _ _ (Permutation_sym P) _ _ _ L')) as (A & B).
  split; intros n IN; [apply A; apply (order_nodes _ _ P); exact IN|apply B; apply (order_ids _ _ P); exact IN].
Qed.
Lemma order_ac_posed : forall w g c parts parts', Permutation parts parts' -> ac_well_posed w g c parts -> ac_well_posed w g c parts'.
Proof.
  intros w g c parts parts' P (Vr & Vi & Ir & Ii & L & U). exists Vr, Vi, Ir, Ii. split; [exact (order_ac_laws _ _ P _ _ _ _ _ _ _ L)|]. intros a1 a2 a3 a4 L'.
  destruct (U a1 a2 a3 a4 (order_ac_laws _ _ (Permutation_sym P) _ _ _ _ _ _ _ L')) as (A & B).
  split; intros n IN; [apply A; apply (order_nodes _ _ P); exact IN|apply B; apply (order_ids _ _ P); exact IN].
Qed.

Theorem C224_op : forall at_time parts parts' t t' es es' x x', op_found at_time parts t es x -> op_found at_time parts' t' es' x' -> Permutation parts parts' ->
  Forall (sound parts) parts -> well_posed (dc_source (fun id => at_time id 0)) parts ->
  (forall n name, In n (node_list parts) -> n <> lit "0" -> slower name = slower (lit "V" ++ n) -> exists v, op_report t es x name = Ok v /\ op_report t' es' x' name = Ok v) /\
  (forall id name, In id (current_ids parts) -> slower name = slower (lit "I(" ++ id ++ lit ")") -> exists v, op_report t es x name = Ok v /\ op_report t' es' x' name = Ok v).
Proof.
  intros at_time parts parts' t t' es es' x x' F F' P SO WP. pose proof WP as (V & I & L & _).
  destruct (op_found_laws _ _ _ _ _ F SO WP V I L) as (A & B).
  destruct (op_found_laws _ _ _ _ _ F' (order_sound _ _ P SO) (order_posed _ _ _ P WP) V I (order_laws _ _ P _ _ _ L)) as (A' & B'). split.
  - intros n name IN N0 SN. exists (V n). split; [exact (A n name IN N0 SN)|]. apply A'; [apply (order_nodes _ _ P); exact IN|exact N0|exact SN].
  - intros id name IN SN. exists (I id). split; [exact (B id name IN SN)|]. apply B'; [apply (order_ids _ _ P); exact IN|exact SN].
Qed.
Print Assumptions C224_op.

Lemma forall2_same : forall (A B : Type) (X Y : A -> B -> Prop) ws l l', Forall2 X ws l -> Forall2 Y ws l' -> (forall w z z', In w ws -> X w z -> Y w z' -> z = z') -> l = l'.
Proof.
  intros A B X Y ws l l' H. revert l'. induction H as [|w z ws l Hz H IH]; intros l' H' K; inversion H' as [|? z' ? l1 Hz' H1]; subst; [reflexivity|].
  f_equal; [exact (K w z z' (or_introl eq_refl) Hz Hz')|]. apply IH; [exact H1|]. intros w0 a b I'. apply K. right. exact I'.
Qed.
Theorem C224_ac : forall fuel cmin gmin a b n sweep parts parts' t t' es es' rows rows' angle,
  ac_found fuel cmin gmin a b n sweep parts t es rows -> ac_found fuel cmin gmin a b n sweep parts' t' es' rows' -> Permutation parts parts' ->
  Forall (ac_sound parts) parts -> is_angle angle -> (forall ws w, omegas fuel a b n (Some (ss sweep)) = Ok ws -> In w ws -> ac_well_posed w gmin (Rmax 0 cmin) parts) ->
  (forall n name, In n (node_list parts) -> n <> lit "0" -> slower name = slower (lit "V" ++ n) -> exists l, ac_report angle false t es rows name = Ok l /\ ac_report angle false t' es' rows' name = Ok l) /\
  (forall id name, In id (current_ids parts) -> slower name = slower (lit "I(" ++ id ++ lit ")") -> exists l, ac_report angle false t es rows name = Ok l /\ ac_report angle false t' es' rows' name = Ok l).
Proof.
  intros fuel cmin gmin a b n sweep parts parts' t t' es es' rows rows' angle F F' P SO AN WP.
  destruct (ac_found_laws _ _ _ _ _ _ _ _ _ _ _ angle F SO AN) as (ws & OM & K). destruct (K (fun w Hw => WP ws w OM Hw)) as (A & B). clear K.
  destruct (ac_found_laws _ _ _ _ _ _ _ _ _ _ _ angle F' (order_ac_sound _ _ P SO) AN) as (ws' & OM' & K). rewrite OM in OM'. injection OM' as <-.
  destruct (K (fun w Hw => order_ac_posed _ _ _ _ _ P (WP ws w OM Hw))) as (A' & B'). clear K. split.
  - intros m name IN N0 SN. destruct (A m name IN N0 SN) as (l & R1 & F1). destruct (A' m name ltac:(apply (order_nodes _ _ P); exact IN) N0 SN) as (l' & R2 & F2). exists l. split; [exact R1|]. rewrite R2. f_equal.
    symmetry. apply (forall2_same _ _ _ _ _ _ _ F1 F2). intros w z z' Hw Z Z'. destruct (WP ws w OM Hw) as (Vr & Vi & Ir & Ii & L & _). rewrite (Z _ _ _ _ L). symmetry. exact (Z' _ _ _ _ (order_ac_laws _ _ P _ _ _ _ _ _ _ L)).
  - intros id name IN SN. destruct (B id name IN SN) as (l & R1 & F1). destruct (B' id name ltac:(apply (order_ids _ _ P); exact IN) SN) as (l' & R2 & F2). exists l. split; [exact R1|]. rewrite R2. f_equal.
    symmetry. apply (forall2_same _ _ _ _ _ _ _ F1 F2). intros w z z' Hw Z Z'. destruct (WP ws w OM Hw) as (Vr & Vi & Ir & Ii & L & _). rewrite (Z _ _ _ _ L). symmetry. exact (Z' _ _ _ _ (order_ac_laws _ _ P _ _ _ _ _ _ _ L)).
Qed.
Print Assumptions C224_ac.

(** * C225: superposition *)

(** The same element, except for the value of an independent source. *)
Definition revalued (e e' : pelem) : Prop :=
  match e, e' with
  | PV id a b _ _ _, PV id' a' b' _ _ _ => id' = id /\ a' = a /\ b' = b
  | Netlist.PI id a b _ _ _, Netlist.PI id' a' b' _ _ _ => id' = id /\ a' = a /\ b' = b
  | _, _ => e' = e
  end.
Inductive superposed (s1 s2 s3 : pelem -> R) (k1 k2 : R) : list pelem -> list pelem -> list pelem -> Prop :=
  | sup_nil : superposed s1 s2 s3 k1 k2 [] [] []
  | sup_cons : forall e1 e2 e3 l1 l2 l3, revalued e1 e2 -> revalued e1 e3 -> s3 e3 = k1 * s1 e1 + k2 * s2 e2 ->
      superposed s1 s2 s3 k1 k2 l1 l2 l3 -> superposed s1 s2 s3 k1 k2 (e1 :: l1) (e2 :: l2) (e3 :: l3).

Lemma revalued_shape : forall e e', revalued e e' -> nodes_in e' = nodes_in e /\ pid e' = pid e /\ has_current e' = has_current e /\ first_end e' = first_end e /\ second_end e' = second_end e.
Proof. intros e e' H. destruct e, e'; cbn in H; try discriminate H; try (injection H as <-; subst; repeat split; reflexivity); destruct H as (-> & -> & ->); repeat split; reflexivity. Qed.
Lemma superposed_shape : forall s1 s2 s3 k1 k2 l1 l2 l3, superposed s1 s2 s3 k1 k2 l1 l2 l3 -> node_list l2 = node_list l1 /\ node_list l3 = node_list l1 /\ current_ids l2 = current_ids l1 /\ current_ids l3 = current_ids l1.
Proof.
  intros s1 s2 s3 k1 k2 l1 l2 l3 H. induction H as [|e1 e2 e3 l1 l2 l3 R2 R3 _ _ (A & B & C & D)]; [repeat split; reflexivity|].
  destruct (revalued_shape _ _ R2) as (N2 & P2 & H2 & _). destruct (revalued_shape _ _ R3) as (N3 & P3 & H3 & _). unfold node_list, current_ids in *. cbn [flat_map filter]. rewrite H2, H3, N2, N3, A, B.
  destruct (has_current e1); cbn [map]; rewrite C, D, ?P2, ?P3; repeat split; reflexivity.
Qed.
Lemma superposed_leaving : forall s1 s2 s3 k1 k2 l1 l2 l3 V1 I1 V2 I2 n, superposed s1 s2 s3 k1 k2 l1 l2 l3 ->
  leaving s3 (fun m => k1 * V1 m + k2 * V2 m) (fun m => k1 * I1 m + k2 * I2 m) n l3 = k1 * leaving s1 V1 I1 n l1 + k2 * leaving s2 V2 I2 n l2.
Proof.
  intros s1 s2 s3 k1 k2 l1 l2 l3 V1 I1 V2 I2 n H. induction H as [|e1 e2 e3 l1 l2 l3 R2 R3 S3 _ IH]; [cbn; ring|]. cbn [leaving]. rewrite IH.
  destruct (revalued_shape _ _ R2) as (_ & _ & _ & F2 & E2). destruct (revalued_shape _ _ R3) as (_ & _ & _ & F3 & E3).
  assert (T : through s3 (fun m => k1 * V1 m + k2 * V2 m) (fun m => k1 * I1 m + k2 * I2 m) e3 = k1 * through s1 V1 I1 e1 + k2 * through s2 V2 I2 e2).
  { destruct e1, e2; cbn [revalued] in R2; try discriminate R2; destruct e3; cbn [revalued] in R3; try discriminate R3;
      try (injection R2; injection R3; intros; subst; cbn [through]; unfold Rdiv; ring).
    - destruct R2 as (-> & -> & ->). destruct R3 as (-> & -> & ->). cbn [through]. ring.
    - cbn [through]. exact S3. }
  unfold leaving1. rewrite F2, F3, E2, E3, T. repeat match goal with |- context [if ?b then _ else _] => destruct b end; ring.
Qed.
Lemma superposed_law : forall s1 s2 s3 k1 k2 l1 l2 l3 V1 I1 V2 I2, superposed s1 s2 s3 k1 k2 l1 l2 l3 -> Forall (law s1 V1 I1) l1 -> Forall (law s2 V2 I2) l2 ->
  Forall (law s3 (fun m => k1 * V1 m + k2 * V2 m) (fun m => k1 * I1 m + k2 * I2 m)) l3.
Proof.
  intros s1 s2 s3 k1 k2 l1 l2 l3 V1 I1 V2 I2 H. induction H as [|e1 e2 e3 l1 l2 l3 R2 R3 S3 _ IH]; intros L1 L2; [constructor|]. inversion L1 as [|? ? A1 B1]; inversion L2 as [|? ? A2 B2]; subst. constructor; [|exact (IH B1 B2)].
  destruct e1, e2; cbn [revalued] in R2; try discriminate R2; destruct e3; cbn [revalued] in R3; try discriminate R3; try exact Logic.I;
    try (injection R2; injection R3; intros; subst; cbn [law] in *; first [exact Logic.I | nra]).
  - destruct R2 as (-> & -> & ->). destruct R3 as (-> & -> & ->). cbn [law] in *. rewrite S3, <- A1, <- A2. ring.
Qed.

Theorem C225_superposition : forall at1 at2 at3 parts1 parts2 parts3 t1 t2 t3 es1 es2 es3 x1 x2 x3 k1 k2,
  op_found at1 parts1 t1 es1 x1 -> op_found at2 parts2 t2 es2 x2 -> op_found at3 parts3 t3 es3 x3 ->
  let dc at_time := dc_source (fun id => at_time id 0) in
  superposed (dc at1) (dc at2) (dc at3) k1 k2 parts1 parts2 parts3 ->
  Forall (sound parts1) parts1 -> Forall (sound parts2) parts2 -> Forall (sound parts3) parts3 ->
  well_posed (dc at1) parts1 -> well_posed (dc at2) parts2 -> well_posed (dc at3) parts3 ->
  (forall n name, In n (node_list parts1) -> n <> lit "0" -> slower name = slower (lit "V" ++ n) ->
     exists v1 v2, op_report t1 es1 x1 name = Ok v1 /\ op_report t2 es2 x2 name = Ok v2 /\ op_report t3 es3 x3 name = Ok (k1 * v1 + k2 * v2)) /\
  (forall id name, In id (current_ids parts1) -> slower name = slower (lit "I(" ++ id ++ lit ")") ->
     exists v1 v2, op_report t1 es1 x1 name = Ok v1 /\ op_report t2 es2 x2 name = Ok v2 /\ op_report t3 es3 x3 name = Ok (k1 * v1 + k2 * v2)).
Proof.
  intros at1 at2 at3 parts1 parts2 parts3 t1 t2 t3 es1 es2 es3 x1 x2 x3 k1 k2 F1 F2 F3 dc SU S1 S2 S3 W1 W2 W3. destruct (superposed_shape _ _ _ _ _ _ _ _ SU) as (N2 & N3 & C2 & C3).
  pose proof W1 as (V1 & I1 & L1 & _). pose proof W2 as (V2 & I2 & L2 & _).
  destruct (op_found_laws _ _ _ _ _ F1 S1 W1 V1 I1 L1) as (A1 & B1). destruct (op_found_laws _ _ _ _ _ F2 S2 W2 V2 I2 L2) as (A2 & B2).
  assert (L3 : laws (dc at3) (fun m => k1 * V1 m + k2 * V2 m) (fun m => k1 * I1 m + k2 * I2 m) parts3).
  { destruct L1 as (Z1 & K1 & E1). destruct L2 as (Z2 & K2 & E2). split; [rewrite Z1, Z2; ring|]. split; [|exact (superposed_law _ _ _ _ _ _ _ _ _ _ _ _ SU E1 E2)].
    intros n. rewrite (superposed_leaving _ _ _ _ _ _ _ _ _ _ _ _ n SU), K1, K2. ring. }
  destruct (op_found_laws _ _ _ _ _ F3 S3 W3 _ _ L3) as (A3 & B3). rewrite N2, C2 in *. rewrite N3, C3 in *. split.
  - intros n name IN N0 SN. exists (V1 n), (V2 n). auto.
  - intros id name IN SN. exists (I1 id), (I2 id). auto.
Qed.
Print Assumptions C225_superposition.

(** * C226: a sweep through the written value of a source *)
Lemma laws_in : forall src src' V I parts, (forall e, In e parts -> src e = src' e) -> laws src V I parts -> laws src' V I parts.
Proof.
  intros src src' V I parts E (A & B & C). split; [exact A|]. split.
  - intros n. rewrite <- (B n). clear A B C. induction parts as [|e parts IH]; [reflexivity|]. cbn [leaving]. rewrite IH by (intros; apply E; right; assumption). f_equal. unfold leaving1.
    assert (T : through src V I e = through src' V I e) by (pose proof (E e (or_introl eq_refl)) as H; destruct e; cbn [through]; auto). rewrite T. reflexivity.
  - apply Forall_forall. intros e IE. pose proof (proj1 (Forall_forall _ _) C e IE) as H. destruct e; cbn [law] in *; try exact H. rewrite <- (E _ IE). exact H.
Qed.
Lemma forall2_weaken : forall (A B : Type) (X Y : A -> B -> Prop) l m, (forall a b, X a b -> Y a b) -> Forall2 X l m -> Forall2 Y l m.
Proof. intros A B X Y l m H F. induction F; constructor; auto. Qed.
Lemma pid_unique : forall parts e e', NoDup (map pid parts) -> In e parts -> In e' parts -> pid e' = pid e -> e' = e.
Proof.
  intros parts. induction parts as [|q l IH]; intros e e' ND IE IE' EQ; [destruct IE|]. inversion ND as [|? ? NI ND']; subst.
  destruct IE as [->|IE], IE' as [->|IE']; auto; exfalso; apply NI; [rewrite <- EQ|rewrite EQ]; apply in_map; assumption.
Qed.

Theorem C226_sweep : forall solve csolve JT check locked o tdo damp_first maxit acit trit fuel topt cmin gmin at_time guess skip inv modules has_module rounds settings rest icmod
    fs user depth files filename parts t es rs dirs before1 opline after1 owords before line after words source a b s,
  main_file solve csolve JT check locked o tdo damp_first maxit acit trit fuel topt cmin gmin at_time guess skip inv modules has_module rounds settings rest icmod
    fs user depth files filename = Ok (parts, t, es, rs) ->
  directives fs files filename dirs ->
  dirs = before1 ++ opline :: after1 -> asks "op" opline owords -> Forall (fun l => ~ of_type "op" l) after1 ->
  dirs = before ++ line :: after -> asks "dc" line words -> Forall (fun l => ~ of_type "dc" l) after ->
  parameter "source" (Some 0)%nat words source -> quantity "start" (Some 1)%nat words a -> quantity "stop" (Some 2)%nat words b -> quantity "step" (Some 3)%nat words s ->
  absent "type" None words \/ (exists v, parameter "type" None words v /\ stype3 (ss v) = "LIN"%string) ->
  (forall line l, user line = Ok l -> Forall word_names l) ->
  Forall (sound parts) parts -> solver_ok solve (op_size t es) -> d_first tdo = false -> (0 < maxit)%nat -> (0 < fuel)%nat -> o_std o = true ->
  (* the name of the source is not that of a result *)
  (forall n, In n (node_list parts) -> slower source <> slower (lit "V" ++ n)) -> (forall id, In id (current_ids parts) -> slower source <> slower (lit "I(" ++ id ++ lit ")")) ->
  let at0 id := at_time id 0 in
  well_posed (dc_source at0) parts -> (forall e v, In e parts -> well_posed (swept at0 (pid e) v) parts) ->
  exists q r, dget streqb rs (lit "op") = Some (ROp q) /\ dget streqb rs (lit "dc") = Some (RDc r) /\ forall x flag rows, q = Some (x, flag) -> r = Some rows ->
  exists e, In e parts /\ names_source source e /\
    let agrees name := exists l, dc_report t es source rows source = Ok (map fst rows) /\ dc_report t es source rows name = Ok l /\
      Forall2 (fun v z => v = dc_source at0 e -> op_report t es x name = Ok z) (map fst rows) l in
    (forall n name, In n (node_list parts) -> n <> lit "0" -> slower name = slower (lit "V" ++ n) -> agrees name) /\
    (forall id name, In id (current_ids parts) -> slower name = slower (lit "I(" ++ id ++ lit ")") -> agrees name).
Proof.
  intros solve csolve JT check locked o tdo damp_first maxit acit trit fuel topt cmin gmin at_time guess skip inv modules has_module rounds settings rest icmod
    fs user depth files filename parts t es rs dirs before1 opline after1 owords before line after words source a b s M DI BL1 AO OLAST BLA A LAST PS QA QB QS TY US SO SV DF MX FU OS NC1 NC2 at0 WP WPS.
  destruct (C213_op solve csolve JT check locked o tdo damp_first maxit acit trit fuel topt cmin gmin at_time guess skip inv modules has_module rounds settings rest icmod
    fs user depth files filename parts t es rs dirs before1 opline after1 owords M DI BL1 AO OLAST US SO WP SV DF MX FU OS) as (q & OG & KO).
  destruct (C213_dc solve csolve JT check locked o tdo damp_first maxit acit trit fuel topt cmin gmin at_time guess skip inv modules has_module rounds settings rest icmod
    fs user depth files filename parts t es rs dirs before line after words source a b s M DI BLA A LAST PS QA QB QS TY US SO SV DF MX FU OS) as (r & DG & KD).
  destruct (C212_op solve csolve JT check locked o tdo damp_first maxit acit trit fuel topt cmin gmin at_time guess skip inv modules has_module rounds settings rest icmod
    fs user depth files filename parts t es rs dirs before1 opline after1 owords M DI BL1 AO OLAST) as (LD & _).
  destruct (C209_load _ _ _ _ _ _ US LD) as (other & _ & LD'). destruct (load_facts _ _ _ _ _ _ _ LD') as (_ & _ & _ & ND & _).
  exists q, r. split; [exact OG|]. split; [exact DG|]. intros x flag rows EQ ER. destruct (KO x flag EQ) as (_ & RO). destruct (KD rows ER) as (e & ax & vals & IE & NS & _ & _ & _ & _ & RD). clear KO KD.
  destruct (RD NC1 NC2) as (RS & RR). destruct (RR (fun v _ => WPS e v IE)) as (RV & RI). clear RD RR. exists e. split; [exact IE|]. split; [exact NS|].
  assert (SW : forall e', In e' parts -> dc_source at0 e' = swept at0 (pid e) (dc_source at0 e) e').
  { intros e' IE'. unfold swept. destruct (PropsSubckt.streqb_spec (pid e') (pid e)) as [Q|_]; [|reflexivity]. rewrite (pid_unique parts e e' ND IE IE' Q). reflexivity. }
  destruct WP as (V & I & L & _). destruct (RO V I L) as (OV & OI). cbv zeta. split.
  - intros n name IN N0 SN. destruct (RV n name IN N0 SN) as (l & R1 & F). exists l. split; [exact (RS source eq_refl)|]. split; [exact R1|].
    eapply forall2_weaken; [|exact F]. intros v z H ->. rewrite (OV n name IN N0 SN). f_equal. symmetry. apply (H V I). exact (laws_in _ _ _ _ _ SW L).
  - intros id name IN SN. destruct (RI id name IN SN) as (l & R1 & F). exists l. split; [exact (RS source eq_refl)|]. split; [exact R1|].
    eapply forall2_weaken; [|exact F]. intros v z H ->. rewrite (OI id name IN SN). f_equal. symmetry. apply (H V I). exact (laws_in _ _ _ _ _ SW L).
Qed.
Print Assumptions C226_sweep.

(** * Examples: a current source and a resistor of 1 Ohm *)
Definition amp_parts (z : Z) : list pelem := [Netlist.PI (lit "i1") (lit "a") (lit "0") (Some (z, 0)%Z) None None; PR (lit "r1") (lit "a") (lit "0") (1, 0)%Z].
Definition amp_lines (w : string) : list str := map lit ["amp"; String.append "I1 A 0 type=idc idc=" w; "R1 a 0 1"; ".op"]%string.
Definition amp_turned : list str := map lit ["amp"; "R1 a 0 1"; "I1 A 0 type=idc idc=2"; ".op"]%string.
Definition amp_swept : list str := map lit ["amp"; "I1 A 0 type=idc idc=3"; "R1 a 0 1"; ".op"; ".dc i1 0 3 3"]%string.
Ltac amp_load := unfold load_all;
  match goal with |- context [read_netlist ?a ?b ?c] => let r := eval vm_compute in (read_netlist a b c) in change (read_netlist a b c) with r end;
  cbn [bindr r_models r_lines r_subs map parse_subs parse_models fst snd];
  match goal with |- context [main_netlist_parser ?a ?b ?c ?d] => let r := eval vm_compute in (main_netlist_parser a b c d) in change (main_netlist_parser a b c d) with r end; cbn [bindr];
  cbv -[dR]; reflexivity.
Lemma line_logical : forall l fp L, (if list_eq_dec ascii_dec (strip l) [] then false else true) = true -> PropsParse.starts_new fp -> forall x, x = PropsReader.joined l [] -> logical fp L -> logical (l :: fp) (x :: L).
Proof. intros l fp L H SN x -> LG. apply (logical_line l [] fp L); auto. unfold PropsReader.blank. destruct (list_eq_dec ascii_dec (strip l) []); [discriminate|assumption]. Qed.
Lemma line_inner : forall l, match kind_of l with KSub | KEnds | KEnd => false | _ => true end = true -> PropsReader.inner l.
Proof. intros l H. unfold PropsReader.inner. destruct (kind_of l); try discriminate H; repeat split; discriminate. Qed.
Ltac amp_dirs title lines bs :=
  exists title, (tl lines), bs, [], [];
  split; [reflexivity|]; split; [|split; [constructor|split; [cbn; lia|reflexivity]]];
  exists []; split; [|split; [exact Logic.I|]];
  [repeat (apply line_logical; [reflexivity|vm_compute; discriminate || exact Logic.I|reflexivity|]); apply logical_eof
  |split; [|constructor]; repeat (apply Forall_cons; [apply line_inner; reflexivity|]); apply Forall_nil].

Definition amp_es (z : Z) : list lelem := [EI "i1" 1 0 (dR (z, 0)%Z) false; ER "r1" 1 0 (dR (1, 0)%Z)]%string.
Definition amp_V (v : R) (n : str) : R := if streqb n (lit "a") then v else 0.
Lemma d_one : dR (1, 0)%Z = 1.
Proof. unfold dR. simpl. lra. Qed.
Lemma d_int : forall z, dR (z, 0)%Z = IZR z.
Proof. intros z. unfold dR. simpl. lra. Qed.

(** The circuit with any value of its source *)
Lemma amp_laws : forall src v z, src (Netlist.PI (lit "i1") (lit "a") (lit "0") (Some (z, 0)%Z) None None) = v -> laws src (amp_V (- v)) (fun _ => 0) (amp_parts z).
Proof.
  intros src v z E. split; [reflexivity|]. split; [|repeat constructor]. intros n. unfold amp_parts. cbn [leaving]. unfold leaving1. cbn [first_end second_end through]. rewrite E, d_one.
  change (amp_V (- v) (lit "a")) with (- v). change (amp_V (- v) (lit "0")) with 0. repeat match goal with |- context [if ?b then _ else _] => destruct b end; lra.
Qed.
Lemma amp_posed : forall src z, well_posed src (amp_parts z).
Proof.
  intros src z. set (v := src (Netlist.PI (lit "i1") (lit "a") (lit "0") (Some (z, 0)%Z) None None)). exists (amp_V (- v)), (fun _ => 0). split; [apply amp_laws; reflexivity|].
  intros V I (Z0 & KCL & _). split; [|intros id []]. specialize (KCL (lit "a")). unfold amp_parts in KCL. cbn [leaving] in KCL. unfold leaving1 in KCL. cbn [first_end second_end through] in KCL. fold v in KCL.
  change (streqb (lit "a") (lit "a")) with true in KCL. change (streqb (lit "a") (lit "0")) with false in KCL. cbv iota in KCL. rewrite d_one, Z0 in KCL.
  assert (VA : V (lit "a") = - v) by (unfold Rdiv in KCL; lra). intros n IN. cbn in IN. repeat (destruct IN as [<-|IN]; [first [exact VA|exact Z0]|]). destruct IN.
Qed.
Lemma amp_sound : forall z, Forall (sound (amp_parts z)) (amp_parts z).
Proof. intros z. repeat constructor. Qed.
Lemma amp_passive : forall z, Forall passive (amp_parts z).
Proof. intros z. repeat constructor; cbn [passive]. rewrite d_one. lra. Qed.
Lemma amp_solver : forall es, op_size shunt_t es = 1%nat -> solver_ok (fun _ => solve1) (op_size shunt_t es).
Proof. intros es ->. split; [exact solve1_ok|exact solve1_none]. Qed.

(** Each netlist of that kind with a line .op is simulated. *)
Lemma amp_found : forall at_time lines parts es, load_all (fun _ => Some lines) (fun _ => Err NetlistParseError) 1 1 (lit "f") = Ok (parts, shunt_t, es) ->
  directives (fun _ => Some lines) 1 (lit "f") [lit ".op"] -> op_size shunt_t es = 1%nat -> Forall (sound parts) parts -> Forall passive parts -> well_posed (dc_source (fun id => at_time id 0)) parts ->
  exists x, op_found at_time parts shunt_t es x.
Proof.
  intros at_time lines parts es LD DI SZ SO PA WP.
  set (csolve := fun (_ : cmat) (_ : cvec) => @None cvec). set (JT := fun _ : vec => (mzero, vzero)). set (rest := fun (_ : list pelem * ntab * list lelem) (_ : str) (_ : list (str * Directive.val)) (_ : option result) => @Err result ValueError).
  set (check := fun _ _ _ : vec => true). set (locked := fun _ : list lelem => @nil (nat * nat)). set (modules := fun _ : string => m_ie).
  edestruct (C214_op (fun _ => solve1) csolve JT check locked PropsDc.default_opts (mkTd false true 0) false 20 20 20 30 tran_opts 0 0 at_time (fun _ => vzero) false (fun m => m) modules (fun _ => false) 1
    Session.default_opts rest (fun _ r => Ok r)) with (parts := parts) (t := shunt_t) (es := es) (line := lit ".op") as (x & M & _);
    [exact LD|discriminate|exact SO|exact PA|exact WP|exact (amp_solver es SZ)|reflexivity|lia|lia|reflexivity|lra|intros x; eexists; reflexivity|exact DI|reflexivity|].
  exists x. do 24 eexists. exists (fun _ => Some lines), (fun _ => Err NetlistParseError), 1%nat, 1%nat, (lit "f"). eexists. exists [lit ".op"], [], (lit ".op"), [], []. exists true.
  split; [exact M|]. split; [exact DI|]. split; [reflexivity|]. split; [reflexivity|]. split; [constructor|]. split; [discriminate|]. split; [exact (amp_solver es SZ)|].
  split; [reflexivity|]. split; [lia|]. split; [lia|]. split; reflexivity.
Qed.

Lemma op_dc : forall (C : Type) (c : C) ex ic (par : list (str * Directive.val)) (r ri r2 : result), ex c (lit "op") op_an None = Ok r -> ic c r = Ok ri ->
  ex c (lit "dc") par None = Ok r2 ->
  fst (RunQueue.main C _ _ (fun ty => mem ty known_types) ex ic c [] [mkAn _ _ (lit "op") (Some (XNone result)) op_an; mkAn _ _ (lit "dc") None par] (mkSt C _ _ [] [] []))
    = Ok [(lit "op", r); (lit "dc", r2)].
Proof. intros C c ex ic par r ri r2 H HI H2. cbv in H, H2. cbv. rewrite H, HI, H2. reflexivity. Qed.
Definition sweep_an : list (str * Directive.val) :=
  [(lit "type", VStr (lit "dc")); (lit "source", VStr (lit "i1")); (lit "start", VNum (0, 0)%Z); (lit "stop", VNum (3, 0)%Z); (lit "step", VNum (3, 0)%Z); (lit "sweep_type", VStr (lit "LIN"))].

Section Amps.
  Variable at_time : str -> R -> R.
  Lemma amp_op : forall z w, load_all (fun _ => Some (amp_lines w)) (fun _ => Err NetlistParseError) 1 1 (lit "f") = Ok (amp_parts z, shunt_t, amp_es z) ->
    directives (fun _ => Some (amp_lines w)) 1 (lit "f") [lit ".op"] -> exists x, op_found at_time (amp_parts z) shunt_t (amp_es z) x /\ op_report shunt_t (amp_es z) x (lit "VA") = Ok (- IZR z).
  Proof.
    intros z w LD DI. destruct (amp_found at_time _ _ _ LD DI eq_refl (amp_sound z) (amp_passive z) (amp_posed _ z)) as (x & F). exists x. split; [exact F|].
    destruct (op_found_laws _ _ _ _ _ F (amp_sound z) (amp_posed _ z) (amp_V (- IZR z)) (fun _ => 0)) as (A & _); [apply amp_laws; exact (d_int z)|].
    apply (A (lit "a") (lit "VA")); [left; reflexivity|discriminate|reflexivity].
  Qed.
  (** Lines in the other order *)
  Example C224_example : exists x x', op_found at_time (amp_parts 2) shunt_t (amp_es 2) x /\ op_found at_time (rev (amp_parts 2)) shunt_t (rev (amp_es 2)) x' /\
    Permutation (amp_parts 2) (rev (amp_parts 2)) /\ op_report shunt_t (amp_es 2) x (lit "VA") = Ok (-2) /\ op_report shunt_t (rev (amp_es 2)) x' (lit "VA") = Ok (-2).
  Proof.
    assert (P : Permutation (amp_parts 2) (rev (amp_parts 2))) by apply Permutation_rev.
    destruct (amp_op 2 "2") as (x & F & V2); [amp_load|amp_dirs (lit "amp") (amp_lines "2") [BLine (lit "i1 a 0 type=idc idc=2"); BLine (lit "r1 a 0 1"); BLine (lit ".op")]|].
    destruct (amp_found at_time amp_turned (rev (amp_parts 2)) (rev (amp_es 2))) as (x' & F');
      [amp_load|amp_dirs (lit "amp") amp_turned [BLine (lit "r1 a 0 1"); BLine (lit "i1 a 0 type=idc idc=2"); BLine (lit ".op")]|reflexivity|exact (order_sound _ _ P (amp_sound 2))
      |apply Forall_rev; apply amp_passive|exact (order_posed _ _ _ P (amp_posed _ 2))|].
    exists x, x'. split; [exact F|]. split; [exact F'|]. split; [exact P|]. split; [exact V2|].
    destruct (proj1 (C224_op _ _ _ _ _ _ _ _ _ F F' P (amp_sound 2) (amp_posed _ 2)) (lit "a") (lit "VA") (or_introl eq_refl) ltac:(discriminate) eq_refl) as (v & R1 & R2). rewrite R2, <- R1. exact V2.
  Qed.
  (** 4 A is twice 1 A and 2 A *)
  Example C225_example : exists x1 x2 x3, op_found at_time (amp_parts 1) shunt_t (amp_es 1) x1 /\ op_found at_time (amp_parts 2) shunt_t (amp_es 2) x2 /\ op_found at_time (amp_parts 4) shunt_t (amp_es 4) x3 /\
    (let dc := dc_source (fun id => at_time id 0) in superposed dc dc dc 2 1 (amp_parts 1) (amp_parts 2) (amp_parts 4)) /\
    op_report shunt_t (amp_es 1) x1 (lit "VA") = Ok (-1) /\ op_report shunt_t (amp_es 2) x2 (lit "VA") = Ok (-2) /\ op_report shunt_t (amp_es 4) x3 (lit "VA") = Ok (-4).
  Proof.
    destruct (amp_op 1 "1") as (x1 & F1 & V1); [amp_load|amp_dirs (lit "amp") (amp_lines "1") [BLine (lit "i1 a 0 type=idc idc=1"); BLine (lit "r1 a 0 1"); BLine (lit ".op")]|].
    destruct (amp_op 2 "2") as (x2 & F2 & V2); [amp_load|amp_dirs (lit "amp") (amp_lines "2") [BLine (lit "i1 a 0 type=idc idc=2"); BLine (lit "r1 a 0 1"); BLine (lit ".op")]|].
    destruct (amp_op 4 "4") as (x3 & F3 & V3); [amp_load|amp_dirs (lit "amp") (amp_lines "4") [BLine (lit "i1 a 0 type=idc idc=4"); BLine (lit "r1 a 0 1"); BLine (lit ".op")]|].
    exists x1, x2, x3. split; [exact F1|]. split; [exact F2|]. split; [exact F3|]. split; [|split; [exact V1|split; [exact V2|exact V3]]].
    apply sup_cons; [repeat split|repeat split| |].
    - unfold dc_source, driven, written_dc. rewrite !d_int. lra.
    - apply sup_cons; [reflexivity|reflexivity| |apply sup_nil]. unfold dc_source, driven, written_dc. lra.
  Qed.
  (** A sweep from 0 A to 3 A: the value for 3 A is that of the operating point. *)
  Example C226_example : forall csolve JT check locked damp_first acit trit topt cmin skip inv modules has_module rounds settings rest, exists x rows,
    main_file (fun _ => solve1) csolve JT check locked PropsDc.default_opts (mkTd false true 0) damp_first 20 acit trit 30 topt cmin 0 at_time (fun _ => vzero) skip inv modules has_module rounds settings rest (fun _ r => Ok r)
      (fun _ => Some amp_swept) (fun _ => Err NetlistParseError) 1 1 (lit "f") = Ok (amp_parts 3, shunt_t, amp_es 3, [(lit "op", ROp (Some (x, true))); (lit "dc", RDc (Some rows))]) /\
    op_report shunt_t (amp_es 3) x (lit "VA") = Ok (-3) /\ dc_report shunt_t (amp_es 3) (lit "i1") rows (lit "i1") = Ok [0; 3] /\
    exists v, dc_report shunt_t (amp_es 3) (lit "i1") rows (lit "VA") = Ok [v; -3].
  Proof.
    intros csolve JT check locked damp_first acit trit topt cmin skip inv modules has_module rounds settings rest.
    assert (LD : load_all (fun _ => Some amp_swept) (fun _ => Err NetlistParseError) 1 1 (lit "f") = Ok (amp_parts 3, shunt_t, amp_es 3)) by amp_load.
    assert (DI : directives (fun _ => Some amp_swept) 1 (lit "f") [lit ".op"; lit ".dc i1 0 3 3"])
      by (amp_dirs (lit "amp") amp_swept [BLine (lit "i1 a 0 type=idc idc=3"); BLine (lit "r1 a 0 1"); BLine (lit ".op"); BLine (lit ".dc i1 0 3 3")]).
    pose proof (amp_solver (amp_es 3) eq_refl) as SV. assert (US : forall line l, (fun _ : str => @Err (list pelem) NetlistParseError) line = Ok l -> Forall word_names l) by discriminate.
    destruct (op_exec (fun _ => solve1) csolve JT check locked PropsDc.default_opts (mkTd false true 0) damp_first 20 acit trit 30 topt cmin 0 at_time (fun _ => vzero) skip inv modules has_module rounds settings rest
      _ _ 1 1 (lit "f") _ _ _ LD US (amp_sound 3) (amp_passive 3) (amp_posed _ 3) SV eq_refl ltac:(lia) ltac:(lia) eq_refl ltac:(lra)) as (x & EX & RP).
    destruct (C209_load _ _ _ _ _ _ US LD) as (other & OT & LD').
    assert (AX : lin_axis 0 3 ((3 - 0) / 3 + 1) = Ok (mkAxis 0 3 0 0 2)).
    { replace ((3 - 0) / 3 + 1) with 2 by lra. unfold lin_axis, Rlt_b. destruct (Rlt_dec 2 2); [lra|]. destruct (Rlt_dec 2 1); [lra|]. destruct (Rlt_dec 1 2); [|lra]. cbn [andb]. do 2 f_equal. lra. }
    assert (CO : collect lin_next (S (S (Z.to_nat (up ((3 - 0) / 3 + 1))))) (mkAxis 0 3 0 0 2) = Some [0; 0 + 3]).
    { replace ((3 - 0) / 3 + 1) with 2 by lra. assert (U : exists m, Z.to_nat (up 2) = S m).
      { destruct (archimed 2) as (U & _). assert (0 < up 2)%Z by (apply lt_IZR; lra). exists (Nat.pred (Z.to_nat (up 2))). lia. }
      destruct U as (m & ->). unfold lin_next, axis_next, Rlt_b. cbn -[INR Rplus]. destruct (Rlt_dec (INR 1) 2) as [_|Q]; [|cbn in Q; lra]. cbn -[INR Rplus].
      destruct (Rlt_dec (INR 2) 2) as [Q|_]; [cbn in Q; lra|]. reflexivity. }
    destruct (C195_sweep _ _ _ _ _ _ _ LD' (fun line l H => Forall_impl _ (fun e He => proj1 He) (OT line l H)) (amp_sound 3) (amp_passive 3) (fun id => at_time id 0) (fun _ => solve1) JT check locked PropsDc.default_opts (mkTd false true 0) 20 29 0
      (fun _ => vzero) skip 0 3 3 (lit "i1") None (Netlist.PI (lit "i1") (lit "a") (lit "0") (Some (3, 0)%Z) None None) _ _ (proj1 SV) (proj2 SV) eq_refl ltac:(lia) eq_refl ltac:(lra) (or_introl eq_refl)
      ltac:(split; [reflexivity|eexists; reflexivity]) ltac:(lra) ltac:(lra) AX CO (fun v _ => amp_posed _ 3)) as (rows & RUN & MF).
    assert (M : main_file (fun _ => solve1) csolve JT check locked PropsDc.default_opts (mkTd false true 0) damp_first 20 acit trit 30 topt cmin 0 at_time (fun _ => vzero) skip inv modules has_module rounds settings rest (fun _ r => Ok r)
      (fun _ => Some amp_swept) (fun _ => Err NetlistParseError) 1 1 (lit "f") = Ok (amp_parts 3, shunt_t, amp_es 3, [(lit "op", ROp (Some (x, true))); (lit "dc", RDc (Some rows))])).
    { unfold main_file. rewrite LD. cbn [bindr]. destruct (read_lines _ _ _ _ DI) as (s & RD & DR). rewrite RD. cbn [bindr]. cbv zeta. rewrite DR.
      change (parse_ics [lit ".op"; lit ".dc i1 0 3 3"]) with (@Ok (list (Directive.val * list (str * Directive.val))) []). cbn [bindr ic_vectors mapr concat].
      assert (PA : parse_analysis [lit ".op"; lit ".dc i1 0 3 3"] = Ok [op_an; sweep_an]) by (vm_compute; reflexivity). rewrite PA. cbn [bindr].
      change (map as_an [op_an; sweep_an]) with [mkAn (list (str * Directive.val)) result (lit "op") (Some (XNone result)) op_an; mkAn (list (str * Directive.val)) result (lit "dc") None sweep_an].
      rewrite (op_dc _ _ _ _ sweep_an (ROp (Some (x, true))) (ROp (Some (x, true))) (RDc (Some rows)) EX eq_refl); [reflexivity|].
      unfold exec, num, txt. change (streqb (lit "dc") (lit "op")) with false. change (streqb (lit "dc") (lit "dc")) with true. cbv iota.
      change (dget streqb sweep_an (lit "start")) with (Some (VNum (0, 0)%Z)). change (dget streqb sweep_an (lit "stop")) with (Some (VNum (3, 0)%Z)). change (dget streqb sweep_an (lit "step")) with (Some (VNum (3, 0)%Z)).
      change (dget streqb sweep_an (lit "source")) with (Some (VStr (lit "i1"))). change (dget streqb sweep_an (lit "sweep_type")) with (Some (VStr (lit "LIN"))). cbn [bindr].
      change (String.eqb (stype3 (ss (lit "LIN"))) "LIN") with true. cbv iota. rewrite !d_int. unfold at_dc. rewrite RUN. reflexivity. }
    exists x, rows. split; [exact M|].
    assert (OV : op_report shunt_t (amp_es 3) x (lit "VA") = Ok (-3)).
    { destruct (RP (amp_V (- IZR 3)) (fun _ => 0)) as (A & _); [apply amp_laws; exact (d_int 3)|]. rewrite (A (lit "a") (lit "VA")); [reflexivity|left; reflexivity|discriminate|reflexivity]. }
    split; [exact OV|]. set (words := [lit "i1"; lit "0"; lit "3"; lit "3"]).
    assert (NE : forall v, In v words -> no_equals v) by (intros v H; cbn in H; repeat (destruct H as [<-|H]; [unfold no_equals; cbn; intuition discriminate|]); destruct H).
    edestruct (C226_sweep (fun _ => solve1) csolve JT check locked PropsDc.default_opts (mkTd false true 0) damp_first 20 acit trit 30 topt cmin 0 at_time (fun _ => vzero) skip inv modules has_module rounds settings rest (fun _ r => Ok r))
      with (dirs := [lit ".op"; lit ".dc i1 0 3 3"]) (before1 := @nil str) (opline := lit ".op") (after1 := [lit ".dc i1 0 3 3"]) (before := [lit ".op"]) (line := lit ".dc i1 0 3 3") (after := @nil str) (words := words)
        (source := lit "i1") (a := 0) (b := 3) (s := 3) as (q & r & OG & DG & K);
      [exact M|exact DI|reflexivity|reflexivity|constructor; [|constructor]|reflexivity|reflexivity|constructor| | | | | |exact US|exact (amp_sound 3)|exact SV|reflexivity|lia|lia|reflexivity| | |exact (amp_posed _ 3)|intros; apply amp_posed|].
    - intros (w & ws & E & T). assert (Q : w = lit ".dc") by (vm_compute in E; injection E as <- _; reflexivity). subst w. discriminate T.
    - split; [apply NE; left; reflexivity|exists 0%nat; right; split; reflexivity].
    - exists (lit "0"), (0, 0)%Z. split; [split; [apply NE; cbn; auto|exists 1%nat; right; split; reflexivity]|split; [reflexivity|rewrite d_int; reflexivity]].
    - exists (lit "3"), (3, 0)%Z. split; [split; [apply NE; cbn; auto|exists 2%nat; right; split; reflexivity]|split; [reflexivity|rewrite d_int; reflexivity]].
    - exists (lit "3"), (3, 0)%Z. split; [split; [apply NE; cbn; auto|exists 3%nat; right; split; reflexivity]|split; [reflexivity|rewrite d_int; reflexivity]].
    - left. intros i w W. split; [intros v ->|discriminate]. cbn in W. do 4 (destruct i as [|i]; [cbn in W; discriminate W|]). destruct i; discriminate W.
    - intros n IN. cbn in IN. repeat (destruct IN as [<-|IN]; [discriminate|]). destruct IN.
    - intros id [].
    - injection OG as <-. injection DG as <-. destruct (K x true rows eq_refl eq_refl) as (e & IE & (NS & _) & AG & _). clear K.
      assert (EE : e = Netlist.PI (lit "i1") (lit "a") (lit "0") (Some (3, 0)%Z) None None) by (destruct IE as [<-|[<-|[]]]; [reflexivity|discriminate NS]). subst e.
      destruct (AG (lit "a") (lit "VA") (or_introl eq_refl) ltac:(discriminate) eq_refl) as (l & R1 & R2 & F). rewrite MF in R1, F. rewrite Rplus_0_l in R1, F. split; [exact R1|].
      inversion F as [|? v ? l1 _ F1]; subst. inversion F1 as [|? v' ? l2 V3 F2]; subst. inversion F2; subst. rewrite OV in V3.
      specialize (V3 ltac:(unfold dc_source, driven, written_dc; rewrite d_int; reflexivity)). injection V3 as <-. exists v. exact R2.
  Qed.
End Amps.
