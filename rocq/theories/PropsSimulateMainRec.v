(** Reciprocity of the results of the program (C230). *)
From Coq Require Import Ascii String Reals List Bool Arith ZArith Lia Lra Permutation.
From Verif Require Import Base BaseFacts Str Units Directive Lines Reader Netlist ModelLines Nodes NodesFacts Circuit CircuitFacts Rsum Mna MnaSpec DcSolve Newton
  NewtonFacts DynFacts Df Tran TranFacts PropsTran Ac AcFacts Sweep Csv PropsCsv Results PropsDirective PropsReader PropsNetlist PropsResults PropsMna PropsDc PropsAc Session PropsSetup
  RunQueue Ics PropsIcs Subckt PropsSubckt Simulate PropsSimulate SimulateAc PropsSimulateAc SimulateDc PropsSimulateDc SimulateTran PropsSimulateTran SimulateNl PropsSimulateNl
  SimulateSub PropsSimulateSub PropsSimulateHier PropsSimulateSubLaws PropsSimulateOp SimulateMain PropsSimulateMain PropsSimulateMainRel PropsSimulateMainSup PropsSimulateMainFnd.
Import ListNotations.
Open Scope R_scope.

(** Resistors, capacitors, inductors and couplings of any value, and sources whose value is
    zero. *)
Definition bilateral (src : pelem -> R) (e : pelem) : Prop :=
  match e with
  | PR _ _ _ _ | PC _ _ _ _ _ | Netlist.PL _ _ _ _ _ | PK _ _ _ _ _ _ => True
  | PV _ _ _ _ _ _ | Netlist.PI _ _ _ _ _ _ => src e = 0
  | _ => False
  end.
Lemma bilateral_ends : forall src parts e, In e parts -> bilateral src e ->
  (first_end e = lit "0" \/ In (first_end e) (node_list parts)) /\ (second_end e = lit "0" \/ In (second_end e) (node_list parts)).
Proof.
  intros src parts e IE B. unfold node_list. split; (destruct e; try (destruct B; fail); try (left; reflexivity)); right; apply in_flat_map; eexists; (split; [exact IE|]); cbn; auto.
Qed.

(** Each coupling is between two different inductors. *)
Definition wound (parts : list pelem) : Prop := forall id l1 l2 k v1 v2, In (PK id l1 l2 k v1 v2) parts ->
  l1 <> l2 /\ (exists a b v ic, In (Netlist.PL l1 a b v ic) parts) /\ (exists a b v ic, In (Netlist.PL l2 a b v ic) parts).
Definition coil (f : str -> R) (e : pelem) : R := match e with Netlist.PL id _ _ _ _ => f id | _ => 0 end.
Definition coils (parts : list pelem) : list str := flat_map (fun e => match e with Netlist.PL id _ _ _ _ => [id] | _ => [] end) parts.
Lemma coil_sum : forall f parts, lsum (coil f) parts = lsum f (coils parts).
Proof. intros f parts. induction parts as [|e l IH]; [reflexivity|]. destruct e; cbn [lsum coil coils flat_map app]; unfold coils in IH; rewrite IH; ring. Qed.
Lemma coils_in : forall id a b v ic parts, In (Netlist.PL id a b v ic) parts -> In id (coils parts).
Proof. intros id a b v ic parts H. unfold coils. apply in_flat_map. eexists. split; [exact H|]. left. reflexivity. Qed.
Lemma coils_pid : forall id parts, In id (coils parts) -> In id (map pid parts).
Proof. intros id parts H. unfold coils in H. apply in_flat_map in H. destruct H as (e & IE & H). destruct e; try (destruct H; fail). destruct H as [<-|[]]. apply in_map_iff. eexists. split; [|exact IE]. reflexivity. Qed.
Lemma coils_nodup : forall parts, NoDup (map pid parts) -> NoDup (coils parts).
Proof.
  intros parts. induction parts as [|e l IH]; intros ND; [constructor|]. cbn [map] in ND. inversion ND as [|? ? NI ND']; subst. specialize (IH ND').
  destruct e; try exact IH. unfold coils. cbn [flat_map app]. constructor; [|exact IH]. intros H. apply NI. apply coils_pid. exact H.
Qed.
(** Flux through one winding by the current in the other *)
Lemma linked_sym : forall ids (J K : str -> R) ps, NoDup ids -> (forall id l1 l2 k v1 v2, In (PK id l1 l2 k v1 v2) ps -> l1 <> l2 /\ In l1 ids /\ In l2 ids) ->
  lsum (fun id => J id * linked K id ps) ids = lsum (fun id => K id * linked J id ps) ids.
Proof.
  intros ids J K ps ND. induction ps as [|e ps IH]; intros H; [apply lsum_ext; intros; cbn [linked]; ring|].
  specialize (IH (fun id l1 l2 k v1 v2 I => H id l1 l2 k v1 v2 (or_intror I))). destruct e; try exact IH. rename l1 into c1, l2 into c2. destruct (H _ _ _ _ _ _ (or_introl eq_refl)) as (NE & I1 & I2). cbn [linked].
  assert (E : forall A B : str -> R, lsum (fun i => A i * ((if streqb c1 i then sqrt (dR v1 * dR v2) * dR k * B c2 else if streqb c2 i then sqrt (dR v1 * dR v2) * dR k * B c1 else 0) + linked B i ps)) ids
    = A c1 * (sqrt (dR v1 * dR v2) * dR k * B c2) + A c2 * (sqrt (dR v1 * dR v2) * dR k * B c1) + lsum (fun i => A i * linked B i ps) ids).
  { intros A B. rewrite <- (pick_sum A _ c1 ids ND I1), <- (pick_sum A _ c2 ids ND I2), <- !lsum_plus. apply lsum_ext. intros i _.
    repeat match goal with |- context [streqb ?x ?y] => destruct (PropsSubckt.streqb_spec x y) end; subst; try congruence; ring. }
  rewrite (E J K), (E K J), IH. ring.
Qed.

(** * Operating points *)
Lemma dc_tellegen : forall src V I (U : str -> R) ns l, NoDup ns -> (forall e, In e l -> In (first_end e) ns /\ In (second_end e) ns) ->
  lsum (fun n => U n * leaving src V I n l) ns = lsum (fun e => (U (first_end e) - U (second_end e)) * through src V I e) l.
Proof.
  intros src V I U ns l ND. induction l as [|e l IH]; intros H; cbn [leaving lsum].
  - apply lsum_0. intros; ring.
  - rewrite <- IH by (intros e' H'; apply H; right; exact H').
    rewrite (lsum_ext _ _ (fun n => U n * leaving1 src V I n e + U n * leaving src V I n l)) by (intros; ring).
    rewrite lsum_plus. f_equal. unfold leaving1. destruct (H e (or_introl eq_refl)) as (A & B). set (x := through src V I e).
    rewrite (lsum_ext _ _ (fun n => U n * (if streqb n (first_end e) then x else 0) + - (U n * (if streqb n (second_end e) then x else 0)))) by (intros; ring).
    rewrite lsum_plus, lsum_opp, !pick_sum by assumption. ring.
Qed.
Definition is_feed (s : pelem) : Prop := match s with Netlist.PI _ _ _ _ _ _ => True | _ => False end.
Theorem C230_laws : forall src1 src2 core s1 s2 V1 I1 V2 I2, Forall (bilateral src1) core -> Forall (bilateral src2) core -> is_feed s1 -> is_feed s2 ->
  laws src1 V1 I1 (s1 :: core) -> laws src2 V2 I2 (s2 :: core) ->
  src2 s2 * (V1 (first_end s2) - V1 (second_end s2)) = src1 s1 * (V2 (first_end s1) - V2 (second_end s1)).
Proof.
  intros src1 src2 core s1 s2 V1 I1 V2 I2 B1 B2 F1 F2 (Z1 & K1 & L1) (Z2 & K2 & L2). apply Forall_inv_tail in L1, L2. rewrite Forall_forall in B1, B2, L1, L2.
  set (ns := nodup (list_eq_dec ascii_dec) (first_end s1 :: second_end s1 :: first_end s2 :: second_end s2 :: lit "0" :: node_list core)).
  assert (ND : NoDup ns) by apply NoDup_nodup.
  assert (NS : forall n, In n (first_end s1 :: second_end s1 :: first_end s2 :: second_end s2 :: lit "0" :: node_list core) -> In n ns) by (intros n; apply nodup_In).
  assert (EC : forall e, In e core -> In (first_end e) ns /\ In (second_end e) ns) by (intros e IE; destruct (bilateral_ends _ core e IE (B1 e IE)) as (X & Y); split; apply NS; do 4 right; [destruct X as [X|X]|destruct Y as [Y|Y]]; [left; symmetry; exact X|right; exact X|left; symmetry; exact Y|right; exact Y]).
  pose proof (dc_tellegen src2 V2 I2 V1 ns (s2 :: core) ND) as T2. pose proof (dc_tellegen src1 V1 I1 V2 ns (s1 :: core) ND) as T1.
  rewrite (lsum_0 _ _ ns) in T1 by (intros n _; rewrite K1; ring). rewrite (lsum_0 _ _ ns) in T2 by (intros n _; rewrite K2; ring). cbn [lsum] in T1, T2.
  specialize (T1 ltac:(intros e [<-|IE]; [split; apply NS; cbn; auto|auto])). specialize (T2 ltac:(intros e [<-|IE]; [split; apply NS; cbn; auto 6|auto])).
  assert (E : lsum (fun e => (V1 (first_end e) - V1 (second_end e)) * through src2 V2 I2 e) core = lsum (fun e => (V2 (first_end e) - V2 (second_end e)) * through src1 V1 I1 e) core).
  { apply lsum_ext. intros e IE. specialize (B1 e IE). specialize (B2 e IE). specialize (L1 e IE). specialize (L2 e IE).
    destruct e; try (destruct B1; fail); cbn [bilateral law through first_end second_end] in *; unfold Rdiv; rewrite ?B1, ?B2, ?L1, ?L2, ?B1, ?B2; ring. }
  assert (H1 : through src1 V1 I1 s1 = src1 s1) by (destruct s1; try (destruct F1; fail); reflexivity). assert (H2 : through src2 V2 I2 s2 = src2 s2) by (destruct s2; try (destruct F2; fail); reflexivity).
  rewrite H1 in T1. rewrite H2 in T2. lra.
Qed.
Print Assumptions C230_laws.

(** * AC analyses *)
Theorem C230_ac_laws : forall w g c core s1 s2 Vr1 Vi1 Ir1 Ii1 Vr2 Vi2 Ir2 Ii2, Forall (bilateral ac_value) core -> NoDup (map pid core) -> wound core -> is_feed s1 -> is_feed s2 ->
  (forall n, In n [first_end s1; second_end s1; first_end s2; second_end s2] -> n = lit "0" \/ In n (node_list core)) ->
  ac_laws w g c true (s1 :: core) Vr1 Vi1 Ir1 Ii1 -> ac_laws w g c true (s2 :: core) Vr2 Vi2 Ir2 Ii2 ->
  ac_value s2 * (Vr1 (first_end s2) - Vr1 (second_end s2)) = ac_value s1 * (Vr2 (first_end s1) - Vr2 (second_end s1)) /\
  ac_value s2 * (Vi1 (first_end s2) - Vi1 (second_end s2)) = ac_value s1 * (Vi2 (first_end s1) - Vi2 (second_end s1)).
Proof.
  intros w g c core s1 s2 Vr1 Vi1 Ir1 Ii1 Vr2 Vi2 Ir2 Ii2 B NP WD F1 F2 PT (Zr1 & Zi1 & K1 & L1) (Zr2 & Zi2 & K2 & L2). apply Forall_inv_tail in L1, L2. rewrite Forall_forall in L1, L2.
  assert (NK : forall J id s, is_feed s -> linked J id (s :: core) = linked J id core) by (intros J id s F; destruct s; try (destruct F; fail); reflexivity).
  assert (SY : forall J K, lsum (fun id => J id * linked K id core) (coils core) = lsum (fun id => K id * linked J id core) (coils core)).
  { intros J K. apply linked_sym; [exact (coils_nodup _ NP)|]. intros id l1 l2 k v1 v2 IE. destruct (WD _ _ _ _ _ _ IE) as (NE & (a1 & b1 & w1 & i1 & C1) & (a2 & b2 & w2 & i2 & C2)).
    split; [exact NE|split; eapply coils_in; eassumption]. }
  rewrite Forall_forall in B. set (ns := nodup (list_eq_dec ascii_dec) (lit "0" :: node_list core)).
  assert (ND : NoDup ns) by apply NoDup_nodup. assert (NS : forall n, n = lit "0" \/ In n (node_list core) -> In n ns) by (intros n H; apply nodup_In; destruct H as [->|H]; [left; reflexivity|right; exact H]).
  assert (NS' : forall n, In n ns -> n = lit "0" \/ In n (node_list core)) by (intros n H; apply nodup_In in H; destruct H as [<-|H]; auto).
  assert (EC : forall e, In e core -> In (first_end e) ns /\ In (second_end e) ns) by (intros e IE; destruct (bilateral_ends _ core e IE (B e IE)); split; apply NS; assumption).
  assert (E1 : forall e, In e (s1 :: core) -> In (first_end e) ns /\ In (second_end e) ns) by (intros e [<-|IE]; [split; apply NS, PT; cbn; auto|auto]).
  assert (E2 : forall e, In e (s2 :: core) -> In (first_end e) ns /\ In (second_end e) ns) by (intros e [<-|IE]; [split; apply NS, PT; cbn; auto|auto]).
  assert (IN : forall s n, In n (node_list core) -> In n (node_list (s :: core))) by (intros s n H; unfold node_list; cbn [flat_map]; apply in_or_app; right; exact H).
  set (T1 := ac_through w true Vr1 Vi1 Ir1 Ii1). set (T2 := ac_through w true Vr2 Vi2 Ir2 Ii2).
  assert (H1 : T1 s1 = (ac_value s1, 0)) by (destruct s1; try (destruct F1; fail); reflexivity). assert (H2 : T2 s2 = (ac_value s2, 0)) by (destruct s2; try (destruct F2; fail); reflexivity).
  (* the sums over the nodes *)
  assert (KR : lsum (fun n => Vr1 n * ac_leaving w true Vr2 Vi2 Ir2 Ii2 fst n (s2 :: core)) ns - lsum (fun n => Vi1 n * ac_leaving w true Vr2 Vi2 Ir2 Ii2 snd n (s2 :: core)) ns
             = lsum (fun n => Vr2 n * ac_leaving w true Vr1 Vi1 Ir1 Ii1 fst n (s1 :: core)) ns - lsum (fun n => Vi2 n * ac_leaving w true Vr1 Vi1 Ir1 Ii1 snd n (s1 :: core)) ns).
  { unfold Rminus. rewrite <- !lsum_opp, <- !lsum_plus. apply lsum_ext. intros n H. destruct (list_eq_dec ascii_dec n (lit "0")) as [->|NE]; [rewrite Zr1, Zi1, Zr2, Zi2; ring|].
    destruct (NS' n H) as [Q|Q]; [contradiction|]. destruct (K1 n (IN s1 n Q) NE) as (A1 & A2). destruct (K2 n (IN s2 n Q) NE) as (C1 & C2).
    set (x1 := ac_leaving w true Vr1 Vi1 Ir1 Ii1 fst n (s1 :: core)) in *. set (y1 := ac_leaving w true Vr1 Vi1 Ir1 Ii1 snd n (s1 :: core)) in *.
    set (x2 := ac_leaving w true Vr2 Vi2 Ir2 Ii2 fst n (s2 :: core)) in *. set (y2 := ac_leaving w true Vr2 Vi2 Ir2 Ii2 snd n (s2 :: core)) in *.
    replace x1 with (- g * Vr1 n + w * c * Vi1 n) by lra. replace y1 with (- g * Vi1 n - w * c * Vr1 n) by lra. replace x2 with (- g * Vr2 n + w * c * Vi2 n) by lra. replace y2 with (- g * Vi2 n - w * c * Vr2 n) by lra. ring. }
  assert (KI : lsum (fun n => Vr1 n * ac_leaving w true Vr2 Vi2 Ir2 Ii2 snd n (s2 :: core)) ns + lsum (fun n => Vi1 n * ac_leaving w true Vr2 Vi2 Ir2 Ii2 fst n (s2 :: core)) ns
             = lsum (fun n => Vr2 n * ac_leaving w true Vr1 Vi1 Ir1 Ii1 snd n (s1 :: core)) ns + lsum (fun n => Vi2 n * ac_leaving w true Vr1 Vi1 Ir1 Ii1 fst n (s1 :: core)) ns).
  { rewrite <- !lsum_plus. apply lsum_ext. intros n H. destruct (list_eq_dec ascii_dec n (lit "0")) as [->|NE]; [rewrite Zr1, Zi1, Zr2, Zi2; ring|].
    destruct (NS' n H) as [Q|Q]; [contradiction|]. destruct (K1 n (IN s1 n Q) NE) as (A1 & A2). destruct (K2 n (IN s2 n Q) NE) as (C1 & C2).
    set (x1 := ac_leaving w true Vr1 Vi1 Ir1 Ii1 fst n (s1 :: core)) in *. set (y1 := ac_leaving w true Vr1 Vi1 Ir1 Ii1 snd n (s1 :: core)) in *.
    set (x2 := ac_leaving w true Vr2 Vi2 Ir2 Ii2 fst n (s2 :: core)) in *. set (y2 := ac_leaving w true Vr2 Vi2 Ir2 Ii2 snd n (s2 :: core)) in *.
    replace x1 with (- g * Vr1 n + w * c * Vi1 n) by lra. replace y1 with (- g * Vi1 n - w * c * Vr1 n) by lra. replace x2 with (- g * Vr2 n + w * c * Vi2 n) by lra. replace y2 with (- g * Vi2 n - w * c * Vr2 n) by lra. ring. }
  rewrite !(ac_tellegen w true Vr1 Vi1 Ir1 Ii1 _ _ ns (s1 :: core) ND E1), !(ac_tellegen w true Vr2 Vi2 Ir2 Ii2 _ _ ns (s2 :: core) ND E2) in KR.
  rewrite !(ac_tellegen w true Vr1 Vi1 Ir1 Ii1 _ _ ns (s1 :: core) ND E1), !(ac_tellegen w true Vr2 Vi2 Ir2 Ii2 _ _ ns (s2 :: core) ND E2) in KI.
  fold T1 T2 in KR, KI. cbn [lsum] in KR, KI. rewrite H1, H2 in KR, KI. cbn [fst snd] in KR, KI.
  set (d := fun (U : str -> R) e => U (first_end e) - U (second_end e)).
  set (xr := fun id => (Ir2 id * linked Ii1 id core + - (Ii1 id * linked Ir2 id core)) + (Ii2 id * linked Ir1 id core + - (Ir1 id * linked Ii2 id core))).
  set (xi := fun id => (Ir2 id * linked Ir1 id core + - (Ir1 id * linked Ir2 id core)) + (Ii1 id * linked Ii2 id core + - (Ii2 id * linked Ii1 id core))).
  assert (XR : lsum (coil (fun id => - w * xr id)) core = 0).
  { rewrite coil_sum, lsum_scal. unfold xr. rewrite !lsum_plus, !lsum_opp, (SY Ir2 Ii1), (SY Ii2 Ir1). ring. }
  assert (XI : lsum (coil (fun id => w * xi id)) core = 0).
  { rewrite coil_sum, lsum_scal. unfold xi. rewrite !lsum_plus, !lsum_opp, (SY Ir2 Ir1), (SY Ii1 Ii2). ring. }
  assert (CR : forall e, In e core -> d Vr1 e * fst (T2 e) + - (d Vi1 e * snd (T2 e)) = d Vr2 e * fst (T1 e) + - (d Vi2 e * snd (T1 e)) + coil (fun id => - w * xr id) e /\
                                      d Vr1 e * snd (T2 e) + d Vi1 e * fst (T2 e) = d Vr2 e * snd (T1 e) + d Vi2 e * fst (T1 e) + coil (fun id => w * xi id) e).
  { intros e IE. specialize (B e IE). specialize (L1 e IE). specialize (L2 e IE). unfold d, T1, T2.
    destruct e; try (destruct B; fail); cbn [bilateral ac_law ac_through first_end second_end fst snd coil] in *; unfold Rdiv; rewrite ?NK in L1, L2 by assumption.
    - split; ring.
    - split; ring.
    - destruct L1 as (-> & ->), L2 as (-> & ->). unfold xr, xi. split; ring.
    - split; ring.
    - unfold ac_value in B. destruct L1 as (M1 & M2), L2 as (M3 & M4). rewrite M1, M2, M3, M4. rewrite B. split; ring.
    - unfold ac_value in B. rewrite B. split; ring. }
  assert (SR : lsum (fun e => d Vr1 e * fst (T2 e)) core - lsum (fun e => d Vi1 e * snd (T2 e)) core = lsum (fun e => d Vr2 e * fst (T1 e)) core - lsum (fun e => d Vi2 e * snd (T1 e)) core + lsum (coil (fun id => - w * xr id)) core).
  { unfold Rminus. rewrite <- !lsum_opp, <- !lsum_plus. apply lsum_ext. intros e IE. apply (CR e IE). }
  assert (SI : lsum (fun e => d Vr1 e * snd (T2 e)) core + lsum (fun e => d Vi1 e * fst (T2 e)) core = lsum (fun e => d Vr2 e * snd (T1 e)) core + lsum (fun e => d Vi2 e * fst (T1 e)) core + lsum (coil (fun id => w * xi id)) core).
  { rewrite <- !lsum_plus. apply lsum_ext. intros e IE. apply (CR e IE). }
  rewrite XR in SR. rewrite XI in SI.
  unfold d in SR, SI. split; lra.
Qed.
Print Assumptions C230_ac_laws.

(** * The program *)
(** Two netlist files: the same elements, and a current source from one node to ground in
    the first, from another node to ground in the second. *)
Definition feed (id a : str) (dc ac : option Units.dec) f : pelem := Netlist.PI id a (lit "0") dc ac f.
Lemma core_node : forall parts s core n, Permutation parts (s :: core) -> In n (node_list core) -> In n (node_list parts).
Proof. intros parts s core n P H. apply (order_nodes _ _ P). unfold node_list. cbn [flat_map]. apply in_or_app. right. exact H. Qed.
Theorem C230_op : forall at1 at2 parts1 parts2 t1 t2 es1 es2 x1 x2 core id1 a1 dc1 ac1 f1 id2 a2 dc2 ac2 f2,
  let src1 := dc_source (fun id => at1 id 0) in let src2 := dc_source (fun id => at2 id 0) in
  let s1 := feed id1 a1 dc1 ac1 f1 in let s2 := feed id2 a2 dc2 ac2 f2 in
  op_found at1 parts1 t1 es1 x1 -> op_found at2 parts2 t2 es2 x2 -> Permutation parts1 (s1 :: core) -> Permutation parts2 (s2 :: core) ->
  Forall (sound parts1) parts1 -> Forall (sound parts2) parts2 -> well_posed src1 parts1 -> well_posed src2 parts2 ->
  Forall (bilateral src1) core -> Forall (bilateral src2) core -> In a1 (node_list core) -> In a2 (node_list core) -> a1 <> lit "0" -> a2 <> lit "0" ->
  src1 s1 = src2 s2 -> src1 s1 <> 0 ->
  forall name1 name2, slower name1 = slower (lit "V" ++ a1) -> slower name2 = slower (lit "V" ++ a2) ->
  exists v, op_report t1 es1 x1 name2 = Ok v /\ op_report t2 es2 x2 name1 = Ok v.
Proof.
  intros at1 at2 parts1 parts2 t1 t2 es1 es2 x1 x2 core id1 a1 dc1 ac1 f1 id2 a2 dc2 ac2 f2 src1 src2 s1 s2 F1 F2 P1 P2 O1 O2 W1 W2 B1 B2 N1 N2 G1 G2 EQ NZ name1 name2 E1 E2.
  pose proof W1 as (V1 & I1 & L1 & _). pose proof W2 as (V2 & I2 & L2 & _).
  destruct (op_found_laws _ _ _ _ _ F1 O1 W1 V1 I1 L1) as (R1 & _). destruct (op_found_laws _ _ _ _ _ F2 O2 W2 V2 I2 L2) as (R2 & _).
  exists (V1 a2). split; [exact (R1 a2 name2 (core_node _ _ _ _ P1 N2) G2 E2)|]. rewrite (R2 a1 name1 (core_node _ _ _ _ P2 N1) G1 E1). f_equal.
  pose proof (C230_laws src1 src2 core s1 s2 V1 I1 V2 I2 B1 B2 Logic.I Logic.I (order_laws _ _ P1 _ _ _ L1) (order_laws _ _ P2 _ _ _ L2)) as K.
  cbn [s1 s2 feed first_end second_end] in K. rewrite (proj1 L1), (proj1 L2), <- EQ in K. apply Rmult_eq_reg_l in K; [lra|exact NZ].
Qed.
Print Assumptions C230_op.

Lemma ac_found_names : forall fuel cmin gmin a b n sweep parts t es rows, ac_found fuel cmin gmin a b n sweep parts t es rows -> NoDup (map pid parts).
Proof.
  intros fuel cmin gmin a b n sweep parts t es rows (solve & csolve & JT & check & locked & o & tdo & maxit & acit & trit & topt & at_time & guess & skip & inv & modules & has_module & rounds & settings & rest & icmod
    & fs & user & depth & files & filename & rs & dirs & before & line & after & words & M & DI & BLA & A & LAST & QN & QA & QB & TY & NL & US & _).
  destruct (C212_ac solve csolve JT check locked o tdo false maxit acit trit fuel topt cmin gmin at_time guess skip inv modules has_module rounds settings rest icmod
    fs user depth files filename parts t es rs dirs before line after words n a b sweep M DI BLA A LAST QN QA QB TY NL) as (LD & _).
  destruct (C209_load _ _ _ _ _ _ US LD) as (other & _ & LD'). destruct (load_facts _ _ _ _ _ _ _ LD') as (_ & _ & _ & ND & _). exact ND.
Qed.
Theorem C230_ac : forall fuel cmin gmin a b n sweep parts1 parts2 t1 t2 es1 es2 rows1 rows2 angle core id1 a1 dc1 ac1 f1 id2 a2 dc2 ac2 f2,
  let s1 := feed id1 a1 dc1 ac1 f1 in let s2 := feed id2 a2 dc2 ac2 f2 in
  ac_found fuel cmin gmin a b n sweep parts1 t1 es1 rows1 -> ac_found fuel cmin gmin a b n sweep parts2 t2 es2 rows2 -> Permutation parts1 (s1 :: core) -> Permutation parts2 (s2 :: core) ->
  Forall (ac_sound parts1) parts1 -> Forall (ac_sound parts2) parts2 -> is_angle angle ->
  (forall ws w parts, omegas fuel a b n (Some (ss sweep)) = Ok ws -> In w ws -> In parts [parts1; parts2] -> ac_well_posed w gmin (Rmax 0 cmin) parts) ->
  Forall (bilateral ac_value) core -> In a1 (node_list core) -> In a2 (node_list core) -> a1 <> lit "0" -> a2 <> lit "0" ->
  ac_value s1 = ac_value s2 -> ac_value s1 <> 0 ->
  forall name1 name2, slower name1 = slower (lit "V" ++ a1) -> slower name2 = slower (lit "V" ++ a2) ->
  exists l, ac_report angle false t1 es1 rows1 name2 = Ok l /\ ac_report angle false t2 es2 rows2 name1 = Ok l.
Proof.
  intros fuel cmin gmin a b n sweep parts1 parts2 t1 t2 es1 es2 rows1 rows2 angle core id1 a1 dc1 ac1 f1 id2 a2 dc2 ac2 f2 s1 s2 F1 F2 P1 P2 O1 O2 AN WP B N1 N2 G1 G2 EQ NZ name1 name2 E1 E2.
  assert (NP : NoDup (map pid core)).
  { pose proof (Permutation_NoDup (Permutation_map pid P1) (ac_found_names _ _ _ _ _ _ _ _ _ _ _ F1)) as Q. cbn [map] in Q. inversion Q; assumption. }
  assert (WD : wound core).
  { intros id l1 l2 k v1 v2 IE. rewrite Forall_forall in O1. destruct (O1 _ (Permutation_in _ (Permutation_sym P1) (or_intror IE))) as (_ & NE & (c1 & d1 & w1 & i1 & C1) & (c2 & d2 & w2 & i2 & C2)).
    apply (Permutation_in _ P1) in C1, C2. destruct C1 as [C1|C1]; [discriminate C1|]. destruct C2 as [C2|C2]; [discriminate C2|]. split; [exact NE|]. split; [exists c1, d1, w1, i1; exact C1|exists c2, d2, w2, i2; exact C2]. }
  destruct (ac_found_laws _ _ _ _ _ _ _ _ _ _ _ angle F1 O1 AN) as (ws & OM & K). destruct (K (fun w Hw => WP ws w parts1 OM Hw (or_introl eq_refl))) as (R1 & _). clear K.
  destruct (ac_found_laws _ _ _ _ _ _ _ _ _ _ _ angle F2 O2 AN) as (ws' & OM' & K). rewrite OM in OM'. injection OM' as <-. destruct (K (fun w Hw => WP ws w parts2 OM Hw (or_intror (or_introl eq_refl)))) as (R2 & _). clear K.
  destruct (R1 a2 name2 (core_node _ _ _ _ P1 N2) G2 E2) as (l1 & Q1 & X1). destruct (R2 a1 name1 (core_node _ _ _ _ P2 N1) G1 E1) as (l2 & Q2 & X2).
  exists l1. split; [exact Q1|]. rewrite Q2. f_equal. symmetry. apply (forall2_same _ _ _ _ _ _ _ X1 X2). intros w z z' Hw Z Z'.
  destruct (WP ws w parts1 OM Hw (or_introl eq_refl)) as (Vr1 & Vi1 & Ir1 & Ii1 & L1 & _). destruct (WP ws w parts2 OM Hw (or_intror (or_introl eq_refl))) as (Vr2 & Vi2 & Ir2 & Ii2 & L2 & _).
  rewrite (Z _ _ _ _ L1), (Z' _ _ _ _ L2).
  destruct (C230_ac_laws w gmin (Rmax 0 cmin) core s1 s2 Vr1 Vi1 Ir1 Ii1 Vr2 Vi2 Ir2 Ii2 B NP WD Logic.I Logic.I) as (K1 & K2);
    [intros m IN; cbn in IN; repeat (destruct IN as [<-|IN]; [auto|]); destruct IN|exact (order_ac_laws _ _ P1 _ _ _ _ _ _ _ L1)|exact (order_ac_laws _ _ P2 _ _ _ _ _ _ _ L2)|].
  destruct L1 as (Zr1 & Zi1 & _), L2 as (Zr2 & Zi2 & _). rewrite <- EQ in K1, K2. apply Rmult_eq_reg_l in K1, K2; try exact NZ.
  cbn [s1 s2 feed first_end second_end] in K1, K2. rewrite Zr1, Zr2 in K1. rewrite Zi1, Zi2 in K2. f_equal; lra.
Qed.
Print Assumptions C230_ac.

(** ** An example: 6 A out of one node or the other of three resistors; -3 V at the other *)
Definition pair_core : list pelem := [PR (lit "r1") (lit "a") (lit "0") (1, 0)%Z; PR (lit "r2") (lit "a") (lit "b") (2, 0)%Z; PR (lit "r3") (lit "b") (lit "0") (3, 0)%Z].
Definition pair_feed (n : string) : pelem := feed (lit "i1") (lit n) (Some (6, 0)%Z) None None.
Definition pair_lines (n : string) : list str := map lit ["pair"; String.append "I1 " (String.append n " 0 type=idc idc=6"); "R1 a 0 1"; "R2 a b 2"; "R3 b 0 3"; ".op"]%string.
Definition pair_t (n m : string) : ntab := mkNtab [(KInt 1, KStr n); (KStr n, KInt 1); (KInt 0, KStr "0"); (KStr "0", KInt 0); (KInt 2, KStr m); (KStr m, KInt 2)]%string 0.
Definition pair_es (a b : nat) : list lelem := [EI "i1" 1 0 (dR (6, 0)%Z) false; ER "r1" a 0 (dR (1, 0)%Z); ER "r2" a b (dR (2, 0)%Z); ER "r3" b 0 (dR (3, 0)%Z)]%string.
Definition pair_V (x y : R) (n : str) : R := if streqb n (lit "a") then x else if streqb n (lit "b") then y else 0.
Definition cramer2 (A : mat) (b : vec) : option vec :=
  let det := A 0%nat 0%nat * A 1%nat 1%nat - A 0%nat 1%nat * A 1%nat 0%nat in
  if Req_EM_T det 0 then None
  else Some (fun i => match i with O => (b 0%nat * A 1%nat 1%nat - A 0%nat 1%nat * b 1%nat) / det | _ => (A 0%nat 0%nat * b 1%nat - A 1%nat 0%nat * b 0%nat) / det end).
Lemma cramer2_ok : solver_ok (fun _ => cramer2) 2.
Proof.
  split; intros A b.
  - intros y H i Hi. unfold cramer2 in H. destruct (Req_EM_T _ 0) as [|NZ]; [discriminate H|]. injection H as <-. unfold row. cbn [rsum]. destruct i as [|[|i]]; [field; exact NZ|field; exact NZ|lia].
  - intros H. unfold cramer2 in H. destruct (Req_EM_T _ 0) as [E|]; [|discriminate H].
    assert (TWO : forall z : vec, A 0%nat 0%nat * z 0%nat + A 0%nat 1%nat * z 1%nat = 0 -> A 1%nat 0%nat * z 0%nat + A 1%nat 1%nat * z 1%nat = 0 -> z 0%nat <> 0 \/ z 1%nat <> 0 ->
      exists z, (forall i, (i < 2)%nat -> row 2 A i z = 0) /\ exists i, (i < 2)%nat /\ z i <> 0).
    { intros z Z0 Z1 NZ. exists z. split; [intros i Hi; unfold row; cbn [rsum]; destruct i as [|[|i]]; [lra|lra|lia]|]. destruct NZ; [exists 0%nat|exists 1%nat]; split; auto. }
    set (pr := fun (x y : R) (i : nat) => match i with O => x | _ => y end).
    destruct (Req_EM_T (A 0%nat 0%nat) 0) as [E0|N0]; [destruct (Req_EM_T (A 0%nat 1%nat) 0) as [E1|N1]|].
    + destruct (Req_EM_T (A 1%nat 0%nat) 0) as [E2|N2]; [|apply (TWO (pr (A 1%nat 1%nat) (- A 1%nat 0%nat))); unfold pr; [rewrite E0, E1; ring|ring|right; lra]].
      apply (TWO (pr (if Req_EM_T (A 1%nat 1%nat) 0 then 1 else A 1%nat 1%nat) 0)); unfold pr; [rewrite E0; ring|rewrite E2; ring|left; destruct (Req_EM_T (A 1%nat 1%nat) 0); lra].
    + apply (TWO (pr (A 0%nat 1%nat) (- A 0%nat 0%nat))); unfold pr; [ring|lra|left; exact N1].
    + apply (TWO (pr (A 0%nat 1%nat) (- A 0%nat 0%nat))); unfold pr; [ring|lra|right; lra].
Qed.
Lemma pair_laws : forall src n x y, src (pair_feed n) = 6 -> (n = "a" /\ x = -5 /\ y = -3 \/ n = "b" /\ x = -3 /\ y = -9)%string ->
  laws src (pair_V x y) (fun _ => 0) (pair_feed n :: pair_core) /\ (forall V I, laws src V I (pair_feed n :: pair_core) -> V (lit "a") = x /\ V (lit "b") = y).
Proof.
  intros src n x y S6 C. unfold pair_core. split.
  - split; [reflexivity|]. split; [|repeat constructor]. intros m. cbn [leaving]. unfold leaving1. cbn [first_end second_end through pair_feed feed] in *. rewrite S6, !d_int.
    change (pair_V x y (lit "a")) with x. change (pair_V x y (lit "b")) with y. change (pair_V x y (lit "0")) with 0.
    destruct (PropsSubckt.streqb_spec m (lit "a")) as [->|]; [|destruct (PropsSubckt.streqb_spec m (lit "b")) as [->|]; [|destruct (PropsSubckt.streqb_spec m (lit "0")) as [->|]]].
    1-3: destruct C as [(-> & -> & ->)|(-> & -> & ->)]; repeat match goal with |- context [streqb ?u ?v] => let r := eval vm_compute in (streqb u v) in change (streqb u v) with r end; cbv iota; lra.
    destruct C as [(-> & _)|(-> & _)]; repeat match goal with |- context [if streqb ?u ?v then _ else _] => destruct (PropsSubckt.streqb_spec u v); [contradiction|] end; lra.
  - intros V I (Z0 & K & _). pose proof (K (lit "a")) as KA. pose proof (K (lit "b")) as KB. cbn [leaving] in KA, KB. unfold leaving1 in KA, KB. cbn [first_end second_end through pair_feed feed] in *.
    rewrite S6, !d_int, Z0 in KA, KB. destruct C as [(-> & -> & ->)|(-> & -> & ->)];
    repeat match type of KA with context [streqb ?u ?v] => let r := eval vm_compute in (streqb u v) in change (streqb u v) with r in KA end;
    repeat match type of KB with context [streqb ?u ?v] => let r := eval vm_compute in (streqb u v) in change (streqb u v) with r in KB end; cbv iota in KA, KB; unfold Rdiv in KA, KB; split; lra.
Qed.
Lemma pair_posed : forall src n, src (pair_feed n) = 6 -> (n = "a" \/ n = "b")%string -> well_posed src (pair_feed n :: pair_core).
Proof.
  intros src n S6 C. assert (X : exists x y, (n = "a" /\ x = -5 /\ y = -3 \/ n = "b" /\ x = -3 /\ y = -9)%string) by (destruct C as [->| ->]; do 2 eexists; [left|right]; repeat split).
  destruct X as (x & y & X). destruct (pair_laws src n x y S6 X) as (L & U). exists (pair_V x y), (fun _ => 0). split; [exact L|]. intros V I L'. destruct (U V I L') as (VA & VB). destruct L' as (Z0 & _).
  split; [|intros id IN; destruct C as [->| ->]; destruct IN]. intros m IN. assert (Q : m = lit "a" \/ m = lit "b" \/ m = lit "0") by (destruct C as [->| ->]; cbn in IN; intuition (subst; auto)).
  destruct Q as [->|[->| ->]]; assumption.
Qed.
Lemma pair_found : forall at_time n t es, (n = "a" \/ n = "b")%string -> load_all (fun _ => Some (pair_lines n)) (fun _ => Err NetlistParseError) 1 1 (lit "f") = Ok (pair_feed n :: pair_core, t, es) ->
  directives (fun _ => Some (pair_lines n)) 1 (lit "f") [lit ".op"] -> op_size t es = 2%nat -> exists x, op_found at_time (pair_feed n :: pair_core) t es x.
Proof.
  intros at_time n t es C LD DI SZ.
  set (csolve := fun (_ : cmat) (_ : cvec) => @None cvec). set (JT := fun _ : vec => (mzero, vzero)). set (rest := fun (_ : list pelem * ntab * list lelem) (_ : str) (_ : list (str * Directive.val)) (_ : option result) => @Err result ValueError).
  set (check := fun _ _ _ : vec => true). set (locked := fun _ : list lelem => @nil (nat * nat)). set (modules := fun _ : string => m_ie).
  assert (SV : solver_ok (fun _ => cramer2) (op_size t es)) by (rewrite SZ; exact cramer2_ok).
  edestruct (C214_op (fun _ => cramer2) csolve JT check locked PropsDc.default_opts (mkTd false true 0) false 20 20 20 30 tran_opts 0 0 at_time (fun _ => vzero) false (fun m => m) modules (fun _ => false) 1
    Session.default_opts rest (fun _ r => Ok r)) with (parts := pair_feed n :: pair_core) (t := t) (es := es) (line := lit ".op") as (x & M & _);
    [exact LD|discriminate|repeat constructor|repeat constructor; cbn [passive]; rewrite ?d_int; lra|apply pair_posed; [unfold dc_source, driven, written_dc; apply d_int|exact C]|exact SV|reflexivity|lia|lia|reflexivity|lra
    |intros x; eexists; reflexivity|exact DI|reflexivity|].
  exists x. do 24 eexists. exists (fun _ => Some (pair_lines n)), (fun _ => Err NetlistParseError), 1%nat, 1%nat, (lit "f"). eexists. exists [lit ".op"], [], (lit ".op"), [], []. exists true.
  split; [exact M|]. split; [exact DI|]. split; [reflexivity|]. split; [reflexivity|]. split; [constructor|]. split; [discriminate|]. split; [exact SV|].
  split; [reflexivity|]. split; [lia|]. split; [lia|]. split; reflexivity.
Qed.
Example C230_example : forall at_time, exists x1 x2,
  op_found at_time (pair_feed "a" :: pair_core) (pair_t "a" "b") (pair_es 1 2) x1 /\ op_found at_time (pair_feed "b" :: pair_core) (pair_t "b" "a") (pair_es 2 1) x2 /\
  op_report (pair_t "a" "b") (pair_es 1 2) x1 (lit "VB") = Ok (-3) /\ op_report (pair_t "b" "a") (pair_es 2 1) x2 (lit "VA") = Ok (-3).
Proof.
  intros at_time.
  assert (S6 : forall n, dc_source (fun id => at_time id 0) (pair_feed n) = 6) by (intros n; unfold dc_source, driven, written_dc; apply d_int).
  destruct (pair_found at_time "a" (pair_t "a" "b") (pair_es 1 2)) as (x1 & F1);
    [left; reflexivity|amp_load|amp_dirs (lit "pair") (pair_lines "a") [BLine (lit "i1 a 0 type=idc idc=6"); BLine (lit "r1 a 0 1"); BLine (lit "r2 a b 2"); BLine (lit "r3 b 0 3"); BLine (lit ".op")]|reflexivity|].
  destruct (pair_found at_time "b" (pair_t "b" "a") (pair_es 2 1)) as (x2 & F2);
    [right; reflexivity|amp_load|amp_dirs (lit "pair") (pair_lines "b") [BLine (lit "i1 b 0 type=idc idc=6"); BLine (lit "r1 a 0 1"); BLine (lit "r2 a b 2"); BLine (lit "r3 b 0 3"); BLine (lit ".op")]|reflexivity|].
  exists x1, x2. split; [exact F1|]. split; [exact F2|].
  assert (W1 : well_posed (dc_source (fun id => at_time id 0)) (pair_feed "a" :: pair_core)) by (apply pair_posed; auto). assert (W2 : well_posed (dc_source (fun id => at_time id 0)) (pair_feed "b" :: pair_core)) by (apply pair_posed; auto).
  assert (O1 : Forall (sound (pair_feed "a" :: pair_core)) (pair_feed "a" :: pair_core)) by (repeat constructor). assert (O2 : Forall (sound (pair_feed "b" :: pair_core)) (pair_feed "b" :: pair_core)) by (repeat constructor).
  destruct (pair_laws (dc_source (fun id => at_time id 0)) "a" (-5) (-3) (S6 _)) as (L1 & _); [left; auto|].
  destruct (op_found_laws _ _ _ _ _ F1 O1 W1 _ _ L1) as (R1 & _). pose proof (R1 (lit "b") (lit "VB") ltac:(cbn; auto 10) ltac:(discriminate) eq_refl) as Q1. change (pair_V (-5) (-3) (lit "b")) with (-3) in Q1. split; [exact Q1|].
  destruct (C230_op at_time at_time _ _ _ _ _ _ x1 x2 pair_core (lit "i1") (lit "a") (Some (6, 0)%Z) None None (lit "i1") (lit "b") (Some (6, 0)%Z) None None F1 F2 (Permutation_refl _) (Permutation_refl _) O1 O2 W1 W2)
    with (name1 := lit "VA") (name2 := lit "VB") as (v & A & B);
    [repeat constructor|repeat constructor|cbn; auto|cbn; auto 10|discriminate|discriminate|reflexivity|fold (pair_feed "a"); rewrite S6; lra|reflexivity|reflexivity|].
  rewrite Q1 in A. injection A as <-. exact B.
Qed.

(** Coupled windings of 1 H and 4 H at 1 rad/s: 1 A from one gives 2 V at the other. *)
Definition coil_core : list pelem := [Netlist.PL (lit "l1") (lit "a") (lit "0") (1, 0)%Z None; Netlist.PL (lit "l2") (lit "b") (lit "0") (4, 0)%Z None; PK (lit "k1") (lit "l1") (lit "l2") (1, 0)%Z (1, 0)%Z (4, 0)%Z].
Definition coil_feed (n : string) : pelem := feed (lit "i1") (lit n) None (Some (1, 0)%Z) None.
Definition coil_I (id : string) (i : str) : R := if streqb i (lit id) then -1 else 0.
Example C230_coupled : Forall (bilateral ac_value) coil_core /\ NoDup (map pid coil_core) /\ wound coil_core /\
  ac_laws 1 0 0 true (coil_feed "a" :: coil_core) (fun _ => 0) (pair_V (-1) (-2)) (coil_I "l1") (fun _ => 0) /\
  ac_laws 1 0 0 true (coil_feed "b" :: coil_core) (fun _ => 0) (pair_V (-2) (-4)) (coil_I "l2") (fun _ => 0).
Proof.
  assert (S2 : sqrt (dR (1, 0)%Z * dR (4, 0)%Z) * dR (1, 0)%Z = 2) by (rewrite !d_int; replace (1 * 4) with (2 * 2) by lra; rewrite sqrt_square by lra; lra).
  split; [repeat constructor|]. split; [repeat constructor; cbn; intuition discriminate|]. split.
  { intros id l1 l2 k v1 v2 H. destruct H as [H|[H|[H|[]]]]; try discriminate H. injection H as <- <- <- <- <- <-. split; [discriminate|]. split; [exists (lit "a"), (lit "0"), (1, 0)%Z, None; left; reflexivity|exists (lit "b"), (lit "0"), (4, 0)%Z, None; right; left; reflexivity]. }
  split; (split; [reflexivity|]; split; [reflexivity|]; split;
  [intros n IN N0; cbn in IN; unfold coil_core; cbn [ac_leaving]; unfold ac_leaving1, coil_feed, feed; cbn [first_end second_end ac_through fst snd]; unfold amplitude; cbv iota; rewrite ?d_int;
    repeat (destruct IN as [<-|IN]; [try (exfalso; apply N0; reflexivity);
      unfold coil_I; repeat match goal with |- context [streqb ?u ?v] => let r := eval vm_compute in (streqb u v) in change (streqb u v) with r end; cbv iota; split; lra|]); destruct IN
  |apply Forall_cons; [exact Logic.I|]; apply Forall_cons; [|apply Forall_cons; [|apply Forall_cons; [exact Logic.I|apply Forall_nil]]];
    cbn [ac_law]; unfold coil_feed, feed, coil_core; cbn [linked]; rewrite ?S2, ?d_int; unfold coil_I, pair_V;
    repeat match goal with |- context [streqb ?u ?v] => let r := eval vm_compute in (streqb u v) in change (streqb u v) with r end; cbv iota; split; lra]).
Qed.
