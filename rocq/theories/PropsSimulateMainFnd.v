(** AC analyses of circuits that dissipate are found (C229). *)
From Coq Require Import Ascii String Reals List Bool Arith ZArith Lia Lra.
From Verif Require Import Base BaseFacts Str Units Directive Lines Reader Netlist ModelLines Nodes NodesFacts Circuit CircuitFacts Rsum Mna MnaSpec DcSolve Newton
  NewtonFacts DynFacts Df Tran TranFacts PropsTran Ac AcFacts Sweep Csv PropsCsv Results PropsDirective PropsReader PropsNetlist PropsResults PropsMna PropsDc PropsAc Session PropsSetup
  RunQueue Ics PropsIcs Subckt PropsSubckt Simulate PropsSimulate SimulateAc PropsSimulateAc SimulateDc PropsSimulateDc SimulateTran PropsSimulateTran SimulateNl PropsSimulateNl
  SimulateSub PropsSimulateSub PropsSimulateHier PropsSimulateSubLaws PropsSimulateOp SimulateMain PropsSimulateMain PropsSimulateMainRel PropsSimulateMainSup.
Import ListNotations.
Open Scope R_scope.

(** With the sources off, the laws have no solution but zero. *)
Definition ac_regular (w g c : R) (parts : list pelem) : Prop :=
  forall Vr Vi Ir Ii, ac_laws w g c false parts Vr Vi Ir Ii ->
    (forall n, In n (node_list parts) -> Vr n = 0 /\ Vi n = 0) /\ (forall id, In id (current_ids parts) -> Ir id = 0 /\ Ii id = 0).

(** * The power in a circuit that dissipates *)
Lemma ac_tellegen : forall w on Vr Vi Ir Ii part (U : str -> R) ns l, NoDup ns -> (forall e, In e l -> In (first_end e) ns /\ In (second_end e) ns) ->
  lsum (fun n => U n * ac_leaving w on Vr Vi Ir Ii part n l) ns = lsum (fun e => (U (first_end e) - U (second_end e)) * part (ac_through w on Vr Vi Ir Ii e)) l.
Proof.
  intros w on Vr Vi Ir Ii part U ns l ND. induction l as [|e l IH]; intros H; cbn [ac_leaving lsum].
  - apply lsum_0. intros; ring.
  - rewrite <- IH by (intros e' H'; apply H; right; exact H').
    rewrite (lsum_ext _ _ (fun n => U n * ac_leaving1 w on Vr Vi Ir Ii part n e + U n * ac_leaving w on Vr Vi Ir Ii part n l)) by (intros; ring).
    rewrite lsum_plus. f_equal. unfold ac_leaving1. destruct (H e (or_introl eq_refl)) as (A & B). set (x := part (ac_through w on Vr Vi Ir Ii e)).
    rewrite (lsum_ext _ _ (fun n => U n * (if streqb n (first_end e) then x else 0) + - (U n * (if streqb n (second_end e) then x else 0)))) by (intros; ring).
    rewrite lsum_plus, lsum_opp, !pick_sum by assumption. ring.
Qed.
Theorem C229_regular : forall parts w g c, Forall dissipative parts -> no_source_loop parts -> 0 < g -> w <> 0 -> ac_regular w g c parts.
Proof.
  intros parts w g c DS NL GP WN Vr Vi Ir Ii (Z0 & Z1 & KCL & LAW). rewrite Forall_forall in DS, LAW.
  set (ns := nodup (list_eq_dec ascii_dec) (node_list parts)).
  assert (NS : forall n, In n ns <-> In n (node_list parts)) by (intros n; apply nodup_In).
  assert (DS' : Forall dissipative parts) by (apply Forall_forall; exact DS).
  assert (ENDS : forall e, In e parts -> In (first_end e) (node_list parts) /\ In (second_end e) (node_list parts)) by (intros e IE; apply ends_in; auto).
  assert (IND : forall id a b l ic, In (Netlist.PL id a b l ic) parts -> Vr a - Vr b = - w * (dR l * Ii id) /\ Vi a - Vi b = w * (dR l * Ir id)).
  { intros id a b l ic IE. pose proof (LAW _ IE) as L. cbn [ac_law] in L. rewrite !(linked_none _ _ _ DS') in L. rewrite !Rplus_0_r in L. exact L. }
  set (T := ac_through w false Vr Vi Ir Ii).
  set (P e := (Vr (first_end e) - Vr (second_end e)) * fst (T e) + (Vi (first_end e) - Vi (second_end e)) * snd (T e)).
  assert (PP : forall e, In e parts -> 0 <= P e).
  { intros e IE. pose proof (DS e IE) as De. unfold P, T. destruct e; try (destruct De; fail); cbn [dissipative] in De; cbn [ac_through first_end second_end fst snd].
    - set (d := Vr n1 - Vr n2). set (d' := Vi n1 - Vi n2). replace (d * (d / dR v) + d' * (d' / dR v)) with ((d * d + d' * d') * / dR v) by (field; lra).
      apply Rmult_le_pos; [|left; apply Rinv_0_lt_compat; exact De]. pose proof (Rle_0_sqr d). pose proof (Rle_0_sqr d'). unfold Rsqr in *. lra.
    - right. ring.
    - destruct (IND _ _ _ _ _ IE) as (E1 & E2). rewrite E1, E2. right. ring.
    - pose proof (LAW _ IE) as (L1 & L2). unfold amplitude in L1. assert (L1' : Vr n1 - Vr n2 = 0) by (destruct ac; exact L1). rewrite L1', L2. lra.
    - unfold amplitude. destruct ac; lra. }
  assert (SUM : lsum P parts + g * lsum (fun n => Vr n * Vr n + Vi n * Vi n) ns = 0).
  { unfold P. rewrite (lsum_plus _ (fun e => (Vr (first_end e) - Vr (second_end e)) * fst (T e)) (fun e => (Vi (first_end e) - Vi (second_end e)) * snd (T e))). unfold T.
    rewrite <- (ac_tellegen w false Vr Vi Ir Ii fst Vr ns parts), <- (ac_tellegen w false Vr Vi Ir Ii snd Vi ns parts);
      try apply NoDup_nodup; try (intros e IE; destruct (ENDS e IE) as (A & B); split; apply NS; assumption).
    rewrite <- lsum_scal, <- !lsum_plus. apply lsum_0. intros n IN. apply NS in IN.
    destruct (list_eq_dec ascii_dec n (lit "0")) as [->|NE]; [rewrite Z0, Z1; ring|]. destruct (KCL n IN NE) as (Q1 & Q2).
    set (A := ac_leaving w false Vr Vi Ir Ii fst n parts) in *. set (B := ac_leaving w false Vr Vi Ir Ii snd n parts) in *.
    transitivity (Vr n * (A + g * Vr n - w * c * Vi n) + Vi n * (B + g * Vi n + w * c * Vr n)); [ring|rewrite Q1, Q2; ring]. }
  pose proof (lsum_nonneg _ P parts PP) as S1.
  assert (NN : forall n, 0 <= Vr n * Vr n + Vi n * Vi n) by (intros n; pose proof (Rle_0_sqr (Vr n)); pose proof (Rle_0_sqr (Vi n)); unfold Rsqr in *; lra).
  assert (S2 : lsum (fun n => Vr n * Vr n + Vi n * Vi n) ns <= 0).
  { apply Rnot_lt_le. intros LT. pose proof (Rmult_lt_0_compat _ _ GP LT). lra. }
  assert (VZ : forall n, In n (node_list parts) -> Vr n = 0 /\ Vi n = 0).
  { intros n IN. pose proof (lsum_each _ (fun n => Vr n * Vr n + Vi n * Vi n) ns (fun a _ => NN a) S2 n (proj2 (NS n) IN)) as Q. cbv beta in Q.
    pose proof (Rle_0_sqr (Vr n)) as R1. pose proof (Rle_0_sqr (Vi n)) as R2. unfold Rsqr in *. split; apply Rsqr_0_uniq; unfold Rsqr; lra. }
  split; [exact VZ|].
  assert (LZ : forall id a b l ic, In (Netlist.PL id a b l ic) parts -> Ir id = 0 /\ Ii id = 0).
  { intros id a b l ic IE. destruct (IND _ _ _ _ _ IE) as (Q1 & Q2). destruct (ENDS _ IE) as (A & B). cbn [first_end second_end] in A, B.
    destruct (VZ a A) as (A1 & A2). destruct (VZ b B) as (B1 & B2). rewrite A1, B1 in Q1. rewrite A2, B2 in Q2. pose proof (DS _ IE) as De. cbn [dissipative] in De.
    assert (NZ : w * dR l <> 0) by (intros E; apply Rmult_integral in E; destruct E; [contradiction|lra]).
    split; apply (Rmult_eq_reg_l (w * dR l)); try assumption; lra. }
  assert (TZ : forall e, In e parts -> T e = match e with PV id _ _ _ _ _ => (Ir id, Ii id) | _ => (0, 0) end).
  { intros e IE. pose proof (DS e IE) as De. destruct (ENDS e IE) as (A & B). apply VZ in A. apply VZ in B. destruct A as (A1 & A2), B as (B1 & B2). unfold T.
    destruct e; try (destruct De; fail); cbn [first_end second_end ac_through dissipative] in *; rewrite ?A1, ?A2, ?B1, ?B2.
    - f_equal; field; lra.
    - f_equal; ring.
    - destruct (LZ _ _ _ _ _ IE) as (-> & ->). reflexivity.
    - reflexivity.
    - unfold amplitude. destruct ac; reflexivity. }
  assert (SL : forall n, ac_leaving w false Vr Vi Ir Ii fst n parts = sources_leaving Ir n parts /\ ac_leaving w false Vr Vi Ir Ii snd n parts = sources_leaving Ii n parts).
  { intros n. clear - TZ. unfold T in TZ. induction parts as [|e l IH]; [split; reflexivity|]. cbn [ac_leaving]. destruct (IH (fun e' H => TZ e' (or_intror H))) as (-> & ->).
    unfold ac_leaving1. rewrite (TZ e (or_introl eq_refl)). destruct e; cbn [sources_leaving first_end second_end fst snd];
      split; repeat match goal with |- context [if ?b then _ else _] => destruct b end; ring. }
  assert (SZ : forall id a b dc ac f, In (PV id a b dc ac f) parts -> Ir id = 0 /\ Ii id = 0).
  { intros id a b dc ac f IE. split; revert id a b dc ac f IE; apply NL; intros n IN NE; destruct (KCL n IN NE) as (Q1 & Q2); destruct (VZ n IN) as (V1 & V2); rewrite V1, V2 in Q1, Q2; destruct (SL n) as (E1 & E2);
      rewrite E1 in Q1; rewrite E2 in Q2; lra. }
  intros id IN. unfold current_ids in IN. apply in_map_iff in IN. destruct IN as (e & <- & IN). apply filter_In in IN. destruct IN as (IE & HC).
  pose proof (DS e IE) as De. destruct e; try (destruct De; fail); try discriminate HC; cbn [pid]; [eapply LZ|eapply SZ]; exact IE.
Qed.
Print Assumptions C229_regular.

(** * The iteration *)
Lemma ac_points_found : forall o csolve maxit fuel size mna AC J Gmin Nac, csolver_ok size csolve -> o_std o = true -> (0 < maxit)%nat -> (0 < fuel)%nat ->
  forall ws x rows, (forall w, In w ws -> ~ singular size (ac_sys mna AC J Gmin w RStd)) -> exists res, ac_points o false maxit fuel csolve size mna AC J Gmin Nac ws x rows = Ok (Some res).
Proof.
  intros o csolve maxit fuel size mna AC J Gmin Nac OK STD MX FU ws. induction ws as [|w ws IH]; intros x rows NS; [eexists; reflexivity|]. cbn [ac_points].
  destruct maxit as [|maxit]; [lia|]. destruct fuel as [|fuel]; [lia|].
  set (nw := fun (_ : nat) r y => mdn_ac false (S maxit) csolve size (ac_sys mna AC J Gmin w r) (ac_rhs Nac r) y).
  assert (E : exists z ez itz, nw 0%nat RStd x = NRet z ez true itz).
  { unfold nw, mdn_ac. match goal with |- context [csolve ?a ?b] => destruct (csolve a b) as [dx|] eqn:C end; [do 3 eexists; reflexivity|]. exfalso. apply (NS w (or_introl eq_refl)). apply (proj2 OK) in C. exact C. }
  destruct E as (z & ez & itz & E).
  assert (D : exists err tot calls, dc_solve o nw (S fuel) x = DRet (Some z) err true tot calls).
  { unfold dc_solve. assert (M : set_next_solve_method o get_solve_methods = mkMeths true false false false 0 false false 0).
    { unfold set_next_solve_method, disable_current, enable_next, get_solve_methods. simpl. rewrite STD. reflexivity. }
    rewrite M. cbn [dc_loop current_req std_en length]. rewrite E. cbn [advance s_en g_en andb]. do 3 eexists. reflexivity. }
  destruct D as (err & tot & calls & D). rewrite D. apply IH. intros w' I'. apply NS. right. exact I'.
Qed.

(** The difference of two solutions is a solution with the sources off. *)
Lemma ac_sub_laws : forall w g c parts Vr Vi Ir Ii Zr Zi Yr Yi, ac_laws w g c true parts Vr Vi Ir Ii -> ac_laws w g c true parts Zr Zi Yr Yi ->
  ac_laws w g c false parts (fun n => Vr n - Zr n) (fun n => Vi n - Zi n) (fun n => Ir n - Yr n) (fun n => Ii n - Yi n).
Proof.
  intros w g c parts Vr Vi Ir Ii Zr Zi Yr Yi (A1 & A2 & A3 & A4) (B1 & B2 & B3 & B4).
  assert (LV : forall n l,
    ac_leaving w false (fun n => Vr n - Zr n) (fun n => Vi n - Zi n) (fun n => Ir n - Yr n) (fun n => Ii n - Yi n) fst n l = ac_leaving w true Vr Vi Ir Ii fst n l - ac_leaving w true Zr Zi Yr Yi fst n l /\
    ac_leaving w false (fun n => Vr n - Zr n) (fun n => Vi n - Zi n) (fun n => Ir n - Yr n) (fun n => Ii n - Yi n) snd n l = ac_leaving w true Vr Vi Ir Ii snd n l - ac_leaving w true Zr Zi Yr Yi snd n l).
  { intros n l. induction l as [|e l (IH1 & IH2)]; [cbn; lra|]. cbn [ac_leaving]. rewrite IH1, IH2.
    assert (T1 : ac_through w false (fun n => Vr n - Zr n) (fun n => Vi n - Zi n) (fun n => Ir n - Yr n) (fun n => Ii n - Yi n) e =
       (fst (ac_through w true Vr Vi Ir Ii e) - fst (ac_through w true Zr Zi Yr Yi e), snd (ac_through w true Vr Vi Ir Ii e) - snd (ac_through w true Zr Zi Yr Yi e))).
    { destruct e; cbn [ac_through fst snd]; f_equal; unfold Rdiv; try ring. unfold amplitude. destruct ac; ring. }
    unfold ac_leaving1. rewrite T1. cbn [fst snd]. repeat match goal with |- context [if ?b then _ else _] => destruct b end; lra. }
  assert (LK : forall I J id l, linked (fun n => I n - J n) id l = linked I id l - linked J id l).
  { intros I J id l. induction l as [|q l IH]; [cbn; lra|]. destruct q; cbn [linked]; rewrite IH; try reflexivity.
    repeat match goal with |- context [if ?b then _ else _] => destruct b end; ring. }
  split; [lra|]. split; [lra|]. split.
  - intros n H NG. destruct (A3 n H NG), (B3 n H NG). destruct (LV n parts) as (T1 & T2). rewrite T1, T2. lra.
  - rewrite Forall_forall in *. intros e H. specialize (A4 e H). specialize (B4 e H). destruct e; cbn [ac_law] in *; try exact Logic.I; rewrite ?LK; try lra.
    unfold amplitude in *. destruct ac; lra.
Qed.

(** * The matrix of a circuit that is regular *)
Lemma ac_matrix : forall fs other fuel filename parts t es, load fs other fuel filename = Ok (parts, t, es) ->
  (forall line l, other line = Ok l -> Forall word_names l) -> Forall (ac_sound parts) parts ->
  forall csolve cmin gmin m N, csolver_ok (op_size t es) csolve -> generate_mna_and_N (get_nodes_number t) es = Ok (m, N) ->
  exists AC, generate_AC cmin (get_nodes_number t) es = Ok AC /\
  forall w, ac_regular w gmin (Rmax 0 cmin) parts ->
    ~ singular (op_size t es) (ac_sys (reduce_mat m) (reduce_mat AC) mzero (build_gmin_matrix (get_nodes_number t) gmin) w RStd) /\
    ac_well_posed w gmin (Rmax 0 cmin) parts.
Proof.
  intros fs other fuel filename parts t es LD OT SC csolve cmin gmin m N CS GM.
  assert (OL : forall line l, other line = Ok l -> Forall lower_case l) by (intros line l H; eapply Forall_impl; [|exact (OT line l H)]; intros e He; apply He).
  assert (OP : forall line l, other line = Ok l -> Forall PropsSimulateAc.plain_names l) by (intros line l H; eapply Forall_impl; [|exact (OT line l H)]; intros e He; apply He).
  assert (SO : Forall (proper parts) parts).
  { pose proof (load_lower _ _ _ _ _ _ _ OL LD) as LC. apply Forall_forall. rewrite Forall_forall in SC, LC. intros e H. split; [auto|apply SC; exact H]. }
  pose proof (load_plain _ _ _ _ _ _ _ OP LD) as PN.
  destruct (load_facts _ _ _ _ _ _ _ LD) as (G & NV & PL & ND & MEN).
  destruct (proper_wf written_dc t parts es G PL SO) as (W & SA & NH & NL).
  destruct (result_names t parts es G PL SO PN ND MEN) as (ns & NS & LN & DN & PNS & IDS & DI & PIS & LEN & REGD & IDX).
  pose proof (grounded_number t G) as NZ. set (nv := get_nodes_number t) in *.
  assert (NDV : NoDup (map (fun e => Base.upper (lid e)) (vdes es))).
  { rewrite (es_vdes written_dc t parts es PL). apply upper_nodup; [apply current_lower; exact SO|apply current_nodup; exact ND]. }
  assert (PAIR : forall e, In e parts -> exists l, In l es /\ placed written_dc t e l).
  { clear - PL. induction PL as [|e0 l0 p0 e1 P F IH]; intros e H; [destruct H|]. destruct H as [->|H]; [exists l0; split; [left|]; auto|].
    destruct (IH e H) as (l & A & C). exists l. split; [right|]; auto. }
  assert (PAIR' : forall l, In l es -> exists e, In e parts /\ placed written_dc t e l).
  { clear - PL. induction PL as [|e0 l0 p0 e1 P F IH]; intros l H; [destruct H|]. destruct H as [->|H]; [exists e0; split; [left|]; auto|].
    destruct (IH l H) as (e & A & C). exists e. split; [right|]; auto. }
  assert (WK : Forall (wf_coupling es) es).
  { apply Forall_forall. intros l H. destruct (PAIR' l H) as (e & IE & P). destruct l; try exact Logic.I.
    destruct e; cbn [placed] in P.
    4: { destruct P as (m' & E & _). injection E as -> -> -> _ _. rewrite Forall_forall in SC. destruct (SC _ IE) as (_ & NEQ & (a1 & b1 & u1 & c1 & H1) & (a2 & b2 & u2 & c2 & H2)).
         cbn [wf_coupling].
         assert (IND : forall id a b u ic, In (Netlist.PL id a b u ic) parts -> (exists e1, In e1 es /\ is_inductor e1 = true /\ lid e1 = ss id) /\ slower id = id).
         { intros id' a b u ic H'. destruct (PAIR _ H') as (q & IQ & i & j & -> & _). split; [eexists; split; [exact IQ|split; reflexivity]|].
           rewrite Forall_forall in SO. destruct (SO _ H') as ((K & _) & _). exact K. }
         destruct (IND _ _ _ _ _ H1) as (I1 & L1). destruct (IND _ _ _ _ _ H2) as (I2 & L2). split; [exact I1|]. split; [exact I2|].
         intros E. apply NEQ. apply lower_names; assumption. }
    all: first [destruct P as (i1 & j1 & E & _); discriminate E | destruct P as (i1 & j1 & i2 & j2 & E & _); discriminate E | destruct P as (i1 & j1 & E); discriminate E]. }
  destruct (C07_dynamic_matrix cmin nv es W NDV WK) as (AC & _ & GA & _). exists AC. split; [exact GA|]. intros w RG.
  assert (CM : (if Rlt_dec 0 cmin then cmin else 0) = Rmax 0 cmin) by (unfold Rmax; destruct (Rlt_dec 0 cmin), (Rle_dec 0 cmin); lra).
  assert (PHon : forall e l, In e parts -> placed written_dc t e l -> ac_ph parts l = if true then ac_field e else None).
  { intros e l IE P. apply ac_ph_ok; [exact ND|exact IE|]. apply (placed_lid written_dc t e l P). }
  assert (PHoff : forall (e : pelem) (l : lelem), In e parts -> placed written_dc t e l -> (fun _ => None) l = if false then ac_field e else None) by reflexivity.
  set (V := fun (x : vec) n => volt t (with_ground x) n). set (A := fun (x : vec) id => amp nv es (with_ground x) id).
  assert (XV : forall x n i, at_node t n i -> with_ground x i = V x n) by (intros x n i H; unfold V, volt; unfold at_node in H; rewrite H; reflexivity).
  assert (XI : forall x k id, nth_error (current_ids parts) k = Some id -> with_ground x (nv + k)%nat = A x id).
  { intros x k id H. unfold A, amp. pose proof (es_index (fun _ => 0) written_dc t parts es PL SO ND k id H) as E. rewrite freeze_vde_index in E. rewrite E. reflexivity. }
  assert (V0 : forall x, V x (lit "0") = 0) by (intros x; unfold V, volt; destruct G as (_ & GZ); unfold at_node in GZ; rewrite GZ; reflexivity).
  set (M := ac_sys (reduce_mat m) (reduce_mat AC) mzero (build_gmin_matrix nv gmin) w RStd).
  assert (CIRC : forall ph y, AcFacts.solves (nv + n_vde es - 1) M (reduce_vec (fst (generate_Nac nv ph es)), reduce_vec (snd (generate_Nac nv ph es))) y ->
    PropsAc.ac_solution nv es [] ph (with_ground vzero) gmin (Rmax 0 cmin) w (with_ground (fst y)) (with_ground (snd y))).
  { intros ph y SL. rewrite <- CM. apply (system_is_circuit cmin gmin nv es [] ph vzero mzero m N AC w y gmin NZ W NDV WK GM GA (Forall_nil _) (Forall_nil _)); [reflexivity|].
    exists RStd. split; [left; auto|exact SL]. }
  assert (NSG : ~ singular (op_size t es) M).
  { intros (z & (i & Hi & NZ') & Z).
    assert (SL : PropsAc.ac_solution nv es [] (fun _ => None) (with_ground vzero) gmin (Rmax 0 cmin) w (with_ground (fst z)) (with_ground (snd z))).
    { apply CIRC. intros j Lj. destruct (Z j Lj) as [Z1 Z2]. change (op_size t es) with (nv + n_vde es - 1)%nat in Z1, Z2. rewrite Z1, Z2. unfold generate_Nac, reduce_vec. cbn [fst snd re_of im_of].
      change (fun _ : lelem => re_of None) with (fun _ : lelem => @None R). change (fun _ : lelem => im_of None) with (fun _ : lelem => @None R). rewrite !no_sources. split; lra. }
    pose proof (ac_named t parts es false (fun _ => None) G PL SO SC ND PHoff REGD _ _ _ _ _ _ (V (fst z)) (V (snd z)) (A (fst z)) (A (snd z)) (V0 _) (V0 _)
      (XV _) (XV _) (XI _) (XI _) SL) as K. destruct (RG _ _ _ _ K) as (U3 & U4).
    assert (fst z i = 0 /\ snd z i = 0) as (Q1 & Q2); [|destruct NZ'; congruence]. change (op_size t es) with (nv + n_vde es - 1)%nat in Hi.
    destruct (lt_dec (S i) nv) as [IN'|OUT].
    + pose proof (proj1 (grounded_range t (S i) G) IN') as (n & At). destruct (U3 n (MEN n _ At)) as (U5 & U6).
      rewrite <- (XV (fst z) _ _ At) in U5. rewrite <- (XV (snd z) _ _ At) in U6. cbn [with_ground] in U5, U6. split; assumption.
    + assert (Kl : (S i - nv < List.length (current_ids parts))%nat) by (rewrite LEN; lia).
      destruct (nth_error (current_ids parts) (S i - nv)) as [id|] eqn:E; [|apply nth_error_None in E; lia].
      destruct (U4 id (nth_error_In _ _ E)) as (U5 & U6).
      rewrite <- (XI (fst z) _ _ E) in U5. rewrite <- (XI (snd z) _ _ E) in U6. replace (nv + (S i - nv))%nat with (S i) in U5, U6 by lia. cbn [with_ground] in U5, U6. split; assumption. }
  split; [exact NSG|].
  set (Nac := (reduce_vec (fst (generate_Nac nv (ac_ph parts) es)), reduce_vec (snd (generate_Nac nv (ac_ph parts) es)))).
  destruct (csolve M (fun i => - fst Nac i, fun i => - snd Nac i)) as [y|] eqn:CY; [|exfalso; apply NSG; apply (proj2 CS) in CY; exact CY].
  pose proof (proj1 CS _ _ _ CY) as SY. cbn [fst snd] in SY.
  assert (SL : PropsAc.ac_solution nv es [] (ac_ph parts) (with_ground vzero) gmin (Rmax 0 cmin) w (with_ground (fst y)) (with_ground (snd y))).
  { apply CIRC. intros j Lj. destruct (SY j Lj) as [Z1 Z2]. change (op_size t es) with (nv + n_vde es - 1)%nat in Z1, Z2. rewrite Z1, Z2. unfold Nac. cbn [fst snd]. split; lra. }
  pose proof (ac_named t parts es true (ac_ph parts) G PL SO SC ND PHon REGD _ _ _ _ _ _ (V (fst y)) (V (snd y)) (A (fst y)) (A (snd y)) (V0 _) (V0 _)
    (XV _) (XV _) (XI _) (XI _) SL) as K. do 4 eexists. split; [exact K|].
  intros Vr' Vi' Ir' Ii' K'. destruct (RG _ _ _ _ (ac_sub_laws _ _ _ _ _ _ _ _ _ _ _ _ K' K)) as (U1 & U2).
  split; [intros n H; destruct (U1 n H)|intros id H; destruct (U2 id H)]; split; lra.
Qed.

(** * C229: the results of an AC analysis are found *)
Theorem C229_found : forall fs other fuel filename parts t es, load fs other fuel filename = Ok (parts, t, es) ->
  (* nothing is said of subcircuits and user-defined elements, except that names are words in lower case *)
  (forall line l, other line = Ok l -> Forall word_names l) ->
  Forall (ac_sound parts) parts -> Forall dissipative parts -> no_source_loop parts ->
  forall csolve o maxit fuel' cmin gmin start stop points stype x0 ws,
  csolver_ok (op_size t es) csolve -> o_std o = true -> (0 < maxit)%nat -> (0 < fuel')%nat -> 0 < gmin ->
  omegas fuel' start stop points stype = Ok ws -> ws <> [] -> ~ In 0 ws ->
  (exists rows, ac_run csolve o false maxit fuel' cmin gmin parts t es start stop points stype x0 = Ok (Some rows)) /\
  forall w, In w ws -> ac_well_posed w gmin (Rmax 0 cmin) parts.
Proof.
  intros fs other fuel filename parts t es LD OT SC DS NSL csolve o maxit fuel' cmin gmin start stop points stype x0 ws CS OS MX FU GP OM NE NZ.
  destruct (load_facts _ _ _ _ _ _ _ LD) as (_ & _ & PL & _ & _).
  destruct (C04_assembly_succeeds (get_nodes_number t) es (placed_senses _ _ _ _ PL DS)) as (m & N & GM).
  destruct (ac_matrix fs other fuel filename parts t es LD OT SC csolve cmin gmin m N CS GM) as (AC & GA & K).
  assert (RG : forall w, In w ws -> ac_regular w gmin (Rmax 0 cmin) parts) by (intros w IN; apply C229_regular; try assumption; intros E; subst w; contradiction).
  split; [|intros w IN; exact (proj2 (K w (RG w IN)))].
  unfold ac_run, ac_analysis. rewrite OM. cbn [bindr]. rewrite GM. cbn [bindr]. rewrite GA. cbn [bindr fst]. cbv zeta.
  destruct ws as [|w0 ws]; [congruence|]. change (get_nodes_number t + n_vde es - 1)%nat with (op_size t es).
  destruct x0 as [x|]; (apply ac_points_found; [exact CS|exact OS|exact MX|exact FU|]; intros w IN; exact (proj1 (K w (RG w IN)))).
Qed.
Print Assumptions C229_found.

(** ** The whole program *)
Definition ac_an (sweep : str) (d1 d2 d3 : Units.dec) : list (str * Directive.val) :=
  [(lit "type", VStr (lit "ac")); (lit "sweep_type", VStr sweep); (lit "points", VNum d1); (lit "start", VNum d2); (lit "stop", VNum d3)].
Lemma ac_line : forall line v0 v1 v2 v3 d1 d2 d3, asks "ac" line [v0; v1; v2; v3] -> Forall no_equals [v0; v1; v2; v3] -> Forall (fun v => starred v = false) [v0; v1; v2; v3] ->
  convert_units v1 = Ok d1 -> convert_units v2 = Ok d2 -> convert_units v3 = Ok d3 -> is_ic line = false /\ parse_single_analysis line = Ok (ac_an v0 d1 d2 d3).
Proof.
  intros line v0 v1 v2 v3 d1 d2 d3 A NE ST C1 C2 C3.
  pose proof (Forall_inv NE) as N0. pose proof (Forall_inv (Forall_inv_tail NE)) as N1. pose proof (Forall_inv (Forall_inv_tail (Forall_inv_tail NE))) as N2. pose proof (Forall_inv (Forall_inv_tail (Forall_inv_tail (Forall_inv_tail NE)))) as N3.
  pose proof (Forall_inv ST) as S0. pose proof (Forall_inv (Forall_inv_tail ST)) as S1. pose proof (Forall_inv (Forall_inv_tail (Forall_inv_tail ST))) as S2. pose proof (Forall_inv (Forall_inv_tail (Forall_inv_tail (Forall_inv_tail ST)))) as S3.
  cbv beta in *. split; [apply (asks_ic "ac" line _ A); intros x Q; discriminate Q|]. unfold parse_single_analysis. rewrite A. cbv zeta.
  change (directive_type (lit "." ++ lit "ac")) with (lit "ac"). change (dget streqb specs (lit "ac")) with (Some Directive.ac_table). unfold parse_params. cbn [ploop].
  rewrite S0, S1, S2, S3, (no_eq_label v0 N0), (no_eq_label v1 N1), (no_eq_label v2 N2), (no_eq_label v3 N3).
  change (take_first (matches 0 None) Directive.ac_table) with (Some (sp "type" (Some 0)%nat TStr false "sweep_type" (VStr (lit "LOG")), tl Directive.ac_table)). cbn [sp s_type convert bindr].
  change (take_first (matches 1 None) (tl Directive.ac_table)) with (Some (sp "nsteps" (Some 1)%nat TFloat true "points" VNone, tl (tl Directive.ac_table))). cbn [sp s_type convert]. rewrite C1. cbn [bindr].
  change (take_first (matches 2 None) (tl (tl Directive.ac_table))) with (Some (sp "start" (Some 2)%nat TFloat true "start" VNone, tl (tl (tl Directive.ac_table)))). cbn [sp s_type convert]. rewrite C2. cbn [bindr].
  change (take_first (matches 3 None) (tl (tl (tl Directive.ac_table)))) with (Some (sp "stop" (Some 3)%nat TFloat true "stop" VNone, tl (tl (tl (tl Directive.ac_table))))). cbn [sp s_type convert]. rewrite C3. cbn [bindr].
  vm_compute. reflexivity.
Qed.
Lemma one_ac : forall (C : Type) (c : C) ex ic (par : list (str * Directive.val)) (r : result), ex c (lit "ac") par None = Ok r ->
  fst (RunQueue.main C _ _ (fun ty => mem ty known_types) ex ic c [] [mkAn _ _ (lit "ac") None par] (mkSt C _ _ [] [] [])) = Ok [(lit "ac", r)].
Proof. intros C c ex ic par r H. cbv in H. cbv. rewrite H. reflexivity. Qed.
Lemma dissipative_linear : forall val t parts es, Forall2 (placed val t) parts es -> Forall dissipative parts -> nonlinear es = false.
Proof.
  intros val t parts es F H. unfold nonlinear. induction F as [|p l parts es P F IH]; [reflexivity|]. cbn [existsb]. rewrite (IH (Forall_inv_tail H)), orb_false_r.
  apply Forall_inv in H. destruct p; cbn [placed dissipative] in *; try (destruct H; fail); destruct P as (i & j & -> & _); reflexivity.
Qed.

Theorem C229_ac : forall solve csolve JT check locked o tdo maxit acit trit fuel topt cmin gmin at_time guess skip inv modules has_module rounds settings rest icmod
  fs user depth files filename parts t es line sweep v1 v2 v3 d1 d2 d3 n,
  load_all fs user depth files filename = Ok (parts, t, es) ->
  (* nothing is said of user-defined elements, except that names are words in lower case *)
  (forall line l, user line = Ok l -> Forall word_names l) ->
  Forall (ac_sound parts) parts -> Forall dissipative parts -> no_source_loop parts ->
  csolver_ok (op_size t es) csolve -> o_std o = true -> (0 < acit)%nat -> 0 < gmin ->
  directives fs files filename [line] -> asks "ac" line [sweep; v1; v2; v3] ->
  Forall no_equals [sweep; v1; v2; v3] -> Forall (fun v => starred v = false) [sweep; v1; v2; v3] ->
  convert_units v1 = Ok d1 -> convert_units v2 = Ok d2 -> convert_units v3 = Ok d3 ->
  Base.upper (ss sweep) = "LIN"%string \/ Base.upper (ss sweep) = "LOG"%string ->
  dR d1 = INR n -> (2 <= n < fuel)%nat -> 0 < dR d2 <= dR d3 ->
  exists rows ws, main_file solve csolve JT check locked o tdo false maxit acit trit fuel topt cmin gmin at_time guess skip inv modules has_module rounds settings rest icmod
      fs user depth files filename = Ok (parts, t, es, [(lit "ac", RAc (Some rows))]) /\
    omegas fuel (dR d2) (dR d3) (dR d1) (Some (ss sweep)) = Ok ws /\ List.length ws = n /\
    (forall w, In w ws -> 0 < w /\ ac_well_posed w gmin (Rmax 0 cmin) parts) /\
    forall angle, is_angle angle ->
     (forall n name, In n (node_list parts) -> n <> lit "0" -> slower name = slower (lit "V" ++ n) ->
        exists l, ac_report angle false t es rows name = Ok l /\ Forall2 (fun w z => forall Vr Vi Ir Ii, ac_laws w gmin (Rmax 0 cmin) true parts Vr Vi Ir Ii -> z = (Vr n, Vi n)) ws l) /\
     (forall id name, In id (current_ids parts) -> slower name = slower (lit "I(" ++ id ++ lit ")") ->
        exists l, ac_report angle false t es rows name = Ok l /\ Forall2 (fun w z => forall Vr Vi Ir Ii, ac_laws w gmin (Rmax 0 cmin) true parts Vr Vi Ir Ii -> z = (Ir id, Ii id)) ws l).
Proof.
  intros solve csolve JT check locked o tdo maxit acit trit fuel topt cmin gmin at_time guess skip inv modules has_module rounds settings rest icmod
    fs user depth files filename parts t es line sweep v1 v2 v3 d1 d2 d3 n LD US SC DS NSL CS OS AX GP DI A NE ST C1 C2 C3 TY EN (N2 & NF) (D0 & D1).
  destruct (read_lines _ _ _ _ DI) as (s & RD & DR). destruct (ac_line line sweep v1 v2 v3 d1 d2 d3 A NE ST C1 C2 C3) as [II PP].
  destruct (C209_load _ _ _ _ _ _ US LD) as (other & OT & LD'). pose proof PI_RGT_0 as PP0.
  assert (OM : exists ws, omegas fuel (dR d2) (dR d3) (dR d1) (Some (ss sweep)) = Ok ws /\ List.length ws = n /\ forall w, In w ws -> 0 < w).
  { rewrite EN. destruct (C135_frequencies fuel (dR d2) (dR d3) n (ss sweep) N2 D0 D1 NF) as (KL & KG & _).
    assert (POS : forall ws f, map (fun w => w / Rtrigo1.PI / 2) ws = map f (seq 0 n) -> (forall i, (i < n)%nat -> 0 < f i) -> List.length ws = n /\ forall w, In w ws -> 0 < w).
    { intros ws f E F. split; [apply (f_equal (@List.length R)) in E; rewrite !map_length, seq_length in E; exact E|]. intros w IN. apply (in_map (fun w => w / Rtrigo1.PI / 2)) in IN. rewrite E in IN. apply in_map_iff in IN.
      destruct IN as (i & Ei & Hi). apply in_seq in Hi. specialize (F i ltac:(lia)). rewrite Ei in F. replace w with (w / Rtrigo1.PI / 2 * (2 * Rtrigo1.PI)) by (field; lra). apply Rmult_lt_0_compat; lra. }
    assert (L2 : 2 <= INR n) by (apply (le_INR 2 n); exact N2).
    destruct TY as [TY|TY].
    - destruct (KL TY) as (ws & E & M). exists ws. split; [exact E|]. apply (POS ws _ M). intros i _.
      assert (0 <= INR i * (dR d3 - dR d2) / (INR n - 1)); [|lra]. unfold Rdiv. apply Rmult_le_pos; [apply Rmult_le_pos; [apply pos_INR|lra]|left; apply Rinv_0_lt_compat; lra].
    - destruct (KG TY) as (ws & q & E & Q & M & _). exists ws. split; [exact E|]. apply (POS ws _ M). intros i _. apply Rmult_lt_0_compat; [exact D0|apply pow_lt; exact Q]. }
  destruct OM as (ws & OM & LW & PW).
  assert (FU : (0 < fuel)%nat) by lia.
  destruct (C229_found fs other files filename parts t es LD' OT SC DS NSL csolve o acit fuel cmin gmin (dR d2) (dR d3) (dR d1) (Some (ss sweep)) None ws CS OS AX FU GP OM) as ((rows & RUN) & WP);
    [intros E; subst ws; cbn in LW; lia|intros IN; specialize (PW 0 IN); lra|].
  exists rows, ws. split; [|split; [exact OM|split; [exact LW|split; [intros w IN; split; [exact (PW w IN)|exact (WP w IN)]|]]]].
  - unfold main_file. rewrite LD. cbn [bindr]. rewrite RD. cbn [bindr]. cbv zeta. rewrite DR. unfold parse_ics, parse_analysis. cbn [filter]. rewrite II. cbn [negb mapr bindr].
    unfold ic_vectors. cbn [mapr bindr concat]. rewrite PP. cbn [bindr].
    change (map as_an [ac_an sweep d1 d2 d3]) with [mkAn (list (str * Directive.val)) result (lit "ac") None (ac_an sweep d1 d2 d3)].
    rewrite (one_ac _ _ _ _ _ (RAc (Some rows))); [reflexivity|]. unfold exec, num, txt.
    change (streqb (lit "ac") (lit "op")) with false. change (streqb (lit "ac") (lit "dc")) with false. change (streqb (lit "ac") (lit "ac")) with true. cbv iota.
    change (dget streqb (ac_an sweep d1 d2 d3) (lit "start")) with (Some (VNum d2)). change (dget streqb (ac_an sweep d1 d2 d3) (lit "stop")) with (Some (VNum d3)).
    change (dget streqb (ac_an sweep d1 d2 d3) (lit "points")) with (Some (VNum d1)). change (dget streqb (ac_an sweep d1 d2 d3) (lit "sweep_type")) with (Some (VStr sweep)). cbn [bindr].
    destruct (load_facts _ _ _ _ _ _ _ LD') as (_ & _ & PL & _ & _). rewrite (dissipative_linear _ _ _ _ PL DS). rewrite RUN. reflexivity.
  - intros angle AN. destruct (C193_ac fs other files filename parts t es LD' OT SC csolve o acit fuel cmin gmin angle (dR d2) (dR d3) (dR d1) (Some (ss sweep)) None rows CS AN OS RUN) as (ws' & OM' & _ & K).
    rewrite OM in OM'. injection OM' as <-. exact (K WP).
Qed.
Print Assumptions C229_ac.

(** ** Examples: a current source, a resistor of 1 Ohm and a capacitor of 1 F, at 1 Hz and 2 Hz *)
Definition bank_parts (z : Z) : list pelem :=
  [Netlist.PI (lit "i1") (lit "a") (lit "0") (Some (7, 0)%Z) (Some (z, 0)%Z) None; PR (lit "r1") (lit "a") (lit "0") (1, 0)%Z; PC (lit "c1") (lit "a") (lit "0") (1, 0)%Z None].
Definition bank_es : list lelem := [EI "i1" 1 0 (dR (7, 0)%Z) false; ER "r1" 1 0 (dR (1, 0)%Z); EC "c1" 1 0 (dR (1, 0)%Z)]%string.
Definition bank_lines (w : string) : list str := map lit ["bank"; String.append "I1 A 0 type=idc idc=7 iac=" w; "R1 a 0 1"; "C1 a 0 1"; ".ac lin 2 1 2"]%string.
Definition bank_turned : list str := map lit ["bank"; "C1 a 0 1"; "R1 a 0 1"; "I1 A 0 type=idc idc=7 iac=2"; ".ac lin 2 1 2"]%string.
Lemma bank_sound : forall z, Forall (ac_sound (bank_parts z)) (bank_parts z).
Proof. intros z. repeat constructor. Qed.
Lemma bank_dissipative : forall z, Forall dissipative (bank_parts z).
Proof. intros z. repeat constructor; cbn [dissipative]; rewrite d_one; lra. Qed.
Lemma bank_no_loop : forall z, no_source_loop (bank_parts z).
Proof. intros z J K id a b dc ac f IN. cbn in IN. repeat (destruct IN as [IN|IN]; [discriminate IN|]). destruct IN. Qed.
Lemma bank_found : forall lines parts es, load_all (fun _ => Some lines) (fun _ => Err NetlistParseError) 1 1 (lit "f") = Ok (parts, shunt_t, es) ->
  directives (fun _ => Some lines) 1 (lit "f") [lit ".ac lin 2 1 2"] -> op_size shunt_t es = 1%nat -> nonlinear es = false ->
  Forall (ac_sound parts) parts -> Forall dissipative parts -> no_source_loop parts ->
  exists rows, ac_found 5 0 1 1 2 2 (lit "lin") parts shunt_t es rows /\
    forall ws w, omegas 5 1 2 2 (Some (ss (lit "lin"))) = Ok ws -> In w ws -> ac_well_posed w 1 (Rmax 0 0) parts.
Proof.
  intros lines parts es LD DI SZ NL SC DS NSL.
  set (solve := fun (_ : nat) (_ : mat) (_ : vec) => @None vec). set (JT := fun _ : vec => (mzero, vzero)). set (rest := fun (_ : list pelem * ntab * list lelem) (_ : str) (_ : list (str * Directive.val)) (_ : option result) => @Err result ValueError).
  set (check := fun _ _ _ : vec => true). set (locked := fun _ : list lelem => @nil (nat * nat)). set (modules := fun _ : string => m_ie).
  assert (CS : csolver_ok (op_size shunt_t es) csolve1) by (rewrite SZ; exact csolve1_ok).
  assert (D2 : dR (2, 0)%Z = 2) by apply d_int.
  assert (NE : Forall no_equals [lit "lin"; lit "2"; lit "1"; lit "2"]) by (repeat constructor; unfold no_equals; cbn; intuition discriminate).
  edestruct (C229_ac solve csolve1 JT check locked PropsDc.default_opts (mkTd false true 0) 20 20 20 5 tran_opts 0 1 (fun _ _ => 0) (fun _ => vzero) false (fun m => m) modules (fun _ => false) 1
    Session.default_opts rest (fun _ r => Ok r)) with (parts := parts) (t := shunt_t) (es := es) (line := lit ".ac lin 2 1 2") (sweep := lit "lin") (v1 := lit "2") (v2 := lit "1") (v3 := lit "2")
      (d1 := (2, 0)%Z) (d2 := (1, 0)%Z) (d3 := (2, 0)%Z) (n := 2%nat) as (rows & ws & M & OM & _ & WP & _);
    [exact LD|discriminate|exact SC|exact DS|exact NSL|exact CS|reflexivity|lia|lra|exact DI|vm_compute; reflexivity|exact NE|repeat constructor|vm_compute; reflexivity|vm_compute; reflexivity|vm_compute; reflexivity
    |left; reflexivity|rewrite D2; cbn; lra|lia|rewrite D2, d_one; lra|].
  rewrite D2, d_one in OM. exists rows. split; [|intros ws' w OM' IN; rewrite OM in OM'; injection OM' as <-; exact (proj2 (WP w IN))].
  do 21 eexists. exists (fun _ => Some lines), (fun _ => Err NetlistParseError), 1%nat, 1%nat, (lit "f"). eexists. exists [lit ".ac lin 2 1 2"], [], (lit ".ac lin 2 1 2"), [], [lit "lin"; lit "2"; lit "1"; lit "2"].
  pose proof (Forall_inv NE) as N0. pose proof (Forall_inv (Forall_inv_tail NE)) as N1. pose proof (Forall_inv (Forall_inv_tail (Forall_inv_tail NE))) as N2.
  split; [exact M|]. split; [exact DI|]. split; [reflexivity|]. split; [vm_compute; reflexivity|]. split; [constructor|].
  split; [exists (lit "2"), (2, 0)%Z; split; [split; [exact N1|exists 1%nat; right; split; reflexivity]|split; [reflexivity|symmetry; exact D2]]|].
  split; [exists (lit "1"), (1, 0)%Z; split; [split; [exact N2|exists 2%nat; right; split; reflexivity]|split; [reflexivity|symmetry; exact d_one]]|].
  split; [exists (lit "2"), (2, 0)%Z; split; [split; [exact N1|exists 3%nat; right; split; reflexivity]|split; [reflexivity|symmetry; exact D2]]|].
  split; [left; split; [exact N0|exists 0%nat; right; split; reflexivity]|]. split; [exact NL|]. split; [discriminate|]. split; [exact CS|]. split; reflexivity.
Qed.
Ltac bank_run z w :=
  destruct (bank_found (bank_lines w) (bank_parts z) bank_es) as (?rows & ?F & ?WP);
  [amp_load|amp_dirs (lit "bank") (bank_lines w) [BLine (lit (String.append "i1 a 0 type=idc idc=7 iac=" w)); BLine (lit "r1 a 0 1"); BLine (lit "c1 a 0 1"); BLine (lit ".ac lin 2 1 2")]
  |reflexivity|reflexivity|apply bank_sound|apply bank_dissipative|apply bank_no_loop|].
(** Sources of 1 A, 2 A and 4 A. *)
Example C228_example : forall angle, is_angle angle -> exists rows1 rows2 rows3 l1 l2 l3,
  ac_found 5 0 1 1 2 2 (lit "lin") (bank_parts 1) shunt_t bank_es rows1 /\ ac_found 5 0 1 1 2 2 (lit "lin") (bank_parts 2) shunt_t bank_es rows2 /\ ac_found 5 0 1 1 2 2 (lit "lin") (bank_parts 4) shunt_t bank_es rows3 /\
  ac_report angle false shunt_t bank_es rows1 (lit "VA") = Ok l1 /\ ac_report angle false shunt_t bank_es rows2 (lit "VA") = Ok l2 /\ ac_report angle false shunt_t bank_es rows3 (lit "VA") = Ok l3 /\ cmixes 2 1 l1 l2 l3.
Proof.
  intros angle AN. bank_run 1%Z "1"%string. bank_run 2%Z "2"%string. bank_run 4%Z "4"%string. exists rows, rows0, rows1.
  destruct (C228_superposition 5 0 1 1 2 2 (lit "lin") (bank_parts 1) (bank_parts 2) (bank_parts 4) shunt_t shunt_t shunt_t bank_es bank_es bank_es rows rows0 rows1 angle 2 1 F F0 F1) as (A & _);
    [|apply bank_sound|apply bank_sound|apply bank_sound|exact AN| |].
  - apply sup_cons; [repeat split|repeat split|unfold ac_value, amplitude; rewrite !d_int; lra|].
    apply sup_cons; [reflexivity|reflexivity|unfold ac_value; lra|]. apply sup_cons; [reflexivity|reflexivity|unfold ac_value; lra|apply sup_nil].
  - intros ws w p OM Hw IN. cbn [In] in IN. destruct IN as [<-|[<-|[<-|[]]]]; eauto.
  - destruct (A (lit "a") (lit "VA")) as (l1 & l2 & l3 & K); [cbn; auto|discriminate|reflexivity|]. exists l1, l2, l3. split; [exact F|]. split; [exact F0|]. split; [exact F1|]. exact K.
Qed.
(** The lines in another order. *)
Example C224_ac_example : forall angle, is_angle angle -> exists rows rows' l,
  ac_found 5 0 1 1 2 2 (lit "lin") (bank_parts 2) shunt_t bank_es rows /\ ac_found 5 0 1 1 2 2 (lit "lin") (rev (bank_parts 2)) shunt_t (rev bank_es) rows' /\
  ac_report angle false shunt_t bank_es rows (lit "VA") = Ok l /\ ac_report angle false shunt_t (rev bank_es) rows' (lit "VA") = Ok l.
Proof.
  intros angle AN. bank_run 2%Z "2"%string. assert (P : Permutation.Permutation (bank_parts 2) (rev (bank_parts 2))) by apply Permutation.Permutation_rev.
  destruct (bank_found bank_turned (rev (bank_parts 2)) (rev bank_es)) as (rows' & F' & _);
    [amp_load|amp_dirs (lit "bank") bank_turned [BLine (lit "c1 a 0 1"); BLine (lit "r1 a 0 1"); BLine (lit "i1 a 0 type=idc idc=7 iac=2"); BLine (lit ".ac lin 2 1 2")]|reflexivity|reflexivity
    |exact (order_ac_sound _ _ P (bank_sound 2))|apply Forall_rev; apply bank_dissipative
    |intros J K id a b dc ac f IN; cbn in IN; repeat (destruct IN as [IN|IN]; [discriminate IN|]); destruct IN|].
  destruct (C224_ac 5 0 1 1 2 2 (lit "lin") (bank_parts 2) (rev (bank_parts 2)) shunt_t shunt_t bank_es (rev bank_es) rows rows' angle F F' P (bank_sound 2) AN WP) as (A & _).
  destruct (A (lit "a") (lit "VA")) as (l & K); [cbn; auto|discriminate|reflexivity|]. exists rows, rows', l. split; [exact F|]. split; [exact F'|exact K].
Qed.
(** The premises of C229 hold of this circuit. *)
Example C229_example : exists rows, ac_found 5 0 1 1 2 2 (lit "lin") (bank_parts 2) shunt_t bank_es rows /\ ac_regular 1 1 0 (bank_parts 2).
Proof. bank_run 2%Z "2"%string. exists rows. split; [exact F|]. apply C229_regular; [apply bank_dissipative|apply bank_no_loop|lra|lra]. Qed.
