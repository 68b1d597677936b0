(** From the text of a netlist with devices to the results of a DC sweep (C201). *)
From Coq Require Import Ascii String Reals List Bool Arith ZArith Lia Lra.
From Verif Require Import Base BaseFacts Str Units Directive Lines Reader Netlist ModelLines Nodes NodesFacts Circuit CircuitFacts Rsum Mna MnaSpec DcSolve DcSolveFacts Newton
  NewtonFacts DynFacts Sweep SweepFacts Csv PropsCsv Results Tran PropsReader PropsNetlist PropsResults PropsMna PropsDc PropsSweep PropsSimulateOp Session Simulate PropsSimulate
  SimulateAc PropsSimulateAc SimulateDc PropsSimulateDc SimulateTran PropsSimulateTran SimulateNl PropsSimulateNl.
From Verif Require Import PropsMna.
Import ListNotations.
Open Scope R_scope.

(** * C201 *)

(** One point of the sweep: the value of the source, the voltages and the currents. *)
Record dpoint := mkDp { q_value : R; q_V : str -> R; q_I : str -> R }.

Lemma nl_laws_ext : forall square current tol src src' g c parts V I dV dI, (forall e, src e = src' e) ->
  nl_laws square current tol src g c parts V I dV dI -> nl_laws square current tol src' g c parts V I dV dI.
Proof.
  intros square current tol src src' g c parts V I dV dI E (A & B & C & D). split; [exact A|]. split; [exact B|].
  assert (TL : forall n l, tr_leaving src V I dV n l = tr_leaving src' V I dV n l).
  { intros n l. induction l as [|e l IH]; [reflexivity|]. cbn [tr_leaving]. rewrite IH. f_equal. unfold tr_leaving1. destruct e; cbn [tr_through through]; rewrite ?E; reflexivity. }
  split.
  - intros n IN NG. rewrite <- TL. apply C; assumption.
  - intros e IE HC. specialize (D e IE HC). destruct e; cbn [tr_gap] in *; rewrite <- ?E; exact D.
Qed.

Theorem C201_dc_devices : forall fs other fuel filename parts t es, load fs other fuel filename = Ok (parts, t, es) ->
  (* nothing is said of subcircuits and user-defined elements, except that names are words in lower case *)
  (forall line l, other line = Ok l -> Forall word_names l) ->
  Forall (nl_sound parts) parts -> has_device parts ->
  forall square current stamp conductance JT, (forall x, devices square current stamp conductance t parts x = Ok (JT x)) ->
  forall at0 solve tol locked o tdo maxit fuel' gmin guess skip start stop step source x0 rows es',
  let check x dx r := convergence_check tol (op_size t es) x dx r (get_nodes_number t - 1) in
  0 < d_max tdo ->
  dc_run solve JT check locked o tdo maxit fuel' gmin at0 guess skip t es start stop step source x0 = (Ok (Some rows), es') ->
  let report := dc_report t es source rows in
  (* the circuit is left as it was *)
  es' = es /\
  exists e a vals, In e parts /\ names_source source e /\
    lin_axis start stop ((stop - start) / step + 1) = Ok a /\
    collect lin_next (S (S (Z.to_nat (up ((stop - start) / step + 1))))) a = Some vals /\
    sub (map fst rows) vals /\ (skip = false -> map fst rows = vals) /\
    (* the swept source is not called like the voltage of a node or the current of an element *)
    ((forall n, In n (node_list parts) -> slower source <> slower (lit "V" ++ n)) ->
     (forall id, In id (current_ids parts) -> slower source <> slower (lit "I(" ++ id ++ lit ")")) ->
     exists points, map q_value points = map fst rows /\
       (* the reported values *)
       (forall name, slower name = slower source -> report name = Ok (map q_value points)) /\
       (forall n name, In n (node_list parts) -> n <> lit "0" -> slower name = slower (lit "V" ++ n) -> report name = Ok (map (fun p => q_V p n) points)) /\
       (forall id name, In id (current_ids parts) -> slower name = slower (lit "I(" ++ id ++ lit ")") -> report name = Ok (map (fun p => q_I p id) points)) /\
       (* are near to values for which the laws of the netlist, with the value of the source, nearly hold *)
       Forall (fun p => exists V' I' (flag : bool) s g, settled tol parts (q_V p) (q_I p) V' I' /\ stage o (if flag then 0 else gmin) s g /\
         nl_laws square current tol (fun q => s * swept at0 (pid e) (q_value p) q) g 0 parts V' I' (fun _ => 0) (fun _ => 0)) points).
Proof.
  intros fs other fuel filename parts t es LD OT SO HD square current stamp conductance JT DEV at0 solve tol locked o tdo maxit fuel' gmin guess skip start stop step source x0 rows es' check DM RUN report.
  assert (OL : forall line l, other line = Ok l -> Forall lower_case l) by (intros line l H; eapply Forall_impl; [|exact (OT line l H)]; intros e He; apply He).
  assert (OP : forall line l, other line = Ok l -> Forall plain_names l) by (intros line l H; eapply Forall_impl; [|exact (OT line l H)]; intros e He; apply He).
  pose proof (load_lower _ _ _ _ _ _ _ OL LD) as LC. pose proof (load_registered _ _ _ _ _ _ _ LD) as REG.
  pose proof (load_plain _ _ _ _ _ _ _ OP LD) as PN.
  destruct (load_facts _ _ _ _ _ _ _ LD) as (G & NV & PL & ND & MEN).
  destruct (nl_names t parts es G PL LC ND MEN REG) as (ns & NS & LN & DN & PNS & IDS & DI & PIS & LEN & IDX). specialize (PNS PN). specialize (PIS PN).
  pose proof (device_nonlinear t parts es PL HD) as NLE.
  pose proof (grounded_number t G) as NZ. set (nv := get_nodes_number t) in *.
  assert (SZ : op_size t es = (List.length ns + List.length (current_ids parts))%nat) by (unfold op_size; fold nv; lia).
  (* the sweep *)
  assert (RUN' : exists isv c, slower source = c :: tl (slower source) /\ (isv = true -> c = "v"%char) /\ (isv = false -> c = "i"%char) /\
    dc_analysis (dc_point solve JT check locked o tdo maxit fuel' gmin at0 guess isv source t) skip es start stop step isv (ss source) x0 = (Ok (Some rows), es')).
  { unfold dc_run in RUN. destruct (slower source) as [|c r]; [discriminate RUN|]. destruct (ascii_dec c "v") as [->|NC].
    - exists true, "v"%char. repeat split; [discriminate|exact RUN].
    - destruct (ascii_dec c "i") as [->|NC']; [|discriminate RUN]. exists false, "i"%char. repeat split; [discriminate|exact RUN]. }
  clear RUN. destruct RUN' as (isv & c & SRC & CV & CI & RUN).
  pose proof (C13_source_restored _ _ _ _ _ _ _ _ _ _ _ _ RUN) as RES. split; [exact RES|].
  destruct (C13_rows_paired _ _ _ _ _ _ _ _ _ _ _ _ RUN) as (k & a & vals & FS & LA & CO & SUB & ROWS).
  destruct (find_source_kind _ _ _ _ _ FS) as (l & NL & _ & LOW & KIND). rewrite Nat.sub_0_r in NL.
  destruct (placed_nth _ _ _ _ PL k l NL) as (e & NE & P).
  assert (DC : exists d, dc_of l = Some d) by (destruct l; try destruct KIND; eexists; reflexivity).
  destruct DC as (d & DC).
  assert (LID : lid l = ss (pid e)) by (apply (placed_lid written_dc t e l P)).
  assert (IE : In e parts) by (eapply nth_error_In; exact NE).
  assert (PE : slower (pid e) = pid e) by (rewrite Forall_forall in LC; apply (LC e IE)).
  assert (SP : slower source = pid e) by (apply ss_inj; rewrite <- slower_lower, <- LOW, LID, slower_lower, PE; reflexivity).
  assert (NSRC : names_source source e).
  { split; [exact SP|]. destruct e; cbn [placed] in P.
    4: destruct P as (m & -> & _); destruct KIND.
    all: try (destruct P as (i & j & -> & A); destruct KIND; fail).
    all: try (destruct P as (i & j & i2 & j2 & -> & A); destruct KIND; fail).
    all: try (destruct P as (i & j & ->); destruct KIND; fail).
    all: destruct P as (i & j & -> & A); exists (tl (slower source)); rewrite SRC at 1; f_equal; auto. }
  exists e, a, vals. split; [exact IE|]. split; [exact NSRC|]. split; [exact LA|]. split; [exact CO|]. split; [exact SUB|]. split.
  { intros ->. destruct (dc_analysis_inv _ _ _ _ _ _ _ _ _ _ _ RUN) as (a' & k' & vals' & solved & rows' & e' & v' & es1 & LA' & FS' & _ & _ & CO' & SL & R & _).
    rewrite LA in LA'. injection LA' as <-. rewrite CO in CO'. injection CO' as <-. destruct solved; [|discriminate R]. injection R as <-.
    apply sweep_all in SL; [|discriminate]. exact SL. }
  intros CLASH CLASH'.
  assert (NR : rows <> []).
  { destruct (dc_analysis_inv _ _ _ _ _ _ _ _ _ _ _ RUN) as (a' & k' & vals' & solved & rows' & e' & v' & es1 & LA' & FS' & _ & _ & CO' & SL & R & _).
    destruct solved; [|discriminate R]. injection R as <-.
    assert (K : forall vals k es x s rows rows' es', sweep_loop (dc_point solve JT check locked o tdo maxit fuel' gmin at0 guess isv source t) skip vals k es x s rows = (Ok (Some true, rows'), es') ->
       (s = Some true -> rows <> []) -> rows' <> []).
    { clear. induction vals as [|v vals IH]; intros k es2 x s rows rows' es2' H N; cbn [sweep_loop] in H; cbv zeta in H.
      - injection H as -> <- _. apply N. reflexivity.
      - match type of H with context [dc_point ?a ?b ?c ?d ?e ?f ?g ?h ?i ?j ?k ?l ?m ?n ?o ?p] => destruct (dc_point a b c d e f g h i j k l m n o p) as [[y|]|] end; [| |discriminate H].
        + eapply IH; [exact H|]. intros _ E. apply app_eq_nil in E. destruct E. discriminate.
        + destruct skip; [eapply IH; [exact H|exact N]|discriminate H]. }
    eapply K; [exact SL|discriminate]. }
  assert (PS : PropsResults.plain source).
  { assert (Q : PropsResults.plain (slower source)) by (rewrite SP; rewrite Forall_forall in PN; apply (PN e IE)).
    clear - Q. induction source as [|x s IH]; [constructor|]. cbn [slower map] in Q. inversion Q as [|? ? Q1 Q2]; subst. constructor; [|apply IH; exact Q2].
    destruct x as [[] [] [] [] [] [] [] []]; first [reflexivity|discriminate Q1]. }
  assert (NN : source <> []) by (intros ->; discriminate SRC).
  assert (NSN : forall n, In n ns -> In n (node_list parts)).
  { intros n H. apply In_nth_error in H. destruct H as (i & H).
    destruct (names_of_ok t (seq 1 (nv - 1)) (proj1 G)) as (ns' & NS2 & _ & NSK).
    { intros q Q. apply in_seq in Q. apply (grounded_range t q G). fold nv. lia. }
    rewrite NS in NS2. injection NS2 as <-.
    assert (K : (i < nv - 1)%nat) by (rewrite <- LN; apply nth_error_Some; congruence).
    destruct (NSK i (S i)) as (n' & E & A).
    { rewrite (nth_error_nth' (seq 1 (nv - 1)) 0%nat) by (rewrite seq_length; exact K). rewrite seq_nth by exact K. reflexivity. }
    rewrite H in E. injection E as <-. eapply MEN. exact A. }
  destruct (dc_table t es source ns (current_ids parts) rows NS IDS DN DI PNS PIS SZ PS NN) as (T0 & T1 & T2).
  { intros n H. apply CLASH. apply NSN. exact H. }
  { exact CLASH'. }
  { exact NR. }
  assert (PT : forall r, In r rows ->
    Forall2 (placed (with_value (pid e) (fst r)) t) parts (set_dc es k (fst r)) /\
    exists x1 (flag : bool) s g, stage o (if flag then 0 else gmin) s g /\
      settled tol parts (volt t (with_ground (snd r))) (amp nv (set_dc es k (fst r)) (with_ground (snd r))) (volt t (with_ground x1)) (amp nv (set_dc es k (fst r)) (with_ground x1)) /\
      nl_laws square current tol (fun q => s * swept at0 (pid e) (fst r) q) g 0 parts (volt t (with_ground x1)) (amp nv (set_dc es k (fst r)) (with_ground x1)) (fun _ => 0) (fun _ => 0)).
  { intros r IR. rewrite Forall_forall in ROWS. destruct (ROWS r IR) as (x & OPX). unfold dc_point in OPX.
    match type of OPX with bindr ?m _ = _ => destruct m as [[[y fl]|]|] eqn:OPR end; try discriminate OPX. cbn [bindr] in OPX. injection OPX as ->.
    set (v := fst r) in *.
    set (at' := at_swept at0 isv source (set_dc es k v)) in *.
    assert (ATE : forall id, at' id = if streqb id (pid e) then v else at0 id).
    { intros id. unfold at', at_swept. rewrite find_source_set, FS. destruct (nth_set_dc es k v l d NL DC) as (l' & N' & I' & D'). rewrite N', I', LID, D'.
      destruct (String.eqb_spec (ss (pid e)) (ss id)) as [E|E].
      - apply ss_inj in E. subst id. rewrite streqb_refl. reflexivity.
      - rewrite streqb_ne; [reflexivity|]. intros ->. apply E. reflexivity. }
    assert (SRCE : forall q, driven at' (with_value (pid e) v) q = swept at0 (pid e) v q).
    { intros q. unfold swept, dc_source, with_value. destruct q; cbn [driven pid]; try reflexivity; destruct f; try reflexivity; rewrite ATE; reflexivity. }
    assert (PL' : Forall2 (placed (with_value (pid e) v) t) parts (set_dc es k v)) by (eapply set_dc_placed; eassumption).
    split; [exact PL'|].
    assert (SZ2 : op_size t (set_dc es k v) = op_size t es) by (unfold op_size; rewrite n_vde_set_dc; reflexivity).
    unfold check in OPR. rewrite <- SZ2 in OPR. fold nv in OPR.
    destruct (nl_op_core t parts (set_dc es k v) G PL' LC SO ND REG (device_nonlinear t parts _ PL' HD) square current stamp conductance JT DEV solve tol locked o tdo maxit fuel' gmin at' _ _ _ DM OPR)
      as (x1 & s & g & ST & SE & LW).
    exists x1, fl, s, g. split; [exact ST|]. split; [exact SE|]. eapply nl_laws_ext; [|exact LW]. intros q. cbv beta. rewrite SRCE. reflexivity. }
  exists (map (fun r => mkDp (fst r) (volt t (with_ground (snd r))) (amp nv (set_dc es k (fst r)) (with_ground (snd r)))) rows).
  rewrite map_map. cbn [q_value]. split; [reflexivity|]. split; [exact T0|]. split; [|split].
  - intros n name H NG E. destruct (IDX n H NG) as (i & NI & A). rewrite map_map. cbn [q_V]. unfold report. rewrite (T1 i n name NI E). f_equal.
    apply map_ext. intros r. unfold volt. unfold at_node in A. rewrite A. reflexivity.
  - intros id name H E. apply In_nth_error in H. destruct H as (q & H). rewrite map_map. cbn [q_I]. unfold report. rewrite (T2 q id name H E). f_equal.
    apply map_ext_in. intros r IR. rewrite LN. apply (nl_XI t parts (set_dc es k (fst r)) G (proj1 (PT r IR)) LC SO ND (snd r) q id H).
  - apply Forall_map. apply Forall_forall. intros r IR. cbn [q_V q_I q_value]. destruct (PT r IR) as (_ & x1 & flag & s & g & ST & SE & LW).
    do 2 eexists. exists flag, s, g. split; [exact SE|]. split; [exact ST|exact LW].
Qed.
Print Assumptions C201_dc_devices.

(** ** An example: the current of the clamp of C197, swept from 2 A to -10 A in one step.
    From -1/2 V the first point is 1 V; from there the second one is -2 V. *)
Definition clamp_at (v : R) : list lelem := [ER "r1" 1 0 1; EI "i1" 0 1 v false; ENL "d1" 1 0].
(** [w] is the solution, and the Newton step from [u] arrives there. *)
Definition cube_leads (v u w : R) : Prop := w + w * (w * w) = v /\ (u = w \/ (u <> w /\ (w - u) * (1 + 3 * (u * u)) = v - u - u * (u * u))).
Lemma cube_step : forall locked i A b x v w, A 0%nat 0%nat = 1 -> b 0%nat = - v -> cube_leads v (x 0%nat) w ->
  exists y r it, op_newton (fun _ => solve1) cube_devices clamp_check locked (mkTd false false 1) 20 shunt_t (clamp_at v) i A b x = NRet y r true it /\ y 0%nat = w.
Proof.
  intros locked i A b x v w EA EB (W & X). unfold op_newton. change (op_size shunt_t (clamp_at v)) with 1%nat. change (nonlinear (clamp_at v)) with true.
  set (td := fun (dx : vec) (it : nat) => get_td (mkTd false false 1) 1 dx (ports locked (clamp_at v)) (Some it)).
  assert (TD : forall dx it, td dx it = 1) by reflexivity. clearbody td.
  assert (CK : forall y dx r, clamp_check y dx r = true <-> (dx 0%nat = 0 /\ r 0%nat = 0)).
  { intros y dx r. unfold clamp_check. rewrite C11_convergence_check by (cbv; lia). cbn [exact_tols Newton.t_vea Newton.t_ver Newton.t_iea Newton.t_ier].
    assert (Z : forall a, Rabs a <= 0 <-> a = 0).
    { intros a. split; [|intros ->; rewrite Rabs_R0; lra]. intros H. destruct (Req_dec a 0) as [|N]; [assumption|]. apply Rabs_pos_lt in N. lra. }
    split.
    - intros (H & _). destruct (H 0%nat) as (H1 & H2); [cbv; lia|]. split; apply Z; lra.
    - intros (H1 & H2). apply Z in H1. apply Z in H2. split; intros k K; change (get_nodes_number shunt_t - 1)%nat with 1%nat in K; change (op_size shunt_t clamp_es) with 1%nat in K; [|lia].
      replace k with 0%nat by lia. lra. }
  assert (POS : forall z : R, 1 + 3 * (z * z) <> 0) by (intros z; pose proof (Rle_0_sqr z) as SQ; unfold Rsqr in SQ; intros E; lra).
  assert (NW : forall z, residual 1 true cube_devices A b z 0%nat = z 0%nat - v + z 0%nat * (z 0%nat * z 0%nat) /\
    exists dx, solve1 (jac true cube_devices A z) (fun k => - residual 1 true cube_devices A b z k) = Some dx /\ dx 0%nat = - (z 0%nat - v + z 0%nat * (z 0%nat * z 0%nat)) / (1 + 3 * (z 0%nat * z 0%nat))).
  { intros z. destruct (cube_run z) as (_ & J & T).
    assert (RE : residual 1 true cube_devices A b z 0%nat = z 0%nat - v + z 0%nat * (z 0%nat * z 0%nat)).
    { unfold residual, row. cbn [rsum]. rewrite T, EA, EB. ring. }
    split; [exact RE|]. unfold solve1. rewrite RE. unfold jac. rewrite J, EA.
    destruct (Req_EM_T (1 + 3 * (z 0%nat * z 0%nat)) 0) as [E|E]; [destruct (POS _ E)|]. eexists. split; [reflexivity|]. cbn beta. reflexivity. }
  assert (AT : forall z dx : vec, z 0%nat = w -> dx 0%nat = - (z 0%nat - v + z 0%nat * (z 0%nat * z 0%nat)) / (1 + 3 * (z 0%nat * z 0%nat)) -> dx 0%nat = 0 /\ z 0%nat - v + z 0%nat * (z 0%nat * z 0%nat) = 0).
  { intros z dx Z ->. assert (E : z 0%nat - v + z 0%nat * (z 0%nat * z 0%nat) = 0) by (rewrite Z; lra). split; [|exact E]. rewrite E. field. apply POS. }
  unfold mdn_solver. cbn [Nat.eqb]. cbn [newton_loop negb].
  destruct (NW x) as (RE & dx & S1 & DX). rewrite S1.
  destruct X as [X|(X & ST)].
  - destruct (AT x dx X DX) as (D0 & R0).
    replace (clamp_check (fun i0 => x i0 + td dx 1%nat * dx i0) dx (residual 1 true cube_devices A b x)) with true.
    + do 3 eexists. split; [reflexivity|]. cbn beta. rewrite TD, D0, X. ring.
    + symmetry. apply CK. rewrite RE. split; assumption.
  - assert (DV : dx 0%nat = w - x 0%nat).
    { rewrite DX. apply Rmult_eq_reg_r with (1 + 3 * (x 0%nat * x 0%nat)); [|apply POS]. rewrite ST. field. apply POS. }
    replace (clamp_check (fun i0 => x i0 + td dx 1%nat * dx i0) dx (residual 1 true cube_devices A b x)) with false.
    + set (x' := fun i0 => x i0 + td dx 1%nat * dx i0).
      assert (X' : x' 0%nat = w) by (unfold x'; rewrite TD, DV; ring).
      destruct (NW x') as (RE' & dx' & S2 & DX'). rewrite S2. destruct (AT x' dx' X' DX') as (D0 & R0).
      match goal with |- context [clamp_check ?y ?d ?r] => replace (clamp_check y d r) with true end.
      * do 3 eexists. split; [reflexivity|]. change (x' 0%nat + td dx' 2%nat * dx' 0%nat = w). rewrite TD, D0, X'. ring.
      * symmetry. apply CK. rewrite RE'. split; assumption.
    + destruct (clamp_check _ _ _) eqn:C; [|reflexivity]. exfalso. apply CK in C. destruct C as (C & _). rewrite DV in C. apply X. lra.
Qed.
Lemma cube_op : forall locked at0 v w z, cube_leads v (z 0%nat) w ->
  exists x, op_run (fun _ => solve1) cube_devices clamp_check locked PropsDc.default_opts (mkTd false false 1) 20 30 0 at0 shunt_t (clamp_at v) z = Ok (Some (x, true)) /\ x 0%nat = w.
Proof.
  intros locked at0 v w z LE. unfold op_run, op_analysis.
  match goal with |- context [generate_mna_and_N ?a ?b] => destruct (generate_mna_and_N a b) as [[m N]|] eqn:GE; [|vm_compute in GE; discriminate GE] end. cbn [bindr fst snd].
  assert (MV : reduce_mat m 0%nat 0%nat = 1 /\ reduce_vec N 0%nat = - v).
  { unfold generate_mna_and_N in GE. cbn in GE. injection GE as <- <-. unfold reduce_mat, reduce_vec. cbn. unfold mzero, vzero. split; [field|ring]. }
  destruct MV as (M0 & N0).
  assert (B0 : build_gmin_matrix (get_nodes_number shunt_t) 0 0%nat 0%nat = 0) by reflexivity.
  assert (TT : time_term (get_nodes_number shunt_t) (fun e => at0 (list_ascii_of_string (lid e))) (clamp_at v) 0%nat = 0) by reflexivity.
  set (nw := op_newton (fun _ => solve1) cube_devices clamp_check locked (mkTd false false 1) 20 shunt_t (clamp_at v)).
  assert (RUN : forall G z, G 0%nat 0%nat = 0 -> cube_leads v (z 0%nat) w -> exists y r it, y 0%nat = w /\
    dc_solve_sys PropsDc.default_opts nw (get_nodes_number shunt_t) (reduce_mat m) G
      (fun i => reduce_vec N i + time_term (get_nodes_number shunt_t) (fun e => at0 (list_ascii_of_string (lid e))) (clamp_at v) i) vzero 30 z = DRet (Some y) (Some r) true it [(RStd, true)]).
  { intros G z' G0 Z.
    destruct (cube_step locked 0 (sys_mat (get_nodes_number shunt_t) (reduce_mat m) G RStd)
      (sys_vec (fun i => reduce_vec N i + time_term (get_nodes_number shunt_t) (fun e => at0 (list_ascii_of_string (lid e))) (clamp_at v) i) vzero RStd) z' v w) as (y & r & it & E & Y);
      [unfold sys_mat; rewrite M0, G0; ring|unfold sys_vec; rewrite N0, TT; unfold vzero; ring|exact Z|].
    exists y, r, it. split; [exact Y|]. unfold dc_solve_sys. fold nw in E. apply (dc_solve_first _ PropsDc.default_opts (fun i r x => nw i (sys_mat _ _ _ r) (sys_vec _ _ r) x) 29 z' y r it eq_refl E). }
  destruct (RUN (build_gmin_matrix (get_nodes_number shunt_t) 0) z B0 LE) as (y & r & it & Y & E).
  destruct (RUN mzero y eq_refl) as (y' & r' & it' & Y' & E'); [split; [apply LE|left; exact Y]|].
  exists y'. unfold op_decide. rewrite E, E'. split; [reflexivity|exact Y'].
Qed.
Example C201_example : forall locked at0 guess,
  load (fun _ => Some clamp) (fun _ => Err NetlistParseError) 1 (lit "f") = Ok (clamp_parts, shunt_t, clamp_es) /\
  Forall (nl_sound clamp_parts) clamp_parts /\ has_device clamp_parts /\
  (forall x, devices (fun _ => false) cube cube_stamp (fun _ _ _ => 0) shunt_t clamp_parts x = Ok (cube_devices x)) /\
  (forall n, In n (node_list clamp_parts) -> slower (lit "I1") <> slower (lit "V" ++ n)) /\
  (forall id, In id (current_ids clamp_parts) -> slower (lit "I1") <> slower (lit "I(" ++ id ++ lit ")")) /\
  exists rows, dc_run (fun _ => solve1) cube_devices clamp_check locked PropsDc.default_opts (mkTd false false 1) 20 30 0 at0 guess false shunt_t clamp_es
      2 (-10) (-12) (lit "I1") (Some (fun _ => -1 / 2)) = (Ok (Some rows), clamp_es) /\
    dc_report shunt_t clamp_es (lit "I1") rows (lit "I1") = Ok [2; -10] /\ dc_report shunt_t clamp_es (lit "I1") rows (lit "VA") = Ok [1; -2].
Proof.
  intros locked at0 guess. destruct (C197_example locked at0) as (LD & SO & HD & _). split; [exact LD|]. split; [exact SO|]. split; [exact HD|].
  split; [intros x; apply cube_run|].
  split; [intros n H; cbn in H; repeat (destruct H as [<-|H]; [discriminate|]); destruct H|].
  split; [intros n H; cbn in H; repeat (destruct H as [<-|H]; [discriminate|]); destruct H|].
  set (at2 := fun v => at_swept at0 false (lit "I1") (clamp_at v)).
  destruct (cube_op locked (at2 2) 2 1 (fun _ => -1 / 2)) as (x1 & R1 & X1); [split; [lra|right; split; lra]|].
  destruct (cube_op locked (at2 (-10)) (-10) (-2) x1) as (x2 & R2 & X2); [rewrite X1; split; [lra|right; split; lra]|].
  exists [(2, x1); (-10, x2)]. split.
  - unfold dc_run. cbn [lit list_ascii_of_string slower map]. change (lower_ascii "I") with "i"%char. cbv iota. cbn [ascii_dec].
    destruct (ascii_dec "i" "v") as [E|_]; [discriminate E|]. destruct (ascii_dec "i" "i") as [_|E]; [|destruct E; reflexivity].
    unfold dc_analysis.
    replace (Rlt_b ((-10 - 2) * -12) 0) with false by (symmetry; apply Rlt_b_false; lra).
    destruct (Req_EM_T (-12) 0); [lra|].
    replace ((-10 - 2) / -12 + 1) with (INR 2) by (simpl; lra).
    destruct (C15_linear_axis 2 (-10) 2 ltac:(lia)) as (a & -> & C & _). cbv zeta in C.
    rewrite C.
    2:{ assert (U : (2 < up (INR 2))%Z).
        { apply lt_IZR. replace (IZR 2) with (INR 2) by (simpl; lra). apply archimed. }
        lia. }
    change (find_source clamp_es false _ 0) with (Some 1%nat). cbn [nth_error clamp_es dc_of seq map].
    replace (2 + INR 0 * (-10 - 2) / (INR 2 - 1)) with 2 by (simpl; field).
    replace (2 + INR 1 * (-10 - 2) / (INR 2 - 1)) with (-10) by (simpl; field).
    cbn [sweep_loop]. cbv zeta. unfold dc_point.
    change (set_dc clamp_es 1 2) with (clamp_at 2). change (set_dc (clamp_at 2) 1 (-10)) with (clamp_at (-10)).
    change (["I"%char; "1"%char]) with (lit "I1").
    change (at_swept at0 false (lit "I1") (clamp_at 2)) with (at2 2). change (at_swept at0 false (lit "I1") (clamp_at (-10))) with (at2 (-10)).
    rewrite R1. cbn [bindr]. rewrite R2. cbn [bindr]. reflexivity.
  - assert (NM : names_of shunt_t (seq 1 (get_nodes_number shunt_t - 1)) = @Ok (list str) [lit "a"]) by (vm_compute; reflexivity).
    unfold dc_report. rewrite NM. cbn [bindr]. change (op_size shunt_t clamp_es) with 1%nat. cbn [seq map filter clamp_es is_vde]. rewrite <- X1, <- X2. split; reflexivity.
Qed.
