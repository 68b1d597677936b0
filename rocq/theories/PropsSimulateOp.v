(** A netlist whose laws have one solution gets an operating point (C195). *)
From Coq Require Import Ascii String Reals List Bool Arith ZArith Lia Lra Psatz.
From Verif Require Import Base BaseFacts Str Units Directive Lines Reader Netlist ModelLines Nodes NodesFacts Circuit Rsum Mna MnaSpec MnaFacts DcSolve DcSolveFacts Newton
  NewtonFacts DynFacts Sweep SweepFacts Csv Results PropsReader PropsNetlist PropsResults PropsDc PropsSweep PropsMna Session Simulate PropsSimulate
  PropsSimulateAc SimulateDc PropsSimulateDc.
Import ListNotations.
Open Scope R_scope.

(** Resistors that dissipate, capacitors, inductors, coupled or not, independent sources. *)
Definition passive (e : pelem) : Prop :=
  match e with
  | PR _ _ _ r => 0 < dR r
  | PC _ _ _ _ _ | PL _ _ _ _ _ | PK _ _ _ _ _ _ | PV _ _ _ _ _ _ | PI _ _ _ _ _ _ => True
  | _ => False
  end.

(** ** Conductances to ground do not make a regular matrix singular *)

Definition calm (e : lelem) : Prop :=
  match e with ER _ _ _ r => 0 < r | EC _ _ _ _ | EL _ _ _ _ | EK _ _ _ _ _ | EV _ _ _ _ _ | EI _ _ _ _ _ => True | _ => False end.

(** Voltages [X] times currents at [Y]. *)
Fixpoint power (nv : nat) (all es : list lelem) (k : nat) (X Y : vec) : R :=
  match es with
  | [] => 0
  | e :: es' => (X (term1 e) - X (term2 e)) * dc_current nv all Y k e + power nv all es' (if is_vde e then S k else k) X Y
  end.
Lemma power_sum : forall nv all es k X Y, wf_circ nv es ->
  power nv all es k X Y = rsum nv (fun n => X n * kcl nv all es k n Y).
Proof.
  intros nv all es. induction es as [|e es IH]; intros k X Y W; cbn [power kcl].
  - symmetry. apply rsum_0. intros. ring.
  - inversion W as [|? ? We Wes]; subst. destruct We as (W1 & W2 & _).
    rewrite IH by auto. set (i := dc_current nv all Y k e). symmetry.
    rewrite (rsum_ext nv _ (fun n => ((if (n =? term1 e)%nat then X n * i else 0) - (if (n =? term2 e)%nat then X n * i else 0))
               + X n * kcl nv all es (if is_vde e then S k else k) n Y)).
    + rewrite rsum_plus, rsum_minus, (rsum_single nv (term1 e) (fun n => X n * i)), (rsum_single nv (term2 e) (fun n => X n * i)) by auto. ring.
    + intros n _. cbv zeta. fold i. rewrite (Nat.eqb_sym n (term1 e)), (Nat.eqb_sym n (term2 e)).
      destruct (term1 e =? n)%nat, (term2 e =? n)%nat; ring.
Qed.
Lemma power_grows : forall nv all es k X, Forall calm es -> (forall e, In e es -> is_vde e = true -> X (term1 e) - X (term2 e) = 0) ->
  power nv all es k X vzero <= power nv all es k X X.
Proof.
  intros nv all es. induction es as [|e es IH]; intros k X C B; cbn [power]; [lra|].
  inversion C as [|? ? Ce Ces]; subst. specialize (IH (if is_vde e then S k else k) X Ces (fun e' H => B e' (or_intror H))).
  assert (Q : (X (term1 e) - X (term2 e)) * dc_current nv all vzero k e <= (X (term1 e) - X (term2 e)) * dc_current nv all X k e); [|lra].
  pose proof (B e (or_introl eq_refl)) as Be. destruct e; cbn [calm] in Ce; try (destruct Ce; fail); cbn [dc_current is_vde] in *; try lra.
  - cbn [term1 term2]. unfold vzero. set (d := X n1 - X n2).
    replace (d * ((0 - 0) / r)) with 0 by (field; lra). replace (d * (d / r)) with (d * d * / r) by (field; lra).
    apply Rmult_le_pos; [nra|left; apply Rinv_0_lt_compat; exact Ce].
  - rewrite (Be eq_refl). lra.
  - rewrite (Be eq_refl). lra.
Qed.
Lemma rsum_le_each : forall n f, (forall i, (i < n)%nat -> 0 <= f i) -> rsum n f <= 0 -> forall i, (i < n)%nat -> f i = 0.
Proof.
  intros n f. induction n as [|n IH]; intros P S i Hi; [lia|]. cbn [rsum] in S.
  assert (A : 0 <= rsum n f) by (apply rsum_nonneg; intros j Hj; apply P; lia). pose proof (P n (Nat.lt_succ_diag_r n)) as B.
  destruct (Nat.eq_dec i n) as [->|D]; [lra|]. apply IH; [intros j Hj; apply P; lia|lra|lia].
Qed.

Lemma gmin_regular : forall nv es m N g, wf_circ nv es -> Forall calm es -> (0 < nv)%nat -> generate_mna_and_N nv es = Ok (m, N) -> 0 <= g ->
  let size := (nv + n_vde es - 1)%nat in
  (forall z, (forall i, (i < size)%nat -> row size (reduce_mat m) i z = 0) -> forall i, (i < size)%nat -> z i = 0) ->
  forall z, (forall i, (i < size)%nat -> row size (fun i j => reduce_mat m i j + build_gmin_matrix nv g i j) i z = 0) ->
  forall i, (i < size)%nat -> z i = 0.
Proof.
  intros nv es m N g W C NZ GE G0 size REG z Z. set (X := with_ground z).
  assert (SZ : size = (nv - 1 + n_vde es)%nat) by (unfold size; lia).
  assert (Z1 : forall i, (i < size)%nat -> row size (reduce_mat m) i z = - (if (i <? nv - 1)%nat then g * z i else 0)).
  { intros i Hi. specialize (Z i Hi). pose proof (C64_gmin_adds_node_conductances nv (n_vde es) g (reduce_mat m) z i NZ) as Q.
    cbv zeta in Q. rewrite <- SZ in Q. rewrite (Q Hi) in Z. lra. }
  assert (FULL : forall i, row (nv + n_vde es) m (S i) X = row size (reduce_mat m) i z).
  { intros i. replace (nv + n_vde es)%nat with (S size) by lia. unfold row. rewrite rsum_shift. unfold X at 1. cbn [with_ground].
    rewrite Rmult_0_r, Rplus_0_l. apply rsum_ext. intros j _. reflexivity. }
  assert (AT0 : forall i, row (nv + n_vde es) m i vzero = 0) by (intros i; unfold row; apply rsum_0; intros j _; unfold vzero; ring).
  assert (NODE : forall n, (n < nv)%nat -> row (nv + n_vde es) m n X = kcl nv es es 0 n X - kcl nv es es 0 n vzero).
  { intros n Hn. rewrite <- (node_row_is_kcl nv es m N X n W GE Hn), <- (node_row_is_kcl nv es m N vzero n W GE Hn), AT0. lra. }
  assert (OWN : forall e, In e es -> is_vde e = true -> X (term1 e) - X (term2 e) = 0).
  { intros e H V. apply in_split in H. destruct H as (pre & post & ->).
    assert (Ce : calm e) by (rewrite Forall_forall in C; apply C; apply in_or_app; right; left; reflexivity).
    assert (SA : sense_apart e) by (destruct e; exact I || (destruct Ce; fail)).
    assert (NH : forall id n1 n2 src a, e <> EH id n1 n2 src a) by (intros; intros ->; exact Ce).
    destruct (own_row nv pre e post m N X W GE V) as (O1 & _). destruct (own_row nv pre e post m N vzero W GE V) as (O2 & _).
    specialize (O1 eq_refl SA NH). specialize (O2 eq_refl SA NH). rewrite AT0 in O2.
    assert (K : (nv + n_vde pre < nv + n_vde (pre ++ e :: post))%nat).
    { rewrite n_vde_app, n_vde_cons, V. lia. }
    assert (RZ : row (nv + n_vde (pre ++ e :: post)) m (nv + n_vde pre) X = 0).
    { replace (nv + n_vde pre)%nat with (S (nv + n_vde pre - 1)) by lia. rewrite FULL, Z1 by (unfold size; lia).
      destruct (Nat.ltb_spec (nv + n_vde pre - 1) (nv - 1)); [lia|lra]. }
    destruct e; cbn [calm is_vde] in *; try discriminate; try (destruct Ce; fail); cbn [branch_law term1 term2] in *; unfold vzero in O2; lra. }
  destruct (Req_dec g 0) as [->|GN].
  - apply REG. intros i Hi. rewrite (Z1 i Hi). destruct (i <? nv - 1)%nat; lra.
  - assert (GP : 0 < g) by lra.
    assert (SUM : rsum nv (fun n => g * (X n * X n)) <= 0).
    { assert (E : rsum nv (fun n => X n * kcl nv es es 0 n X) - rsum nv (fun n => X n * kcl nv es es 0 n vzero) = - rsum nv (fun n => g * (X n * X n))).
      { rewrite <- rsum_minus, <- rsum_opp. apply rsum_ext. intros n Hn. rewrite <- Rmult_minus_distr_l, <- (NODE n Hn).
        destruct n as [|n]; [unfold X; cbn [with_ground]; ring|]. rewrite FULL, Z1 by (unfold size; lia).
        destruct (Nat.ltb_spec n (nv - 1)); [|lia]. unfold X. cbn [with_ground]. ring. }
      rewrite <- !(power_sum nv es es 0 X) in E by exact W. pose proof (power_grows nv es es 0 X C OWN). lra. }
    assert (VZ : forall n, (n < nv)%nat -> X n = 0).
    { intros n Hn. pose proof (rsum_le_each nv (fun n => g * (X n * X n)) (fun i _ => Rmult_le_pos _ _ G0 (Rle_0_sqr (X i))) SUM n Hn) as Q. cbv beta in Q.
      apply Rmult_integral in Q. destruct Q as [Q|Q]; [lra|]. apply Rmult_integral in Q. tauto. }
    apply REG. intros i Hi. rewrite (Z1 i Hi). destruct (Nat.ltb_spec i (nv - 1)) as [L|L]; [|lra].
    pose proof (VZ (S i)) as Q. unfold X in Q. cbn [with_ground] in Q. rewrite Q by lia. lra.
Qed.

(** ** The solver finds the solution *)
Lemma regular_solve : forall o nv mna Gmin Ndc solve JT td check maxit size fuel x1,
  (forall A b y, solve A b = Some y -> forall i, (i < size)%nat -> row size A i y = b i) ->
  (forall A b, solve A b = None -> exists z, (forall i, (i < size)%nat -> row size A i z = 0) /\ exists i, (i < size)%nat /\ z i <> 0) ->
  (forall z, (forall i, (i < size)%nat -> row size (fun i j => mna i j + Gmin i j) i z = 0) -> forall i, (i < size)%nat -> z i = 0) ->
  (forall dx n, td dx n = 1) -> (0 < maxit)%nat -> o_std o = true ->
  exists x2 err, dc_solve_sys o (fun _ A b x => mdn_solver size solve false JT td check maxit A b (Some (size, x)))
      nv mna Gmin Ndc vzero (S fuel) x1 = DRet (Some x2) err true 1 [(RStd, true)].
Proof.
  intros o nv mna Gmin Ndc solve JT td check maxit size fuel x1 SS SC REG TD MX OS.
  pose proof (newton_linear size solve JT td check maxit (sys_mat nv mna Gmin RStd) (sys_vec Ndc vzero RStd) x1 TD SS MX) as Q.
  destruct (mdn_solver size solve false JT td check maxit _ _ (Some (size, x1))) as [x2 r c n| |e] eqn:NW.
  - destruct Q as (-> & -> & _). exists x2, (Some r). unfold dc_solve_sys. apply dc_solve_first; [exact OS|]. exact NW.
  - destruct Q as [b Q]. destruct (SC _ _ Q) as (z & Z1 & i & Hi & Z2). exfalso. apply Z2.
    apply REG; auto. intros k Hk. rewrite <- (Z1 k Hk). unfold row. apply rsum_ext. intros j _. unfold sys_mat. lra.
  - destruct Q.
Qed.

Lemma placed_calm : forall val t parts es, Forall2 (placed val t) parts es -> Forall passive parts -> Forall calm es.
Proof.
  intros val t parts es F. induction F as [|e l parts es P F IH]; intros H; constructor; [|apply IH; exact (Forall_inv_tail H)].
  apply Forall_inv in H. destruct e; cbn [placed passive] in *; try (destruct H; fail).
  4: { destruct P as (m & -> & _). exact I. }
  all: destruct P as (i & j & -> & _); cbn [calm]; auto.
Qed.

(** An operating point is found. *)
Lemma op_found : forall at0 val t parts es, grounded t -> Forall2 (placed val t) parts es -> Forall (proper parts) parts -> NoDup (map pid parts) ->
  (forall n i, at_node t n i -> In n (node_list parts)) -> well_posed (driven at0 val) parts -> Forall passive parts ->
  forall solve JT check locked o tdo maxit fuel' gmin x0,
  let n := op_size t es in
  (forall A b y, solve n A b = Some y -> forall i, (i < n)%nat -> row n A i y = b i) ->
  (forall A b, solve n A b = None -> exists z, (forall i, (i < n)%nat -> row n A i z = 0) /\ exists i, (i < n)%nat /\ z i <> 0) ->
  d_first tdo = false -> (0 < maxit)%nat -> o_std o = true -> 0 <= gmin ->
  exists x, op_run solve JT check locked o tdo maxit (S fuel') gmin at0 t es x0 = Ok (Some (x, true)).
Proof.
  intros at0 val t parts es G PL SO ND MEN WP PS solve JT check locked o tdo maxit fuel' gmin x0 n_ SS SC DF MX OS GM. unfold n_ in *. clear n_.
  destruct (proper_wf val t parts es G PL SO) as (W & SA & NH & NL).
  pose proof (grounded_number t G) as NZ. pose proof (placed_calm val t parts es PL PS) as CM.
  pose proof (system_core at0 val t parts es G PL SO ND MEN WP) as SYS. set (nv := get_nodes_number t) in *.
  destruct (C04_assembly_succeeds nv es) as (m & N & GE).
  { intros pre e post E. assert (Ce : calm e) by (rewrite Forall_forall in CM; apply CM; rewrite E; apply in_or_app; right; left; reflexivity).
    destruct e; try exact I; destruct Ce. }
  destruct (SYS m N GE) as (REG & _). clear SYS.
  pose proof (gmin_regular nv es m N gmin W CM NZ GE GM REG) as REG1.
  assert (TD : forall dx it, get_td tdo (op_size t es) dx [] (Some it) = 1).
  { intros dx it. unfold get_td, td_first. rewrite DF. destruct (d_lock tdo); reflexivity. }
  unfold op_run, op_analysis. fold nv. rewrite GE. cbn [bindr fst snd]. unfold op_newton, ports. rewrite NL.
  set (Nd := fun i : nat => reduce_vec N i + _).
  destruct (regular_solve o nv (reduce_mat m) (build_gmin_matrix nv gmin) Nd (solve (op_size t es)) JT (fun dx it => get_td tdo (op_size t es) dx [] (Some it)) check maxit
    (op_size t es) fuel' x0 SS SC REG1 TD MX OS) as (x1 & e1 & S1).
  destruct (regular_solve o nv (reduce_mat m) mzero Nd (solve (op_size t es)) JT (fun dx it => get_td tdo (op_size t es) dx [] (Some it)) check maxit
    (op_size t es) fuel' x1 SS SC) as (x2 & e2 & S2); [|exact TD|exact MX|exact OS|].
  { intros z Z. apply REG. intros i Hi. rewrite <- (Z i Hi). unfold row. apply rsum_ext. intros j _. unfold mzero. ring. }
  exists x2. eapply op_decide_both; [exact S1|exact S2].
Qed.

(** * C195 *)
Theorem C195_found : forall fs other fuel filename parts t es, load fs other fuel filename = Ok (parts, t, es) ->
  (forall line l, other line = Ok l -> Forall lower_case l) ->
  forall at0, Forall (sound parts) parts -> Forall passive parts -> well_posed (dc_source at0) parts ->
  forall solve JT check locked o tdo maxit fuel' gmin x0,
  let n := op_size t es in
  (* the linear solver solves, and refuses singular matrices only *)
  (forall A b y, solve n A b = Some y -> forall i, (i < n)%nat -> row n A i y = b i) ->
  (forall A b, solve n A b = None -> exists z, (forall i, (i < n)%nat -> row n A i z = 0) /\ exists i, (i < n)%nat /\ z i <> 0) ->
  d_first tdo = false -> (0 < maxit)%nat -> o_std o = true -> 0 <= gmin ->
  exists x, op_run solve JT check locked o tdo maxit (S fuel') gmin at0 t es x0 = Ok (Some (x, true)) /\
  forall V I, laws (dc_source at0) V I parts ->
    (forall n name, In n (node_list parts) -> n <> lit "0" -> slower name = slower (lit "V" ++ n) -> op_report t es x name = Ok (V n)) /\
    (forall id name, In id (current_ids parts) -> slower name = slower (lit "I(" ++ id ++ lit ")") -> op_report t es x name = Ok (I id)).
Proof.
  intros fs other fuel filename parts t es LD OT at0 SO_ PS WP solve JT check locked o tdo maxit fuel' gmin x0 n_ SS SC DF MX OS GM. unfold n_ in *. clear n_.
  assert (SO : Forall (proper parts) parts).
  { pose proof (load_lower _ _ _ _ _ _ _ OT LD) as LC. apply Forall_forall. rewrite Forall_forall in SO_, LC. intros e H. split; auto. }
  destruct (load_facts _ _ _ _ _ _ _ LD) as (G & NV & PL & ND & MEN).
  destruct (op_found at0 written_dc t parts es G PL SO ND MEN WP PS solve JT check locked o tdo maxit fuel' gmin x0 SS SC DF MX OS GM) as (x & RUN).
  exists x. split; [exact RUN|].
  exact (proj2 (C192_operating_point fs other fuel filename parts t es LD OT at0 SO_ WP solve JT check locked o tdo maxit fuel' gmin x0 x true SS SC DF MX OS RUN)).
Qed.
Print Assumptions C195_found.

(** ** The same for a sweep *)
Lemma find_source_total : forall es isv name k j l, nth_error es j = Some l -> lower (lid l) = lower name ->
  match l with EV _ _ _ _ _ => isv = true | EI _ _ _ _ _ => isv = false | _ => False end ->
  exists r, find_source es isv name k = Some r.
Proof.
  induction es as [|e es IH]; intros isv name k j l N L K; [destruct j; discriminate|]. cbn [find_source].
  match goal with |- context [if ?b then _ else _] => destruct b eqn:E end; [eauto|]. destruct j as [|j]; cbn [nth_error] in N; [|eapply IH; eassumption].
  exfalso. injection N as ->. rewrite L, String.eqb_refl in E. destruct l; try (destruct K; fail); subst isv; discriminate E.
Qed.
Lemma sweep_succeeds : forall (X : Type) (op : list lelem -> option X -> res (option X)) skip es0 k vals,
  (forall v x, In v vals -> exists y, op (set_dc es0 k v) x = Ok (Some y)) ->
  forall es x s rows, (forall v, set_dc es k v = set_dc es0 k v) -> (vals = [] -> s = Some true) ->
  exists rows' es', sweep_loop op skip vals k es x s rows = (Ok (Some true, rows'), es') /\ map fst rows' = (map fst rows ++ vals)%list.
Proof.
  intros X op skip es0 k vals. induction vals as [|v vals IH]; intros H es x s rows ES S; cbn [sweep_loop]; cbv zeta.
  - rewrite (S eq_refl). do 2 eexists. split; [reflexivity|]. symmetry. apply app_nil_r.
  - rewrite ES. destruct (H v x (or_introl eq_refl)) as (y & ->).
    destruct (IH (fun w q I => H w q (or_intror I)) (set_dc es0 k v) (Some y) (Some true) (rows ++ [(v, y)])%list) as (rows' & es' & E & M).
    + intros w. apply set_dc_twice.
    + reflexivity.
    + exists rows', es'. split; [exact E|]. rewrite M, map_app, <- app_assoc. reflexivity.
Qed.
Lemma nodup_pid : forall parts a b, NoDup (map pid parts) -> In a parts -> In b parts -> pid a = pid b -> a = b.
Proof.
  induction parts as [|e parts IH]; intros a b ND A B E; [destruct A|]. cbn [map] in ND. inversion ND as [|? ? NI ND']; subst.
  destruct A as [->|A], B as [->|B]; auto.
  - exfalso. apply NI. rewrite E. apply in_map. exact B.
  - exfalso. apply NI. rewrite <- E. apply in_map. exact A.
Qed.

(** A sweep of a source of such a netlist gives a row for each of its values. *)
Theorem C195_sweep : forall fs other fuel filename parts t es, load fs other fuel filename = Ok (parts, t, es) ->
  (forall line l, other line = Ok l -> Forall lower_case l) ->
  Forall (sound parts) parts -> Forall passive parts ->
  forall at0 solve JT check locked o tdo maxit fuel' gmin guess skip start stop step source x0 e a vals,
  let n := op_size t es in
  (forall A b y, solve n A b = Some y -> forall i, (i < n)%nat -> row n A i y = b i) ->
  (forall A b, solve n A b = None -> exists z, (forall i, (i < n)%nat -> row n A i z = 0) /\ exists i, (i < n)%nat /\ z i <> 0) ->
  d_first tdo = false -> (0 < maxit)%nat -> o_std o = true -> 0 <= gmin ->
  In e parts -> names_source source e -> 0 <= (stop - start) * step -> step <> 0 ->
  lin_axis start stop ((stop - start) / step + 1) = Ok a ->
  collect lin_next (S (S (Z.to_nat (up ((stop - start) / step + 1))))) a = Some vals ->
  (forall v, In v vals -> well_posed (swept at0 (pid e) v) parts) ->
  exists rows, dc_run solve JT check locked o tdo maxit (S fuel') gmin at0 guess skip t es start stop step source x0 = (Ok (Some rows), es) /\ map fst rows = vals.
Proof.
  intros fs other fuel filename parts t es LD OT SO_ PS at0 solve JT check locked o tdo maxit fuel' gmin guess skip start stop step source x0 e a vals n_ SS SC DF MX OS GM
    IE (SP & KE) DIR NZS LA CO WP. unfold n_ in *. clear n_.
  assert (SO : Forall (proper parts) parts).
  { pose proof (load_lower _ _ _ _ _ _ _ OT LD) as LC. apply Forall_forall. rewrite Forall_forall in SO_, LC. intros q H. split; auto. }
  destruct (load_facts _ _ _ _ _ _ _ LD) as (G & NV & PL & ND & MEN).
  assert (PE : slower (pid e) = pid e) by (rewrite Forall_forall in SO; apply (SO e IE)).
  set (isv := match e with PV _ _ _ _ _ _ => true | _ => false end).
  (* the source is found *)
  assert (FS : exists k l d, find_source es isv (ss source) 0 = Some k /\ nth_error es k = Some l /\ nth_error parts k = Some e /\ dc_of l = Some d /\ lid l = ss (pid e)).
  { assert (EX : exists j l, nth_error es j = Some l /\ placed written_dc t e l).
    { clear - PL IE. induction PL as [|e0 l0 p0 e1 P F IH]; [destruct IE|]. destruct IE as [->|IE]; [exists 0%nat, l0; auto|].
      destruct (IH IE) as (j & l & A & B). exists (S j), l. auto. }
    destruct EX as (j & l & NJ & P).
    destruct (find_source_total es isv (ss source) 0 j l NJ) as (k & FS).
    { assert (LL : lid l = ss (pid e)) by (apply (placed_lid written_dc t e l P)). rewrite LL, !slower_lower, PE, SP. reflexivity. }
    { unfold isv. destruct e; try (destruct KE; fail); cbn [placed] in P; destruct P as (? & ? & -> & _); reflexivity. }
    destruct (find_source_kind _ _ _ _ _ FS) as (l' & NL & _ & LOW & KIND). rewrite Nat.sub_0_r in NL.
    destruct (placed_nth _ _ _ _ PL k l' NL) as (e' & NE & P').
    assert (LID : lid l' = ss (pid e')) by (apply (placed_lid written_dc t e' l' P')).
    assert (IE' : In e' parts) by (eapply nth_error_In; exact NE).
    assert (PE' : slower (pid e') = pid e') by (rewrite Forall_forall in SO; apply (SO e' IE')).
    assert (EQ : e' = e).
    { apply (nodup_pid parts); auto. rewrite <- SP. apply ss_inj. rewrite <- (slower_lower source), <- LOW, LID, slower_lower, PE'. reflexivity. }
    subst e'. assert (DC : exists d, dc_of l' = Some d) by (destruct l'; try destruct KIND; eexists; reflexivity). destruct DC as (d & DC).
    exists k, l', d. auto. }
  destruct FS as (k & l & d & FS & NL & NE & DC & LID).
  assert (VN : vals <> []) by (cbn [collect] in CO; unfold lin_next, axis_next in CO; intros ->;
    assert (ZI : ax_index a = 0%nat) by (unfold lin_axis in LA; repeat match type of LA with (if ?b then _ else _) = _ => destruct b end; try discriminate LA; injection LA as <-; reflexivity);
    rewrite ZI in CO; cbn [Nat.eqb] in CO; match type of CO with match ?x with _ => _ end = _ => destruct x; discriminate CO end).
  assert (ALL : forall v x, In v vals -> exists y, dc_point solve JT check locked o tdo maxit (S fuel') gmin at0 guess isv source t (set_dc es k v) x = Ok (Some y)).
  { intros v x IV. unfold dc_point. set (at' := at_swept at0 isv source (set_dc es k v)).
    assert (ATE : forall id, at' id = if streqb id (pid e) then v else at0 id).
    { intros id. unfold at', at_swept. rewrite find_source_set, FS. destruct (nth_set_dc es k v l d NL DC) as (l' & N' & I' & D'). rewrite N', I', LID, D'.
      destruct (String.eqb_spec (ss (pid e)) (ss id)) as [E|E].
      - apply ss_inj in E. subst id. rewrite streqb_refl. reflexivity.
      - rewrite streqb_ne; [reflexivity|]. intros ->. apply E. reflexivity. }
    assert (SRCE : forall q, swept at0 (pid e) v q = driven at' (with_value (pid e) v) q).
    { intros q. unfold swept, dc_source, with_value. destruct q; cbn [driven pid]; try reflexivity; destruct f; try reflexivity; rewrite ATE; reflexivity. }
    assert (PL' : Forall2 (placed (with_value (pid e) v) t) parts (set_dc es k v)) by (eapply set_dc_placed; eassumption).
    assert (SZ2 : op_size t (set_dc es k v) = op_size t es) by (unfold op_size; rewrite n_vde_set_dc; reflexivity).
    pose proof (fun A B => op_found at' (with_value (pid e) v) t parts (set_dc es k v) G PL' SO ND MEN (well_posed_ext _ _ _ SRCE (WP v IV)) PS
      solve JT check locked o tdo maxit fuel' gmin (match x with Some v => v | None => guess (set_dc es k v) end) A B DF MX OS GM) as CORE. cbv zeta in CORE. rewrite SZ2 in CORE.
    destruct (CORE SS SC) as (y & E). rewrite E. exists y. reflexivity. }
  destruct (sweep_succeeds _ _ skip es k vals ALL es x0 None [] (fun v => eq_refl) (fun E => match VN E with end)) as (rows & es' & SL & RW).
  assert (RUN : dc_analysis (dc_point solve JT check locked o tdo maxit (S fuel') gmin at0 guess isv source t) skip es start stop step isv (ss source) x0 =
    (Ok (Some rows), set_dc es' k (match nth_error es k with Some e => match dc_of e with Some v => v | None => 0 end | None => 0 end))).
  { unfold dc_analysis. unfold Rlt_b at 1. destruct (Rlt_dec ((stop - start) * step) 0); [lra|]. destruct (Req_EM_T step 0); [contradiction|].
    rewrite LA, FS, CO, SL. reflexivity. }
  pose proof (C13_source_restored _ _ _ _ _ _ _ _ _ _ _ _ RUN) as RES. rewrite RES in RUN.
  exists rows. split; [|exact RW]. unfold dc_run.
  destruct e; try (destruct KE; fail); destruct KE as (r & ->); cbn [ascii_dec]; exact RUN.
Qed.
Print Assumptions C195_sweep.

(** The divider of C192. *)
Example C195_divider : Forall passive divider_parts.
Proof. repeat constructor; cbn [passive]; rewrite ?dR_1k, ?dR_3k; lra. Qed.

(** Negative resistors are accepted.  Here one is what the conductances of the first step
    of the gmin stepping cancel, the other what [gmin] cancels: no matrix that is tried is
    regular, though the matrix of the circuit is. *)
Definition contrary : list str := [lit "two loads"; lit "I1 a 0 type=idc idc=1"; lit "R1 a 0 -10"; lit "I2 b 0 type=idc idc=1"; lit "R2 b 0 -1T"].
Definition contrary_parts : list pelem :=
  [PI (lit "i1") (lit "a") (lit "0") (Some (1, 0)%Z) None None; PR (lit "r1") (lit "a") (lit "0") (-10, 0)%Z;
   PI (lit "i2") (lit "b") (lit "0") (Some (1, 0)%Z) None None; PR (lit "r2") (lit "b") (lit "0") (-1, 12)%Z].
Lemma dR_m1T : dR (-1, 12)%Z = -1000000000000.
Proof. unfold dR. cbn [fst snd]. change (powerRZ 10 12) with (10 ^ 12). lra. Qed.
Lemma contrary_posed : forall at0, well_posed (dc_source at0) contrary_parts.
Proof.
  intros at0. exists (fun n => if streqb n (lit "a") then 10 else if streqb n (lit "b") then 1000000000000 else 0), (fun _ => 0). split.
  - split; [reflexivity|]. split; [|repeat constructor].
    intros n. unfold contrary_parts. cbn [leaving]. unfold leaving1. cbn [first_end second_end through dc_source driven written_dc]. at_names. rewrite ?dR_m1T, ?dR_0.
    destruct (streqb n (lit "a")), (streqb n (lit "b")), (streqb n (lit "0")); cbv iota; lra.
  - intros V I (A & B & _). pose proof (B (lit "a")) as K1. pose proof (B (lit "b")) as K2. unfold contrary_parts in K1, K2. cbn [leaving] in K1, K2. unfold leaving1 in K1, K2.
    cbn [first_end second_end through dc_source driven written_dc] in K1, K2. at_names_in K1. at_names_in K2.
    rewrite ?dR_m1T, ?dR_0, A in K1. rewrite ?dR_m1T, ?dR_0, A in K2. cbv iota in K1, K2.
    assert (VA : V (lit "a") = 10) by lra. assert (VB : V (lit "b") = 1000000000000) by lra.
    split; [intros n H|intros id H]; cbn in H; [|destruct H].
    repeat (destruct H as [<-|H]; [at_names; cbv iota; first [exact A | exact VA | exact VB]|]). destruct H.
Qed.

Lemma step_caught : forall o (f : nat -> DcSolve.req -> vec -> nout vec) fuel m stale x tot log r,
  current_req o m stale = Ok r -> f (List.length log) r x = NCaught ->
  dc_loop o f (S fuel) m stale x tot log =
  if more_solve_methods_available o m then dc_loop o f fuel (set_next_solve_method o m) (Some r) x tot (log ++ [(r, false)]) else DRet None None false tot (log ++ [(r, false)]).
Proof. intros o f fuel m stale x tot log r E F. cbn [dc_loop]. rewrite E, F. reflexivity. Qed.
Lemma no_method : forall (f : nat -> DcSolve.req -> vec -> nout vec) x,
  (forall i y, f i RStd y = NCaught) -> (forall i y, f i (RGmin 0) y = NCaught) -> (forall i y, f i (RSrc 0) y = NCaught) ->
  exists c, dc_solve PropsDc.default_opts f 30 x = DRet None None false 0 c.
Proof.
  intros f x A B C. unfold dc_solve. eexists.
  do 4 (erewrite step_caught; [|vm_compute; reflexivity|auto];
    match goal with |- context [more_solve_methods_available ?a ?b] => let r := eval vm_compute in (more_solve_methods_available a b) in change (more_solve_methods_available a b) with r end; cbv iota).
  reflexivity.
Qed.

Theorem C195_found_refuted : exists file parts t es,
  load (fun _ => Some file) (fun _ => Err NetlistParseError) 1 (lit "f") = Ok (parts, t, es) /\
  Forall (sound parts) parts /\ (forall at0, well_posed (dc_source at0) parts) /\
  (* whatever the linear solver, and the starting point *)
  forall solve JT check locked tdo maxit at0 x0,
  let n := op_size t es in
  (forall A b y, solve n A b = Some y -> forall i, (i < n)%nat -> row n A i y = b i) ->
  d_first tdo = false -> (0 < maxit)%nat ->
  op_run solve JT check locked PropsDc.default_opts tdo maxit 30 (/ 10 ^ 12) at0 t es x0 = Ok None.
Proof.
  exists contrary, contrary_parts.
  assert (LD : exists t, load (fun _ => Some contrary) (fun _ => Err NetlistParseError) 1 (lit "f") = Ok (contrary_parts, t,
     [EI "i1" 1 0 (dR (1, 0)%Z) false; ER "r1" 1 0 (dR (-10, 0)%Z); EI "i2" 2 0 (dR (1, 0)%Z) false; ER "r2" 2 0 (dR (-1, 12)%Z)]) /\ get_nodes_number t = 3%nat).
  { eexists. split.
    - unfold load.
      match goal with |- context [read_netlist ?a ?b ?c] => let r := eval vm_compute in (read_netlist a b c) in change (read_netlist a b c) with r end. cbn [bindr r_models r_lines map parse_models fst snd].
      match goal with |- context [main_netlist_parser ?a ?b ?c ?d] => let r := eval vm_compute in (main_netlist_parser a b c d) in change (main_netlist_parser a b c d) with r end. cbn [bindr].
      cbv -[dR]. reflexivity.
    - reflexivity. }
  destruct LD as (t & LD & NV). exists t. eexists. split; [exact LD|].
  split; [repeat constructor|]. split; [exact contrary_posed|].
  intros solve JT check locked tdo maxit at0 x0 n_ SS DF MX. unfold n_ in *. clear n_.
  rewrite !dR_0, dR_m1T in *. set (es := [EI _ _ _ _ _; _; _; _]) in *.
  assert (SZ : op_size t es = 2%nat) by (unfold op_size; rewrite NV; reflexivity). rewrite SZ in *.
  unfold op_run, op_analysis. rewrite NV.
  assert (GE : exists m N, generate_mna_and_N 3 es = Ok (m, N) /\ reduce_mat m 0%nat 0%nat = - / 10 /\ reduce_mat m 0%nat 1%nat = 0 /\
     reduce_mat m 1%nat 0%nat = 0 /\ reduce_mat m 1%nat 1%nat = - / 1000000000000 /\ reduce_vec N 0%nat = 1 /\ reduce_vec N 1%nat = 1).
  { do 2 eexists. split; [reflexivity|]. unfold reduce_mat, reduce_vec. cbn -[pow]. unfold madd, mset, vadd, vset, mzero, vzero. cbn -[pow]. repeat split; lra. }
  destruct GE as (m & N & -> & M00 & M01 & M10 & M11 & N0 & N1). cbn [bindr fst snd].
  assert (GV : forall g, build_gmin_matrix 3 g 0%nat 0%nat = g /\ build_gmin_matrix 3 g 0%nat 1%nat = 0 /\ build_gmin_matrix 3 g 1%nat 0%nat = 0 /\ build_gmin_matrix 3 g 1%nat 1%nat = g)
    by (intros g; unfold build_gmin_matrix, mset, mzero; cbn; repeat split).
  assert (G00 : forall g, build_gmin_matrix 3 g 0%nat 0%nat = g) by apply GV. assert (G01 : forall g, build_gmin_matrix 3 g 0%nat 1%nat = 0) by apply GV.
  assert (G10 : forall g, build_gmin_matrix 3 g 1%nat 0%nat = 0) by apply GV. assert (G11 : forall g, build_gmin_matrix 3 g 1%nat 1%nat = g) by apply GV. clear GV.
  assert (NT : forall i, time_term 3 (fun e => at0 (list_ascii_of_string (lid e))) es i = 0) by (intros i; unfold time_term; cbn; unfold vzero; reflexivity).
  assert (F : forall i r y, In r [RStd; RGmin 0; RSrc 0] ->
    op_newton solve JT check locked tdo maxit t es i (sys_mat 3 (reduce_mat m) (build_gmin_matrix 3 (/ 10 ^ 12)) r)
      (sys_vec (fun i => reduce_vec N i + time_term 3 (fun e => at0 (list_ascii_of_string (lid e))) es i) vzero r) y = NCaught).
  { intros i r y H. unfold op_newton. rewrite SZ. change (nonlinear es) with false. unfold ports. change (nonlinear es) with false. cbv iota.
    pose proof (newton_linear 2 (solve 2%nat) JT (fun dx it => get_td tdo 2 dx [] (Some it)) check maxit
      (sys_mat 3 (reduce_mat m) (build_gmin_matrix 3 (/ 10 ^ 12)) r)
      (sys_vec (fun i => reduce_vec N i + time_term 3 (fun e => at0 (list_ascii_of_string (lid e))) es i) vzero r) y) as Q.
    destruct (mdn_solver 2 _ _ _ _ _ _ _ _ _) as [x2 q c n| |e].
    - exfalso. destruct Q as (_ & _ & Q & _); [|exact SS|exact MX|].
      { intros dx it. unfold get_td, td_first. rewrite DF. destruct (d_lock tdo); reflexivity. }
      pose proof (Q 0%nat ltac:(lia)) as Q0. pose proof (Q 1%nat ltac:(lia)) as Q1. unfold row in Q0, Q1. cbn [rsum] in Q0, Q1. clear Q.
      destruct H as [<-|[<-|[<-|[]]]]; unfold sys_mat, sys_vec, vzero, gmin_step, source_factor in Q0, Q1; cbn [nth] in Q0, Q1;
        rewrite ?G00, ?G01, ?G10, ?G11, ?M00, ?M01, ?M10, ?M11, ?N0, ?N1, ?NT, ?pow_1 in Q0;
        rewrite ?G00, ?G01, ?G10, ?G11, ?M00, ?M01, ?M10, ?M11, ?N0, ?N1, ?NT, ?pow_1 in Q1; lra.
    - reflexivity.
    - destruct Q; [|exact SS|exact MX]. intros dx it. unfold get_td, td_first. rewrite DF. destruct (d_lock tdo); reflexivity. }
  unfold dc_solve_sys at 1.
  match goal with |- op_decide (dc_solve _ ?f _ ?x) _ = _ => destruct (no_method f x) as (c & E) end.
  - intros i y. apply F. simpl. auto.
  - intros i y. apply F. simpl. auto.
  - intros i y. apply F. simpl. auto.
  - rewrite E. reflexivity.
Qed.
Print Assumptions C195_found_refuted.
