(** Poles and zeros in the dictionary of results of the program (C219). *)
From Coq Require Import Ascii String Reals List Bool Arith ZArith Lia Lra.
From Verif Require Import Base BaseFacts Str Units Directive Lines Reader Netlist ModelLines Nodes NodesFacts Circuit CircuitFacts Rsum Mna MnaSpec DcSolve Newton
  NewtonFacts DynFacts Df Tran TranFacts PropsTran Ac AcFacts Sweep Csv PropsCsv Results PropsDirective PropsReader PropsNetlist PropsResults PropsMna PropsDc PropsAc Session PropsSetup
  RunQueue Ics Subckt PropsSubckt Simulate PropsSimulate SimulateAc PropsSimulateAc SimulateDc PropsSimulateDc SimulateTran PropsSimulateTran SimulateNl PropsSimulateNl
  SimulateSub PropsSimulateSub SimulateMain PropsSimulateMain Pss PropsPss Pz PropsPz SimulatePz PropsSimulatePz SimulateMainPz.
Import ListNotations.
Open Scope R_scope.

(** ** The line *)
Lemma pz_start : forall line words an, asks "pz" line words -> parse_single_analysis line = Ok an -> dget streqb an (lit "x0") = Some (VStr (lit "op")).
Proof.
  intros line words an A H. unfold asks in A. unfold parse_single_analysis in H. rewrite A in H. cbv zeta in H.
  change (directive_type (lit "." ++ lit "pz")) with (lit "pz") in H. change (dget streqb specs (lit "pz")) with (Some pz_table) in H. cbv iota in H.
  apply bindr_Ok in H. destruct H as (an1 & _ & H). change (streqb (lit "pz") (lit "tran")) with false in H. change (streqb (lit "pz") (lit "pz")) with true in H. cbv iota in H.
  injection H as <-. apply dget_dset_eq.
Qed.

(** A text of the line, or none. *)
Definition text (label : string) (pos : nat) (words : list str) (v : option str) : Prop :=
  match v with Some s => parameter label (Some pos) words s | None => absent label (Some pos) words end.

Section PzProgram.
  Variable solve : nat -> mat -> vec -> option vec.
  Variable csolve : cmat -> cvec -> option cvec.
  Variable JT : vec -> mat * vec.
  Variable check : vec -> vec -> vec -> bool.
  Variable locked : list lelem -> list (nat * nat).
  Variables (o : dopts) (tdo : tdopts) (damp_first : bool) (maxit acit trit fuel : nat) (topt : topts) (cmin gmin : R).
  Variable at_time : str -> R -> R.
  Variable guess : list lelem -> vec.
  Variable skip : bool.
  Variable tinv : mat -> mat.
  Variable modules : string -> dfm.
  Variable has_module : string -> bool.
  Variable rounds : nat.
  Variable settings : Session.opts.
  Variable others : list pelem * ntab * list lelem -> str -> list (str * Directive.val) -> option result -> res result.
  Variable icmod : list pelem * ntab * list lelem -> result -> res result.
  (** The devices and numpy. *)
  Variable square : pelem -> bool.
  Variable current : pelem -> list R -> R.
  Variable stamp : pelem -> list R -> nat -> nat -> R.
  Variable conductance : pelem -> list R -> nat -> R.
  Variable inv : mat -> option mat.
  Variable nonsing : nat -> mat -> bool.
  Variable eigvals : nat -> mat -> list cx.
  Variables (pz_max pcmin : R) (calls : nat) (u : nat -> R).
  Local Notation rest_ := (pz_rest square current stamp conductance inv nonsing eigvals pz_max pcmin calls u others).
  Local Notation main_ := (main_file solve csolve JT check locked o tdo damp_first maxit acit trit fuel topt cmin gmin at_time guess skip tinv modules has_module rounds settings rest_ icmod).
  Local Notation dget_ := (dget streqb).

  (** The analysis that the line asks for, at the last operating point before it. *)
  Lemma pz_from : forall fs user depth files filename parts t es rs dirs before1 opline before2 line after owords words input output shift,
    main_ fs user depth files filename = Ok (parts, t, es, rs) -> directives fs files filename dirs -> dirs = before1 ++ opline :: before2 ++ line :: after ->
    asks "op" opline owords -> Forall (fun l => ~ of_type "op" l) before2 -> Forall (fun l => ~ of_type "op" l) after ->
    asks "pz" line words -> Forall (fun l => ~ of_type "pz" l) after ->
    text "output" 0 words output -> text "input" 1 words input -> quantity "shift" (Some 2)%nat words shift \/ (absent "shift" (Some 2)%nat words /\ shift = 0) ->
    load_all fs user depth files filename = Ok (parts, t, es) /\
    exists q poles zeros, dget_ rs (lit "op") = Some (ROp q) /\ dget_ rs (lit "pz") = Some (RPz poles zeros) /\
      pz_analysis square current stamp conductance inv nonsing eigvals pz_max pcmin parts t es input output (option_map fst q) calls u shift = Some (PDone poles zeros).
  Proof.
    intros fs user depth files filename parts t es rs dirs before1 opline before2 line after owords words input output shift M DI BLA AO LO2 LO3 A LAST TO TI QS.
    replace (before1 ++ opline :: before2 ++ line :: after) with ((before1 ++ opline :: before2) ++ line :: after) in BLA by (rewrite <- app_assoc; reflexivity).
    assert (IC : is_ic line = false) by (apply (asks_ic "pz" line words A); intros x Q; discriminate Q).
    edestruct main_line as (LD & ics & xs0 & pre & an & post & xs & x0 & r & _ & _ & PPRE & PL_ & _ & ST & BE & EX & DG & OG); [exact M|exact DI|exact BLA|exact IC|]. split; [exact LD|].
    assert (ND : ~ In c_dot (lit "pz")) by (cbn; intuition discriminate). assert (LO : slower (lit "pz") = lit "pz") by reflexivity.
    pose proof (type_of "pz" line words an A ND LO PL_) as TY. rewrite TY in EX, DG, OG.
    destruct (single_line line "pz" words an A PL_ ND LO) as (tbl & an1 & IT & P & SAME & _ & _).
    assert (TB : tbl = Directive.pz_table) by (cbn in IT; repeat (destruct IT as [IT|IT]; [try discriminate IT; congruence|]); destruct IT). rewrite TB in IT, P.
    assert (D1 : opt_txt an "output_port" = output).
    { unfold opt_txt. rewrite SAME by discriminate. unfold text in TO. destruct output as [v|].
      - destruct (parameter_value _ _ _ _ _ "output" _ v _ IT P TO ltac:(unfold no_equals; cbn; intuition discriminate) ltac:(left; reflexivity) eq_refl eq_refl) as (x & X & D). cbn [s_dest sp] in D. rewrite D.
        assert (X' : Ok (VStr v) = Ok x) by exact X. injection X' as <-. reflexivity.
      - pose proof (absent_value _ _ _ _ _ "output" _ _ IT P TO ltac:(left; reflexivity) eq_refl eq_refl) as D. cbn [s_dest sp] in D. rewrite D. reflexivity. }
    assert (D2 : opt_txt an "input_source" = input).
    { unfold opt_txt. rewrite SAME by discriminate. unfold text in TI. destruct input as [v|].
      - destruct (parameter_value _ _ _ _ _ "input" _ v _ IT P TI ltac:(unfold no_equals; cbn; intuition discriminate) ltac:(right; left; reflexivity) eq_refl eq_refl) as (x & X & D). cbn [s_dest sp] in D. rewrite D.
        assert (X' : Ok (VStr v) = Ok x) by exact X. injection X' as <-. reflexivity.
      - pose proof (absent_value _ _ _ _ _ "input" _ _ IT P TI ltac:(right; left; reflexivity) eq_refl eq_refl) as D. cbn [s_dest sp] in D. rewrite D. reflexivity. }
    assert (D3 : num an "shift" = Ok shift).
    { unfold num. rewrite SAME by discriminate. destruct QS as [QS|(QS & ->)].
      - destruct (quantity_value _ _ _ _ _ "shift" _ shift _ IT P QS ltac:(unfold no_equals; cbn; intuition discriminate) ltac:(right; right; left; reflexivity) eq_refl eq_refl eq_refl) as (d & D & ->). cbn [s_dest sp] in D. rewrite D. reflexivity.
      - pose proof (absent_value _ _ _ _ _ "shift" _ _ IT P QS ltac:(right; right; left; reflexivity) eq_refl eq_refl) as D. cbn [s_dest sp] in D. rewrite D. cbn [s_default sp zero]. f_equal. unfold dR. cbn. lra. }
    (* the operating point *)
    assert (OPK : exists q, dget_ xs (lit "op") = Some (ROp q) /\ dget_ rs (lit "op") = Some (ROp q)).
    { destruct ST as (_ & _ & ST).
      assert (ICO : is_ic opline = false) by (apply (asks_ic "op" opline owords AO); intros y Q; discriminate Q).
      unfold parse_analysis in PPRE. rewrite filter_app in PPRE. cbn [filter] in PPRE. rewrite ICO in PPRE. cbn [negb] in PPRE.
      destruct (mapr_app _ _ _ _ _ _ PPRE) as (p1 & r2 & _ & P2 & ->). cbn [mapr] in P2. apply bindr_Ok in P2. destruct P2 as (ano & P2 & P3). apply bindr_Ok in P3. destruct P3 as (p2 & P3 & E).
      injection E as <-. rewrite map_app in ST. cbn [map] in ST.
      assert (TYO : a_type _ _ (as_an ano) = lit "op") by (apply (type_of "op" opline owords ano AO); [cbn; intuition discriminate|reflexivity|exact P2]).
      destruct (ST _ _ _ eq_refl) as (y & q & ri & EO & IC2 & DO & DO2); [exact TYO| |].
      - apply Forall_map. rewrite Forall_forall in LO2 |- *. intros bb B T. destruct (mapr_in _ _ _ _ _ _ P3 B) as (lb & LB & PB). apply filter_In in LB. destruct LB as [LB _].
        destruct (single_type lb bb PB) as (w & ws & SP & TYb). apply (LO2 lb LB). exists w, ws. split; [exact SP|]. rewrite <- TYb. exact T.
      - unfold RunQueue.op, exec in EO. change (streqb (lit "op") (lit "op")) with true in EO. cbv iota in EO.
        apply bindr_Ok in EO. destruct EO as (y' & _ & EO). apply bindr_Ok in EO. destruct EO as (g & _ & EO). apply bindr_Ok in EO. destruct EO as (q' & RO & E). injection E as <-.
        exists q'. split; [exact DO|]. rewrite OG; [exact DO| |discriminate|exact LO3]. rewrite map_app. apply Exists_app. right. cbn [map]. constructor. exact TYO. }
    destruct OPK as (q & DX & DR).
    unfold begins_at, as_an in BE. cbn [a_x0] in BE. rewrite (pz_start line words an A PL_) in BE. destruct BE as (v & DV & ->).
    assert (VQ : Some v = Some (ROp q)) by exact (eq_trans (eq_sym DV) DX). injection VQ as ->.
    unfold exec in EX. change (streqb (lit "pz") (lit "op")) with false in EX. change (streqb (lit "pz") (lit "dc")) with false in EX.
    change (streqb (lit "pz") (lit "ac")) with false in EX. change (streqb (lit "pz") (lit "tran")) with false in EX. cbv iota in EX.
    unfold pz_rest in EX. change (streqb (lit "pz") (lit "pz")) with true in EX. cbv iota in EX. rewrite D1, D2, D3 in EX. cbn [bindr] in EX.
    assert (SX : start_of (Some (ROp q)) = Ok (option_map fst q)) by (destruct q as [[xv fl]|]; reflexivity). rewrite SX in EX. cbn [bindr] in EX.
    destruct (pz_analysis _ _ _ _ _ _ _ _ _ _ _ _ _ _ _ _ _ _) as [pzo|] eqn:PZ; [|discriminate EX]. destruct pzo as [|e|sh|poles zeros]; try discriminate EX. injection EX as <-.
    exists q, poles, zeros. split; [exact DR|]. split; [|exact PZ].
    apply DG. rewrite Forall_forall in LAST |- *. intros l L. exact (not_of "pz" l (LAST l L)).
  Qed.

  (** ** C219: the poles and zeros of the netlist around the reported operating point *)
  Theorem C219_pz_guarded : forall fs user depth files filename parts t es rs dirs before1 opline before2 line after owords words input output shift,
    main_ fs user depth files filename = Ok (parts, t, es, rs) -> directives fs files filename dirs -> dirs = before1 ++ opline :: before2 ++ line :: after ->
    (forall line l, user line = Ok l -> Forall word_names l) -> Forall (nl_sound parts) parts -> Forall uncoupled parts ->
    numpy_ok inv nonsing eigvals (op_size t es) (n_stores parts) -> (shift = 0 /\ calls = 1%nat) \/ pcmin <= 0 ->
    asks "op" opline owords -> Forall (fun l => ~ of_type "op" l) before2 -> Forall (fun l => ~ of_type "op" l) after ->
    asks "pz" line words -> Forall (fun l => ~ of_type "pz" l) after ->
    text "output" 0 words output -> text "input" 1 words input -> quantity "shift" (Some 2)%nat words shift \/ (absent "shift" (Some 2)%nat words /\ shift = 0) ->
    exists q poles zeros V, dget_ rs (lit "op") = Some (ROp q) /\ dget_ rs (lit "pz") = Some (RPz poles zeros) /\
      (* the reported voltages, or zero if there is no operating point *)
      (forall x flag n name, q = Some (x, flag) -> In n (node_list parts) -> n <> lit "0" -> slower name = slower (lit "V" ++ n) -> op_report t es x name = Ok (V n)) /\
      (q = None -> forall n, V n = 0) /\ V (lit "0") = 0 /\
      (forall p, In p poles <-> cabs p < pz_max /\ natural_frequency square stamp conductance V parts (rads p)) /\
      (forall id, input = Some id -> forall po, output = Some po -> zeros <> [] -> exists o1 o2, output_nodes po = Ok (o1, o2) /\ In o1 (node_list parts) /\ In o2 (node_list parts) /\
         forall z, In z zeros <-> cabs z < pz_max /\ blocked_frequency square stamp conductance V parts id o1 o2 (rads z)) /\
      (input = None \/ output = None -> zeros = []).
  Proof.
    intros fs user depth files filename parts t es rs dirs before1 opline before2 line after owords words input output shift M DI BLA US SO UC NP SH AO LO2 LO3 A LAST TO TI QS.
    destruct (pz_from _ _ _ _ _ _ _ _ _ _ _ _ _ _ _ _ _ _ _ _ M DI BLA AO LO2 LO3 A LAST TO TI QS) as (LD & q & poles & zeros & DR & DP & PZ).
    destruct (C209_load _ _ _ _ _ _ US LD) as (other & OT & LD').
    assert (OL : forall line l, other line = Ok l -> Forall lower_case l) by (intros ln l H; exact (Forall_impl _ (fun e He => proj1 He) (OT ln l H))).
    pose proof (C206_poles_zeros fs other files filename parts t es LD' OL SO UC square current stamp conductance inv nonsing eigvals pz_max pcmin NP input output (option_map fst q) calls u shift poles zeros SH PZ) as H.
    cbv zeta in H. exists q, poles, zeros. eexists. split; [exact DR|]. split; [exact DP|]. split; [|split; [|split; [|exact H]]].
    - intros x flag n name -> HN NG E. cbn [option_map fst].
      pose proof (load_lower _ _ _ _ _ _ _ OL LD') as LC. pose proof (load_registered _ _ _ _ _ _ _ LD') as REG.
      destruct (load_facts _ _ _ _ _ _ _ LD') as (G & NV & PL & NDD & MEN).
      destruct (nl_names t parts es G PL LC NDD MEN REG) as (ns & NS & LN & DN & _ & IDS & DII & _ & LEN & IDX).
      pose proof (grounded_number t G) as NZ.
      assert (SZ : op_size t es = (List.length ns + List.length (current_ids parts))%nat) by (unfold op_size; lia).
      destruct (op_values t es ns (current_ids parts) x NS IDS DN DII SZ) as (O1 & _).
      destruct (IDX n HN NG) as (i & NI & At). rewrite (O1 i n name NI E). f_equal. unfold volt. unfold at_node in At. rewrite At. reflexivity.
    - intros -> n. cbn [option_map]. unfold volt, with_ground, vzero. destruct (ext_node_to_int t (ss n)) as [[|i]|]; reflexivity.
    - destruct (load_facts _ _ _ _ _ _ _ LD') as (G & _). unfold volt. destruct G as (_ & G0). first [rewrite G0; reflexivity | unfold at_node in G0; rewrite G0; reflexivity].
  Qed.
  Print Assumptions C219_pz_guarded.

  (** Without an .op line before it the program fails, also for circuits without devices, which need no
      operating point; a vector called op made by an .ic line would be used in its place. *)
  Theorem C219_alone_refuted : forall fs user depth files filename parts t es rs dirs before line after words,
    directives fs files filename dirs -> dirs = before ++ line :: after -> asks "pz" line words -> Forall (fun l => ~ of_type "op" l) before ->
    Forall (fun l => is_ic l = false) dirs -> main_ fs user depth files filename <> Ok (parts, t, es, rs).
  Proof.
    intros fs user depth files filename parts t es rs dirs before line after words DI BLA A LO2 NIC M.
    assert (IC : is_ic line = false) by (apply (asks_ic "pz" line words A); intros x Q; discriminate Q).
    edestruct main_line as (LD & ics & xs0 & pre & an & post & xs & x0 & r & PI_ & XS & PPRE & PL_ & _ & ST & BE & _); [exact M|exact DI|exact BLA|exact IC|].
    assert (E0 : xs0 = []).
    { unfold parse_ics in PI_. replace (filter is_ic dirs) with (@nil str) in PI_; [injection PI_ as <-; injection XS as <-; reflexivity|].
      clear - NIC. induction dirs as [|l d IH]; [reflexivity|]. cbn [filter]. rewrite (Forall_inv NIC). apply IH. exact (Forall_inv_tail NIC). }
    subst xs0. destruct ST as (_ & ST & _). rewrite ST in BE.
    - unfold begins_at, as_an in BE. cbn [a_x0] in BE. rewrite (pz_start line words an A PL_) in BE. destruct BE as (v & DV & _). discriminate DV.
    - apply Forall_map. rewrite Forall_forall in LO2 |- *. intros bb B T. destruct (mapr_in _ _ _ _ _ _ PPRE B) as (lb & LB & PB). apply filter_In in LB. destruct LB as [LB _].
      destruct (single_type lb bb PB) as (w & ws & SP & TYb). apply (LO2 lb LB). exists w, ws. split; [exact SP|]. rewrite <- TYb. exact T.
  Qed.
  Print Assumptions C219_alone_refuted.
End PzProgram.

(** A resistor, a capacitor and a current source, in a run of the whole program. *)
Definition tank : list str := map lit ["tank"; "R1 A 0 2"; "I1 a 0 type=idc idc=3"; "C1 a 0 1"; ".op"; ".pz"]%string.
Definition tank_parts : list pelem :=
  [PR (lit "r1") (lit "a") (lit "0") (2, 0)%Z; Netlist.PI (lit "i1") (lit "a") (lit "0") (Some (3, 0)%Z) None None; PC (lit "c1") (lit "a") (lit "0") (1, 0)%Z None].
Definition tank_es : list lelem := [ER "r1" 1 0 2; EI "i1" 1 0 3 false; EC "c1" 1 0 1]%string.
Lemma tank_load : load_all (fun _ => Some tank) (fun _ => Err NetlistParseError) 1 1 (lit "f") = Ok (tank_parts, shunt_t, tank_es).
Proof.
  transitivity (@Ok (list pelem * ntab * list lelem) (tank_parts, shunt_t, [ER "r1" 1 0 (dR (2, 0)%Z); EI "i1" 1 0 (dR (3, 0)%Z) false; EC "c1" 1 0 (dR (1, 0)%Z)]%string)).
  - unfold load_all.
    match goal with |- context [read_netlist ?a ?b ?c] => let r := eval vm_compute in (read_netlist a b c) in change (read_netlist a b c) with r end. cbn [bindr r_models r_lines r_subs map parse_subs fst snd].
    match goal with |- context [parse_models ?a ?b] => let r := eval vm_compute in (parse_models a b) in change (parse_models a b) with r end. cbn [bindr r_models r_lines map fst snd].
    match goal with |- context [main_netlist_parser ?a ?b ?c ?d] => let r := eval vm_compute in (main_netlist_parser a b c d) in change (main_netlist_parser a b c d) with r end. cbn [bindr].
    cbv -[dR]. reflexivity.
  - rewrite !dR_0. reflexivity.
Qed.
Lemma tank_run : forall mx JT check locked at0, exists x,
  op_run (fun _ => solve1) JT check locked PropsDc.default_opts (mkTd false true (1/10)) (S mx) 30 (1/1000000000000) at0 shunt_t tank_es vzero = Ok (Some (x, true)) /\ x 0%nat = -6.
Proof.
  intros mx JT check locked at0. unfold op_run. change (get_nodes_number shunt_t) with 2%nat.
  destruct (C68_example mx JT check (fun e => at0 (list_ascii_of_string (lid e)))) as (x & RUN & Y). exists x. split; [|exact Y]. rewrite <- RUN. unfold op_analysis.
  assert (G : generate_mna_and_N 2 tank_es = generate_mna_and_N 2 [ER "r1" 1 0 2; EI "i1" 1 0 3 false]) by reflexivity.
  assert (T : time_term 2 (fun e => at0 (list_ascii_of_string (lid e))) tank_es = time_term 2 (fun e => at0 (list_ascii_of_string (lid e))) [ER "r1" 1 0 2; EI "i1" 1 0 3 false]) by reflexivity.
  rewrite G, T. reflexivity.
Qed.
Lemma tank_poles : forall square current stamp conductance x0,
  exists p, pz_analysis square current stamp conductance inv1 nonsing1 eigvals1 1 0 tank_parts shunt_t tank_es None None x0 1 (fun _ => 0) 0 = Some (PDone [p] []) /\ rads p = (- (1 / 2), 0).
Proof.
  intros square current stamp conductance x0.
  assert (GE : exists m N, generate_mna_and_N 2 tank_es = Ok (m, N) /\ m 1%nat 1%nat = 1/2).
  { do 2 eexists. split; [reflexivity|]. cbn [fst]. simpl. unfold madd, mset, mzero. simpl. field. }
  destruct GE as (m & N & GE & M11).
  assert (GD : exists d, generate_D 0 2 tank_es = Ok d) by (eexists; reflexivity). destruct GD as (d & GD).
  pose proof PI_RGT_0 as P0. pose proof PI2_3_2 as P2.
  exists (1 / (2 * Rtrigo1.PI) * (- (1 / 2)), 0). split; [|unfold rads; cbn [fst snd]; f_equal; field; lra].
  unfold pz_analysis, pz_matrix. cbv zeta. change (get_nodes_number shunt_t) with 2%nat. rewrite GE. cbn [bindr fst]. change (nonlinear tank_es) with false. cbv iota.
  unfold calculate_singularities. rewrite GD. cbn [pz_run]. unfold pz_once. change (2 - 1 + n_vde tank_es)%nat with 1%nat.
  set (A := mplus (reduce_mat m) (mscale 0 (reduce_mat d))).
  assert (A00 : A 0%nat 0%nat = 1/2) by (unfold A, mplus, mscale, reduce_mat; rewrite M11; ring).
  unfold inv1. destruct (Req_EM_T (A 0%nat 0%nat) 0) as [E|E]; [rewrite A00 in E; lra|].
  match goal with |- context [TCM 1 _ ?w] => set (W := w) end. assert (W00 : W 0%nat 0%nat = 2) by (unfold W; rewrite A00; field).
  set (rs := reactives 2 tank_es 0). change (List.length rs) with 1%nat. cbn [Nat.eqb].
  assert (T : TCM 1 rs W 0%nat 0%nat = -2).
  { unfold TCM, rs, TV, mvec, row, mc_nodes, read_nodes. cbn. unfold read_nodes, mc_nodes, vadd, vset, vzero. cbn. lra. }
  unfold nonsing1, eigvals1. rewrite T, is_zero_false by lra. cbn [negb map]. unfold freq. cbn [fst snd cinv]. unfold cut. cbn [filter].
  replace (1 / (2 * Rtrigo1.PI) * (-2 / (-2 * -2 + 0 * 0) + 0)) with (1 / (2 * Rtrigo1.PI) * (- (1 / 2))) by (f_equal; field).
  replace (1 / (2 * Rtrigo1.PI) * (-0 / (-2 * -2 + 0 * 0))) with 0 by (field; lra).
  replace (Rlt_b (cabs (1 / (2 * Rtrigo1.PI) * - (1 / 2), 0)) 1) with true; [reflexivity|].
  unfold Rlt_b. destruct Rlt_dec as [L|L]; [reflexivity|exfalso; apply L].
  assert (Q : 0 <= 1 / (2 * Rtrigo1.PI) <= 1).
  { split; [apply Rmult_le_pos; [lra|left; apply Rinv_0_lt_compat; lra]|].
    apply Rmult_le_reg_r with (2 * Rtrigo1.PI); [lra|]. unfold Rdiv. rewrite Rmult_assoc, Rinv_l by lra. lra. }
  set (k := 1 / (2 * Rtrigo1.PI)) in *. unfold cabs. cbn [fst snd]. replace (k * - (1 / 2) * (k * - (1 / 2)) + 0 * 0) with ((k / 2) * (k / 2)) by field.
  rewrite sqrt_square by lra. lra.
Qed.
Lemma op_pz : forall (C : Type) (c : C) ex ic (par : list (str * Directive.val)) (r ri r2 : result), ex c (lit "op") op_an None = Ok r -> ic c r = Ok ri ->
  ex c (lit "pz") par (Some r) = Ok r2 ->
  fst (RunQueue.main C _ _ (fun ty => mem ty known_types) ex ic c [] [mkAn _ _ (lit "op") (Some (XNone result)) op_an; mkAn _ _ (lit "pz") (Some (XText result (lit "op"))) par] (mkSt C _ _ [] [] []))
    = Ok [(lit "op", r); (lit "pz", r2)].
Proof.
  intros C c ex ic par r ri r2 H HI H2. cbv in H, H2. cbv. rewrite H, HI, H2. reflexivity.
Qed.
Definition pz_an : list (str * Directive.val) :=
  [(lit "type", VStr (lit "pz")); (lit "output_port", VNone); (lit "input_source", VNone); (lit "shift", VNum (0, 0)%Z); (lit "x0", VStr (lit "op"))].
Example C219_example : forall mx csolve JT check locked acit trit topt cmin at_time skip inv modules has_module rounds settings others square current stamp conductance,
  exists rs q p, main_file (fun _ => solve1) csolve JT check locked PropsDc.default_opts (mkTd false true (1/10)) false (S mx) acit trit 30 topt cmin (1/1000000000000) at_time
      (fun _ => vzero) skip inv modules has_module rounds settings (pz_rest square current stamp conductance inv1 nonsing1 eigvals1 1 0 1 (fun _ => 0) others) (fun _ r => Ok r)
      (fun _ => Some tank) (fun _ => Err NetlistParseError) 1 1 (lit "f") = Ok (tank_parts, shunt_t, tank_es, rs) /\
  dget streqb rs (lit "op") = Some (ROp q) /\ dget streqb rs (lit "pz") = Some (RPz [p] []) /\ rads p = (- (1 / 2), 0) /\
  numpy_ok inv1 nonsing1 eigvals1 (op_size shunt_t tank_es) (n_stores tank_parts) /\ Forall (nl_sound tank_parts) tank_parts /\ Forall uncoupled tank_parts /\
  asks "pz" (lit ".pz") [] /\ text "output" 0 [] None.
Proof.
  intros mx csolve JT check locked acit trit topt cmin at_time skip inv modules has_module rounds settings others square current stamp conductance.
  destruct (tank_run mx JT check locked (at_dc at_time)) as (x & RUN & _). destruct (tank_poles square current stamp conductance (Some x)) as (p & PZ & RP).
  exists [(lit "op", ROp (Some (x, true))); (lit "pz", RPz [p] [])], (Some (x, true)), p.
  split; [|split; [reflexivity|split; [reflexivity|split; [exact RP|split; [split; [exact inv1_ok|split; [exact nonsing1_ok|exact eigvals1_ok]]|]]]]].
  2:{ split; [repeat constructor|]. split; [repeat constructor|]. split; [vm_compute; reflexivity|]. intros i w W. destruct i; discriminate W. }
  unfold main_file. rewrite tank_load. cbn [bindr].
  assert (DR : exists s, read_netlist (fun _ => Some tank) 1 (lit "f") = Ok s /\ map fst (r_dirs s) = [lit ".op"; lit ".pz"]) by (eexists; split; vm_compute; reflexivity).
  destruct DR as (s & -> & DR). cbn [bindr]. cbv zeta. rewrite DR.
  change (parse_ics [lit ".op"; lit ".pz"]) with (@Ok (list (Directive.val * list (str * Directive.val))) []). cbn [bindr ic_vectors mapr concat].
  assert (PA : parse_analysis [lit ".op"; lit ".pz"] = Ok [op_an; pz_an]) by (vm_compute; reflexivity). rewrite PA. cbn [bindr map].
  change (as_an op_an) with (mkAn (list (str * Directive.val)) result (lit "op") (Some (XNone result)) op_an).
  change (as_an pz_an) with (mkAn (list (str * Directive.val)) result (lit "pz") (Some (XText result (lit "op"))) pz_an).
  rewrite (op_pz _ (tank_parts, shunt_t, tank_es) _ _ pz_an (ROp (Some (x, true))) (ROp (Some (x, true))) (RPz [p] [])); [reflexivity| |reflexivity|].
  - unfold exec. change (streqb (lit "op") (lit "op")) with true. cbv iota. cbn [start_of bindr].
    change (dget streqb op_an (lit "guess")) with (Some (VBool true)). cbn [bindr]. replace (if op_guess settings true then vzero else vzero) with vzero by (destruct (op_guess settings true); reflexivity).
    rewrite RUN. reflexivity.
  - unfold exec. change (streqb (lit "pz") (lit "op")) with false. change (streqb (lit "pz") (lit "dc")) with false. change (streqb (lit "pz") (lit "ac")) with false. change (streqb (lit "pz") (lit "tran")) with false.
    cbv iota. unfold pz_rest. change (streqb (lit "pz") (lit "pz")) with true. cbv iota. change (opt_txt pz_an "input_source") with (@None str). change (opt_txt pz_an "output_port") with (@None str).
    unfold num. change (dget streqb pz_an (lit "shift")) with (Some (VNum (0, 0)%Z)). cbv iota. cbn [bindr start_of]. rewrite dR_0, PZ. reflexivity.
Qed.
