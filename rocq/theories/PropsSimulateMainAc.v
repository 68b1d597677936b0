(** The AC response of circuits with devices in the dictionary of results of the program (C220). *)
From Coq Require Import Ascii String Reals List Bool Arith ZArith Lia Lra.
From Verif Require Import Stamp.
From Verif Require Import Base BaseFacts Str Units Directive Lines Reader Netlist ModelLines Nodes NodesFacts Circuit CircuitFacts Rsum Mna MnaSpec DcSolve DcSolveFacts Newton
  NewtonFacts DynFacts Df Tran TranFacts PropsTran Ac AcFacts Sweep Csv PropsCsv Results PropsDirective PropsReader PropsNetlist PropsResults PropsMna PropsDc PropsAc Session PropsSetup
  RunQueue Ics Subckt PropsSubckt Simulate PropsSimulate SimulateAc PropsSimulateAc SimulateDc PropsSimulateDc SimulateTran PropsSimulateTran SimulateNl PropsSimulateNl
  SimulateAcNl PropsSimulateAcNl SimulateSub PropsSimulateSub SimulateMain PropsSimulateMain SimulateMainAc.
Import ListNotations.
Open Scope R_scope.

Section AcProgram.
  Variable solve : nat -> mat -> vec -> option vec.
  Variable csolve : cmat -> cvec -> option cvec.
  Variable JT : vec -> mat * vec.
  Variable check : vec -> vec -> vec -> bool.
  Variable locked : list lelem -> list (nat * nat).
  Variables (o : dopts) (tdo : tdopts) (damp_first : bool) (maxit acit trit fuel : nat) (topt : topts) (cmin gmin : R).
  Variable at_time : str -> R -> R.
  Variable guess : list lelem -> vec.
  Variable skip : bool.
  Variable inv : mat -> mat.
  Variable modules : string -> dfm.
  Variable has_module : string -> bool.
  Variable rounds : nat.
  Variable settings : Session.opts.
  Variable others : list pelem * ntab * list lelem -> str -> list (str * Directive.val) -> option result -> res result.
  Variable icmod : list pelem * ntab * list lelem -> result -> res result.
  (** The devices. *)
  Variable square : pelem -> bool.
  Variable current : pelem -> list R -> R.
  Variable stamp : pelem -> list R -> nat -> nat -> R.
  Variable conductance : pelem -> list R -> nat -> R.
  Local Notation rest_ := (ac_rest solve csolve JT check locked o tdo damp_first maxit acit fuel cmin gmin at_time guess settings square current stamp conductance others).
  Local Notation main_ := (main_file solve csolve JT check locked o tdo damp_first maxit acit trit fuel topt cmin gmin at_time guess skip inv modules has_module rounds settings rest_ icmod).
  Local Notation dget_ := (dget streqb).
  Local Notation op_ := (op_run solve JT check locked o tdo maxit fuel gmin (fun id => at_time id 0)).

  (** The analysis that the line asks for. *)
  Lemma ac_from : forall fs user depth files filename parts t es rs dirs before line after words n a b sweep,
    main_ fs user depth files filename = Ok (parts, t, es, rs) -> directives fs files filename dirs -> dirs = before ++ line :: after ->
    asks "ac" line words -> Forall (fun l => ~ of_type "ac" l) after ->
    quantity "nsteps" (Some 1)%nat words n -> quantity "start" (Some 2)%nat words a -> quantity "stop" (Some 3)%nat words b ->
    parameter "type" (Some 0)%nat words sweep \/ (absent "type" (Some 0)%nat words /\ sweep = lit "LOG") -> nonlinear es = true ->
    load_all fs user depth files filename = Ok (parts, t, es) /\
    exists r, ac_nl_run square current stamp conductance csolve o damp_first acit fuel cmin gmin parts t es (op_point (op_ t es (if op_guess settings true then guess es else vzero)))
      a b n (Some (ss sweep)) None = Ok r /\ dget_ rs (lit "ac") = Some (RAc r).
  Proof.
    intros fs user depth files filename parts t es rs dirs before line after words n a b sweep M DI BLA A LAST QN QA QB TYPE NL.
    assert (IC : is_ic line = false) by (apply (asks_ic "ac" line words A); intros x Q; discriminate Q).
    edestruct main_line as (LD & ics & xs0 & pre & an & post & xs & x0 & r & _ & _ & _ & PL_ & _ & ST & BE & EX & DG & OG); [exact M|exact DI|exact BLA|exact IC|]. split; [exact LD|].
    assert (ND : ~ In c_dot (lit "ac")) by (cbn; intuition discriminate). assert (LO : slower (lit "ac") = lit "ac") by reflexivity.
    pose proof (type_of "ac" line words an A ND LO PL_) as TY. rewrite TY in EX, DG.
    destruct (single_line line "ac" words an A PL_ ND LO) as (tbl & an1 & IT & P & _ & SAME & _). specialize (SAME ltac:(discriminate) ltac:(discriminate)). subst an1.
    assert (TB : tbl = Directive.ac_table) by (cbn in IT; repeat (destruct IT as [IT|IT]; [try discriminate IT; congruence|]); destruct IT). rewrite TB in IT, P.
    destruct (quantity_value _ _ _ _ _ "nsteps" _ n _ IT P QN ltac:(unfold no_equals; cbn; intuition discriminate) ltac:(right; left; reflexivity) eq_refl eq_refl eq_refl) as (d2 & D2 & E2).
    destruct (quantity_value _ _ _ _ _ "start" _ a _ IT P QA ltac:(unfold no_equals; cbn; intuition discriminate) ltac:(right; right; left; reflexivity) eq_refl eq_refl eq_refl) as (d3 & D3 & E3).
    destruct (quantity_value _ _ _ _ _ "stop" _ b _ IT P QB ltac:(unfold no_equals; cbn; intuition discriminate) ltac:(right; right; right; left; reflexivity) eq_refl eq_refl eq_refl) as (d4 & D4 & E4).
    assert (D5 : dget_ an (lit "sweep_type") = Some (VStr sweep)).
    { destruct TYPE as [PT|(AT & ->)].
      - destruct (parameter_value _ _ _ _ _ "type" _ sweep _ IT P PT ltac:(unfold no_equals; cbn; intuition discriminate) ltac:(left; reflexivity) eq_refl eq_refl) as (x5 & X5 & D5). match type of X5 with convert ?w _ = _ => assert (X5' : Ok (VStr w) = Ok x5) by exact X5 end. injection X5' as <-. exact D5.
      - exact (absent_value _ _ _ _ _ "type" _ _ IT P AT ltac:(left; reflexivity) eq_refl eq_refl). }
    (* no starting point *)
    assert (X0 : dget_ an (lit "x0") = None).
    { destruct (C45_values Directive.ac_table _ words an (C45_tables (lit "ac") _ (or_introl IT)) P) as (_ & _ & OTHER). specialize (OTHER (lit "x0")). rewrite OTHER; [reflexivity|].
      intros s IS E. cbn in IS. repeat (destruct IS as [<-|IS]; [discriminate E|]). destruct IS. }
    unfold begins_at, as_an in BE. cbn [a_x0] in BE. rewrite X0 in BE. subst x0.
    cbn [s_dest sp] in D2, D3, D4. unfold exec, num, txt in EX. change (streqb (lit "ac") (lit "op")) with false in EX. change (streqb (lit "ac") (lit "dc")) with false in EX.
    change (streqb (lit "ac") (lit "ac")) with true in EX. cbv iota in EX. rewrite D2, D3, D4, D5 in EX. cbn [bindr] in EX. rewrite NL in EX.
    unfold ac_rest, num, txt in EX. change (streqb (lit "ac") (lit "ac")) with true in EX. cbv iota in EX. rewrite D2, D3, D4, D5 in EX. cbn [bindr start_of] in EX.
    apply bindr_Ok in EX. destruct EX as (r' & OR & E). injection E as <-. rewrite <- E2, <- E3, <- E4 in OR. exists r'. split; [exact OR|].
    apply DG. rewrite Forall_forall in LAST |- *. intros l L. exact (not_of "ac" l (LAST l L)).
  Qed.

  (** ** C220: the small-signal response of the netlist around its operating point *)
  Theorem C220_ac : forall fs user depth files filename parts t es rs dirs before line after words n a b sweep angle,
    main_ fs user depth files filename = Ok (parts, t, es, rs) -> directives fs files filename dirs -> dirs = before ++ line :: after ->
    asks "ac" line words -> Forall (fun l => ~ of_type "ac" l) after ->
    quantity "nsteps" (Some 1)%nat words n -> quantity "start" (Some 2)%nat words a -> quantity "stop" (Some 3)%nat words b ->
    parameter "type" (Some 0)%nat words sweep \/ (absent "type" (Some 0)%nat words /\ sweep = lit "LOG") ->
    (forall line l, user line = Ok l -> Forall word_names l) -> Forall (nl_sound parts) parts -> has_device parts ->
    csolver_ok (op_size t es) csolve -> is_angle angle -> damp_first = false -> o_std o = true ->
    exists r, dget_ rs (lit "ac") = Some (RAc r) /\ forall rows, r = Some rows ->
    let c := Rmax 0 cmin in
    let report := ac_report angle false t es rows in
    exists ws x flag V0, omegas fuel a b n (Some (ss sweep)) = Ok ws /\
      (* the operating point: what an .op line without arguments reports, wherever it stands *)
      op_ t es (if op_guess settings true then guess es else vzero) = Ok (Some (x, flag)) /\
      (forall before' opline after' owords, dirs = before' ++ opline :: after' -> asks "op" opline owords -> Forall (fun l => ~ of_type "op" l) after' ->
         absent "guess" None owords -> absent "ic_label" None owords -> dget_ rs (lit "op") = Some (ROp (Some (x, flag)))) /\
      V0 (lit "0") = 0 /\ (forall n name, In n (node_list parts) -> n <> lit "0" -> slower name = slower (lit "V" ++ n) -> op_report t es x name = Ok (V0 n)) /\
      (forall name, slower name = lit "f" -> report name = Ok (map (fun w => (w / (2 * Rtrigo1.PI), 0)) ws)) /\
      ((forall w, In w ws -> ac_nl_well_posed square stamp conductance V0 w gmin c parts) ->
       (forall n name, In n (node_list parts) -> n <> lit "0" -> slower name = slower (lit "V" ++ n) ->
          exists l, report name = Ok l /\
            Forall2 (fun w z => forall Vr Vi Ir Ii, ac_nl_laws square stamp conductance V0 w gmin c true parts Vr Vi Ir Ii -> z = (Vr n, Vi n)) ws l) /\
       (forall id name, In id (current_ids parts) -> slower name = slower (lit "I(" ++ id ++ lit ")") ->
          exists l, report name = Ok l /\
            Forall2 (fun w z => forall Vr Vi Ir Ii, ac_nl_laws square stamp conductance V0 w gmin c true parts Vr Vi Ir Ii -> z = (Ir id, Ii id)) ws l)).
  Proof.
    intros fs user depth files filename parts t es rs dirs before line after words n a b sweep angle M DI BLA A LAST QN QA QB TYPE US SO HD CS AN DF OS.
    assert (LD0 : load_all fs user depth files filename = Ok (parts, t, es)) by (unfold main_file in M; apply bindr_Ok in M; destruct M as (c0 & LD0 & M); rewrite LD0; f_equal; apply bindr_Ok in M; destruct M as (s & _ & M);
      cbv zeta in M; apply bindr_Ok in M; destruct M as (i1 & _ & M); apply bindr_Ok in M; destruct M as (i2 & _ & M); apply bindr_Ok in M; destruct M as (i3 & _ & M); apply bindr_Ok in M; destruct M as (i4 & _ & M); congruence).
    destruct (C209_load _ _ _ _ _ _ US LD0) as (other & OT & LD'). destruct (load_facts _ _ _ _ _ _ _ LD') as (_ & _ & PL & _ & _).
    pose proof (device_nonlinear t parts es PL HD) as NL.
    destruct (ac_from fs user depth files filename parts t es rs dirs before line after words n a b sweep M DI BLA A LAST QN QA QB TYPE NL) as (_ & r & RUN & DG).
    exists r. split; [exact DG|]. intros rows ->. rewrite DF in RUN.
    destruct (C199_ac_devices fs other files filename parts t es LD' OT SO HD square current stamp conductance csolve o acit fuel cmin gmin angle _ a b n (Some (ss sweep)) None rows CS AN OS RUN)
      as (ws & x & V0 & OM & OP & V00 & VX & RF & RR).
    unfold op_point in OP. apply bindr_Ok in OP. destruct OP as (q & OP & E). destruct q as [[x' flag]|]; [|discriminate E]. injection E as ->.
    exists ws, x, flag, V0. split; [exact OM|]. split; [exact OP|]. split; [|split; [exact V00|split; [exact VX|split; [exact RF|exact RR]]]].
    intros before' opline after' owords BLA' AO LO AG AI. edestruct C212_op as (_ & y & q & RO & DO & YG); [exact M|exact DI|exact BLA'|exact AO|exact LO|].
    rewrite (YG AG AI) in RO. rewrite OP in RO. injection RO as <-. exact DO.
  Qed.
  Print Assumptions C220_ac.
End AcProgram.

(** The diode circuit of C199, in a run of the whole program. *)
Lemma ac_clamp_load_all : load_all (fun _ => Some ac_clamp) (fun _ => Err NetlistParseError) 1 1 (lit "f") = Ok (ac_clamp_parts, shunt_t, clamp_es).
Proof.
  pose proof ac_clamp_load as C. unfold load in C. unfold load_all.
  match goal with |- context [read_netlist ?a ?b ?c] => let r := eval vm_compute in (read_netlist a b c) in change (read_netlist a b c) with r in *; change (read_netlist a 1 c) with r in C end.
  cbn [bindr r_models r_lines r_subs map parse_subs fst snd] in *. exact C.
Qed.
Lemma ac_clamp_op : forall locked at0,
  exists x, op_run (fun _ => solve1) cube_devices clamp_check locked ac_opts (mkTd false false 1) 20 5 0 at0 shunt_t clamp_es (fun _ => -1 / 2) = Ok (Some (x, true)) /\ x 0%nat = 1.
Proof.
  intros locked at0. unfold op_run, op_analysis.
  match goal with |- context [generate_mna_and_N ?a ?b] => destruct (generate_mna_and_N a b) as [[m N]|] eqn:GE; [|vm_compute in GE; discriminate GE] end. cbn [bindr fst snd].
  assert (MV : reduce_mat m 0%nat 0%nat = 1 /\ reduce_vec N 0%nat = -2).
  { vm_compute in GE. injection GE as <- <-. unfold reduce_mat, reduce_vec. cbn. split; lra. }
  destruct MV as (M0 & N0).
  assert (B0 : build_gmin_matrix (get_nodes_number shunt_t) 0 0%nat 0%nat = 0) by reflexivity.
  assert (TT : time_term (get_nodes_number shunt_t) (fun e => at0 (list_ascii_of_string (lid e))) clamp_es 0%nat = 0) by reflexivity.
  set (nw := op_newton (fun _ => solve1) cube_devices clamp_check locked (mkTd false false 1) 20 shunt_t clamp_es).
  assert (RUN : forall G z, G 0%nat 0%nat = 0 -> z 0%nat = 1 \/ z 0%nat = -1 / 2 -> exists y r it, y 0%nat = 1 /\
    dc_solve_sys ac_opts nw (get_nodes_number shunt_t) (reduce_mat m) G
      (fun i => reduce_vec N i + time_term (get_nodes_number shunt_t) (fun e => at0 (list_ascii_of_string (lid e))) clamp_es i) vzero 5 z = DRet (Some y) (Some r) true it [(RStd, true)]).
  { intros G z G0 Z.
    destruct (clamp_step locked 0 (sys_mat (get_nodes_number shunt_t) (reduce_mat m) G RStd)
      (sys_vec (fun i => reduce_vec N i + time_term (get_nodes_number shunt_t) (fun e => at0 (list_ascii_of_string (lid e))) clamp_es i) vzero RStd) z) as (y & r & it & E & Y);
      [unfold sys_mat; rewrite M0, G0; ring|unfold sys_vec; rewrite N0, TT; unfold vzero; ring|exact Z|].
    exists y, r, it. split; [exact Y|]. unfold dc_solve_sys. fold nw in E. apply (dc_solve_first _ ac_opts (fun i r x => nw i (sys_mat _ _ _ r) (sys_vec _ _ r) x) 4 z y r it eq_refl E). }
  destruct (RUN (build_gmin_matrix (get_nodes_number shunt_t) 0) (fun _ => -1 / 2) B0 (or_intror eq_refl)) as (y & r & it & Y & E).
  destruct (RUN mzero y eq_refl (or_introl Y)) as (y' & r' & it' & Y' & E').
  exists y'. unfold op_decide. rewrite E, E'. split; [reflexivity|exact Y'].
Qed.
Lemma one_ac : forall (C : Type) (c : C) ex ic (par : list (str * Directive.val)) (r : result), ex c (lit "ac") par None = Ok r ->
  fst (RunQueue.main C _ _ (fun ty => mem ty known_types) ex ic c [] [mkAn _ _ (lit "ac") None par] (mkSt C _ _ [] [] [])) = Ok [(lit "ac", r)].
Proof. intros C c ex ic par r H. cbv in H. cbv. rewrite H. reflexivity. Qed.
Definition ac_an : list (str * Directive.val) :=
  [(lit "type", VStr (lit "ac")); (lit "sweep_type", VStr (lit "lin")); (lit "points", VNum (1, 0)%Z); (lit "start", VNum (1, 0)%Z); (lit "stop", VNum (1, 0)%Z)].
Example C220_example : forall locked trit topt at_time skip inv modules has_module rounds settings others icmod, op_guess settings true = true ->
  exists x, main_file (fun _ => solve1) csolve1 cube_devices clamp_check locked ac_opts (mkTd false false 1) false 20 20 trit 5 topt 0 0 at_time
      (fun _ _ => -1 / 2) skip inv modules has_module rounds settings
      (ac_rest (fun _ => solve1) csolve1 cube_devices clamp_check locked ac_opts (mkTd false false 1) false 20 20 5 0 0 at_time (fun _ _ => -1 / 2) settings
        (fun _ => false) cube cube_stamp2 (fun _ _ _ => 0) others) icmod (fun _ => Some ac_clamp) (fun _ => Err NetlistParseError) 1 1 (lit "f")
    = Ok (ac_clamp_parts, shunt_t, clamp_es, [(lit "ac", RAc (Some [(1, x)]))]) /\
    forall angle, is_angle angle -> ac_report angle false shunt_t clamp_es [(1, x)] (lit "VA") = Ok [(2, 0)].
Proof.
  intros locked trit topt at_time skip inv modules has_module rounds settings others icmod OG.
  destruct (ac_clamp_op locked (at_dc at_time)) as (xop & RO & XO). destruct ac_clamp_mats as (m & N & AC & GE & GA & M1).
  assert (DJ : exists J, devices_J (fun _ => false) cube cube_stamp2 (fun _ _ _ => 0) shunt_t ac_clamp_parts xop = Ok J /\ m 1%nat 1%nat + J 0%nat 0%nat <> 0).
  { assert (JX : exists J, devices_J (fun _ => false) cube cube_stamp2 (fun _ _ _ => 0) shunt_t ac_clamp_parts xop = Ok J /\ J 0%nat 0%nat = 3).
    { unfold devices_J, devices, ac_clamp_parts. cbn [device_loop]. unfold device. cbn [out_port bindr drive_ports stamp_nodes port_numbers numbers].
      change (number shunt_t (lit "a")) with (@Ok nat 1%nat). change (number shunt_t (lit "0")) with (@Ok nat 0%nat). cbn [bindr map].
      change (gstamp_reduced [1; 0]%nat (cube_stamp2 (PD (lit "d1") (lit "a") (lit "0") (lit "dm") None None) [drive_v xop (1, 0)%nat]))
        with [((1, 1)%nat, cube_stamp2 (PD (lit "d1") (lit "a") (lit "0") (lit "dm") None None) [drive_v xop (1, 0)%nat] 0%nat 0%nat)].
      change (istamp_reduced 1 0 (cube (PD (lit "d1") (lit "a") (lit "0") (lit "dm") None None) [drive_v xop (1, 0)%nat]))
        with [(1%nat, cube (PD (lit "d1") (lit "a") (lit "0") (lit "dm") None None) [drive_v xop (1, 0)%nat])].
      cbn [fancy_add_mat fancy_add_vec bindr fold_left fst snd Nat.sub]. eexists. split; [reflexivity|].
      unfold mset, vset, mzero, vzero, cube_stamp2, drive_v. cbn [hd fst snd Nat.eqb Nat.sub andb]. rewrite XO. ring. }
    destruct JX as (J & DJ & JV). exists J. split; [exact DJ|]. rewrite JV, M1. lra. }
  destruct DJ as (J & DJ & J0).
  destruct (one_node_run (fun _ => false) cube cube_stamp2 (fun _ _ _ => 0) ac_clamp_parts clamp_es (Ok (Some xop)) m N AC xop J GE GA eq_refl eq_refl eq_refl DJ J0) as (x & RUN).
  exists x. split.
  - unfold main_file. rewrite ac_clamp_load_all. cbn [bindr].
    assert (DR : exists s, read_netlist (fun _ => Some ac_clamp) 1 (lit "f") = Ok s /\ map fst (r_dirs s) = [lit ".ac lin 1 1 1"]) by (eexists; split; vm_compute; reflexivity).
    destruct DR as (s & -> & DR). cbn [bindr]. cbv zeta. rewrite DR.
    change (parse_ics [lit ".ac lin 1 1 1"]) with (@Ok (list (Directive.val * list (str * Directive.val))) []). cbn [bindr ic_vectors mapr concat].
    assert (PA : parse_analysis [lit ".ac lin 1 1 1"] = Ok [ac_an]) by (vm_compute; reflexivity). rewrite PA. cbn [bindr map].
    change (as_an ac_an) with (mkAn (list (str * Directive.val)) result (lit "ac") None ac_an).
    rewrite (one_ac _ (ac_clamp_parts, shunt_t, clamp_es) _ _ ac_an (RAc (Some [(1, x)]))); [reflexivity|].
    unfold exec, num, txt. change (streqb (lit "ac") (lit "op")) with false. change (streqb (lit "ac") (lit "dc")) with false. change (streqb (lit "ac") (lit "ac")) with true. cbv iota.
    unfold ac_rest, num, txt. change (streqb (lit "ac") (lit "ac")) with true. cbv iota.
    change (dget streqb ac_an (lit "start")) with (Some (VNum (1, 0)%Z)). change (dget streqb ac_an (lit "stop")) with (Some (VNum (1, 0)%Z)).
    change (dget streqb ac_an (lit "points")) with (Some (VNum (1, 0)%Z)). change (dget streqb ac_an (lit "sweep_type")) with (Some (VStr (lit "lin"))). cbv iota. cbn [bindr start_of].
    change (nonlinear clamp_es) with true. cbv iota. rewrite OG, RO. cbn [op_point bindr option_map fst]. rewrite !dR_0. change (ss (lit "lin")) with "lin"%string. rewrite RUN. reflexivity.
  - intros angle AN.
    apply (ac_nl_one (fun _ => false) cube cube_stamp2 (fun _ _ _ => 0) _ _ _ _ ac_clamp_parts clamp_es (Ok (Some xop)) xop x 2 1 ac_clamp_load); try reflexivity.
    + discriminate.
    + repeat constructor; discriminate.
    + exists (PD (lit "d1") (lit "a") (lit "0") (lit "dm") None None). split; [right; right; left; reflexivity|discriminate].
    + left. reflexivity.
    + exact XO.
    + apply ac_clamp_iff.
    + intros n H. cbn in H. repeat (destruct H as [<-|H]; [first [left; reflexivity|right; reflexivity]|]). destruct H.
    + exact RUN.
    + unfold op_report. assert (NM : names_of shunt_t (seq 1 (get_nodes_number shunt_t - 1)) = @Ok (list str) [lit "a"]) by (vm_compute; reflexivity). rewrite NM. cbn [bindr].
      change (op_size shunt_t clamp_es) with 1%nat. cbn [seq map filter clamp_es is_vde]. rewrite <- XO. reflexivity.
    + exact AN.
Qed.
