(** The results of the program for circuits with diodes and transistors (C218). *)
From Coq Require Import Ascii String Reals List Bool Arith ZArith Lia Lra.
From Verif Require SweepFacts.
From Verif Require Import Base BaseFacts Str Units Directive Lines Reader Netlist ModelLines Nodes NodesFacts Circuit CircuitFacts Rsum Mna MnaSpec DcSolve DcSolveFacts Newton
  NewtonFacts DynFacts Sweep SweepFacts Csv PropsCsv Results Tran PropsReader PropsNetlist PropsResults PropsMna PropsDc PropsSweep PropsSimulateOp Session Simulate PropsSimulate
  SimulateAc PropsSimulateAc SimulateDc PropsSimulateDc SimulateTran PropsSimulateTran SimulateNl PropsSimulateNl.
From Verif Require Import PropsMna.
From Verif Require Import Tran TranFacts PropsTran Session PropsSetup RunQueue SimulateDc PropsSimulateDc PropsSimulateDcNl SimulateSub PropsSimulateSub SimulateMain PropsSimulateMain.
Import ListNotations.
Open Scope R_scope.

(** C212 with C197, C201 and C198.  [JT] are the currents and conductances of the devices of the circuit
    that is read; [check] the convergence check with the tolerances [tol]. *)
Theorem C218_op : forall solve csolve JT locked o tdo damp_first maxit acit trit fuel topt cmin gmin at_time guess skip inv modules has_module rounds settings rest icmod tol
    fs user depth files filename parts t es rs dirs,
  let check x dx r := convergence_check tol (op_size t es) x dx r (get_nodes_number t - 1) in
  main_file solve csolve JT check locked o tdo damp_first maxit acit trit fuel topt cmin gmin at_time guess skip inv modules has_module rounds settings rest icmod
    fs user depth files filename = Ok (parts, t, es, rs) -> directives fs files filename dirs ->
  (forall line l, user line = Ok l -> Forall word_names l) ->
  Forall (nl_sound parts) parts -> has_device parts -> 0 < d_max tdo ->
  forall square current stamp conductance, (forall x, devices square current stamp conductance t parts x = Ok (JT x)) ->
  forall before line after words, dirs = (before ++ line :: after)%list -> asks "op" line words -> Forall (fun l => ~ of_type "op" l) after ->
  exists r, dget streqb rs (lit "op") = Some (ROp r) /\ forall x flag, r = Some (x, flag) ->
  exists V I V' I' s g,
    (forall n name, In n (node_list parts) -> n <> lit "0" -> slower name = slower (lit "V" ++ n) -> op_report t es x name = Ok (V n)) /\
    (forall id name, In id (current_ids parts) -> slower name = slower (lit "I(" ++ id ++ lit ")") -> op_report t es x name = Ok (I id)) /\
    settled tol parts V I V' I' /\ stage o (if flag then 0 else gmin) s g /\ nl_laws square current tol (fun e => s * dc_source (fun id => at_time id 0) e) g 0 parts V' I' (fun _ => 0) (fun _ => 0).
Proof.
  intros solve csolve JT locked o tdo damp_first maxit acit trit fuel topt cmin gmin at_time guess skip inv modules has_module rounds settings rest icmod tol
    fs user depth files filename parts t es rs dirs check M DI US SO HD DM square current stamp conductance DEV before line after words BLA A LAST.
  edestruct C212_op as (LD & x0 & r & RUN & DG & _); [exact M|exact DI|exact BLA|exact A|exact LAST|]. destruct (C209_load _ _ _ _ _ _ US LD) as (other & OT & LD').
  exists r. split; [exact DG|]. intros x flag ->.
  exact (C197_nonlinear fs other files filename parts t es LD' (fun line l H => Forall_impl _ (fun e He => proj1 He) (OT line l H)) SO HD square current stamp conductance JT DEV
    solve tol locked o tdo maxit fuel gmin (fun id => at_time id 0) x0 x flag DM RUN).
Qed.
Print Assumptions C218_op.

Theorem C218_dc : forall solve csolve JT locked o tdo damp_first maxit acit trit fuel topt cmin gmin at_time guess skip inv modules has_module rounds settings rest icmod tol
    fs user depth files filename parts t es rs dirs,
  let check x dx r := convergence_check tol (op_size t es) x dx r (get_nodes_number t - 1) in
  main_file solve csolve JT check locked o tdo damp_first maxit acit trit fuel topt cmin gmin at_time guess skip inv modules has_module rounds settings rest icmod
    fs user depth files filename = Ok (parts, t, es, rs) -> directives fs files filename dirs ->
  (forall line l, user line = Ok l -> Forall word_names l) ->
  Forall (nl_sound parts) parts -> has_device parts -> 0 < d_max tdo ->
  forall square current stamp conductance, (forall x, devices square current stamp conductance t parts x = Ok (JT x)) ->
  forall before line after words source a b s, dirs = (before ++ line :: after)%list -> asks "dc" line words -> Forall (fun l => ~ of_type "dc" l) after ->
  parameter "source" (Some 0)%nat words source -> quantity "start" (Some 1)%nat words a -> quantity "stop" (Some 2)%nat words b -> quantity "step" (Some 3)%nat words s ->
  absent "type" None words \/ (exists v, parameter "type" None words v /\ stype3 (ss v) = "LIN"%string) ->
  exists r, dget streqb rs (lit "dc") = Some (RDc r) /\ forall rows, r = Some rows ->
  let report := dc_report t es source rows in
  let at0 id := at_time id 0 in
  exists e x vals, In e parts /\ names_source source e /\ lin_axis a b ((b - a) / s + 1) = Ok x /\ collect lin_next (S (S (Z.to_nat (up ((b - a) / s + 1))))) x = Some vals /\
    SweepFacts.sub (map fst rows) vals /\ (skip = false -> map fst rows = vals) /\
    ((forall n, In n (node_list parts) -> slower source <> slower (lit "V" ++ n)) -> (forall id, In id (current_ids parts) -> slower source <> slower (lit "I(" ++ id ++ lit ")")) ->
     exists points, map q_value points = map fst rows /\
       (forall name, slower name = slower source -> report name = Ok (map q_value points)) /\
       (forall n name, In n (node_list parts) -> n <> lit "0" -> slower name = slower (lit "V" ++ n) -> report name = Ok (map (fun p => q_V p n) points)) /\
       (forall id name, In id (current_ids parts) -> slower name = slower (lit "I(" ++ id ++ lit ")") -> report name = Ok (map (fun p => q_I p id) points)) /\
       Forall (fun p => exists V' I' (flag : bool) s g, settled tol parts (q_V p) (q_I p) V' I' /\ stage o (if flag then 0 else gmin) s g /\ nl_laws square current tol (fun q => s * swept at0 (pid e) (q_value p) q) g 0 parts V' I' (fun _ => 0) (fun _ => 0)) points).
Proof.
  intros solve csolve JT locked o tdo damp_first maxit acit trit fuel topt cmin gmin at_time guess skip inv modules has_module rounds settings rest icmod tol
    fs user depth files filename parts t es rs dirs check M DI US SO HD DM square current stamp conductance DEV before line after words source a b s BLA A LAST PS QA QB QS TYPE.
  edestruct C212_dc as (LD & r & es' & RUN & DG); [exact M|exact DI|exact BLA|exact A|exact LAST|exact PS|exact QA|exact QB|exact QS|exact TYPE|]. destruct (C209_load _ _ _ _ _ _ US LD) as (other & OT & LD').
  exists r. split; [exact DG|]. intros rows ->.
  destruct (C201_dc_devices fs other files filename parts t es LD' OT SO HD square current stamp conductance JT DEV (fun id => at_time id 0)
    solve tol locked o tdo maxit fuel gmin guess skip a b s source None rows es' DM RUN) as (_ & H). exact H.
Qed.
Print Assumptions C218_dc.

(** A transient with [uic=1] after an operating point. *)
Theorem C218_tran : forall solve csolve JT locked o tdo damp_first maxit acit trit fuel topt cmin gmin at_time guess skip inv modules has_module rounds settings rest icmod tol
    fs user depth files filename parts t es rs dirs,
  let check x dx r := convergence_check tol (op_size t es) x dx r (get_nodes_number t - 1) in
  main_file solve csolve JT check locked o tdo damp_first maxit acit trit fuel topt cmin gmin at_time guess skip inv modules has_module rounds settings rest icmod
    fs user depth files filename = Ok (parts, t, es, rs) -> directives fs files filename dirs ->
  (forall line l, user line = Ok l -> Forall word_names l) ->
  Forall (nl_sound parts) parts -> has_device parts -> 0 < d_max tdo ->
  forall square current stamp conductance, (forall x, devices square current stamp conductance t parts x = Ok (JT x)) ->
  forall before1 opline before2 line after owords words a s b m, dirs = (before1 ++ opline :: before2 ++ line :: after)%list ->
  asks "op" opline owords -> Forall (fun l => ~ of_type "op" l) before2 -> asks "tran" line words -> Forall (fun l => ~ of_type "tran" l) after -> Forall (fun l => ~ of_type "op" l) after ->
  quantity "tstep" (Some 0)%nat words s -> quantity "tstop" (Some 1)%nat words b -> quantity "tstart" None words a \/ (absent "tstart" None words /\ a = 0) ->
  (exists v, parameter "method" None words v /\ m = Some (ss v)) \/ (absent "method" None words /\ m = None) -> uses_ic words 1 -> 0 < s ->
  exists q r, dget streqb rs (lit "op") = Some (ROp q) /\ dget streqb rs (lit "tran") = Some (RTran r) /\ forall x flag rows, q = Some (x, flag) -> r = Some rows ->
  let report := tran_report t es rows in
  let src time := driven (fun id => at_time id time) written_dc in
  exists d start points V' I' s g, choose_df has_module (tran_method settings m) = Ok d /\
    nl_marches square current tol o src gmin (Rmax 0 cmin) parts d (rev (start :: points)) /\
    p_t start = a /\ points <> [] /\ b <= last_from a (map p_t points) /\
    (* the start is the reported operating point, near to the laws *)
    (forall n name, In n (node_list parts) -> n <> lit "0" -> slower name = slower (lit "V" ++ n) -> op_report t es x name = Ok (p_V start n)) /\
    (forall id name, In id (current_ids parts) -> slower name = slower (lit "I(" ++ id ++ lit ")") -> op_report t es x name = Ok (p_I start id)) /\
    (exists V I, (forall n, In n (node_list parts) -> n <> lit "0" -> V n = p_V start n) /\ (forall id, In id (current_ids parts) -> I id = p_I start id) /\
      settled tol parts V I V' I' /\ stage o (if flag then 0 else gmin) s g /\ nl_laws square current tol (fun e => s * dc_source (fun id => at_time id 0) e) g 0 parts V' I' (fun _ => 0) (fun _ => 0)) /\
    (forall name, slower name = lit "t" -> report name = Ok (map p_t points)) /\
    (forall n name, In n (node_list parts) -> n <> lit "0" -> slower name = slower (lit "V" ++ n) -> report name = Ok (map (fun p => p_V p n) points)) /\
    (forall id name, In id (current_ids parts) -> slower name = slower (lit "I(" ++ id ++ lit ")") -> report name = Ok (map (fun p => p_I p id) points)).
Proof.
  intros solve csolve JT locked o tdo damp_first maxit acit trit fuel topt cmin gmin at_time guess skip inv modules has_module rounds settings rest icmod tol
    fs user depth files filename parts t es rs dirs check M DI US SO HD DM square current stamp conductance DEV before1 opline before2 line after owords words a s b m BLA AO LO A LAST OLAST QS QB QA QM UIC SP.
  edestruct C212_tran with (before := (before1 ++ opline :: before2)%list) as (LD & x & r & RUN & DG & _ & _ & START & _); [exact M|exact DI|rewrite BLA, <- app_assoc; reflexivity|exact A|exact LAST|exact QS|exact QB|exact QA|exact QM|exact UIC|].
  destruct (START eq_refl before1 opline before2 owords eq_refl AO LO) as (y & q & OR & -> & OG). destruct (C209_load _ _ _ _ _ _ US LD) as (other & OT & LD').
  exists q, r. split; [exact (OG OLAST)|]. split; [exact DG|]. intros x flag rows -> ->.
  destruct (C198_nonlinear_tran fs other files filename parts t es LD' OT SO HD square current stamp conductance JT DEV solve tol locked o tdo trit fuel topt cmin gmin at_time inv modules has_module
    (tran_method settings m) (step_control settings true) a s b (Some x) rounds rows DM SP RUN) as (d & start & points & CD & MA & T0 & NE & LA & SV & SI & R1 & R2 & R3).
  destruct (C197_nonlinear fs other files filename parts t es LD' (fun line l H => Forall_impl _ (fun e He => proj1 He) (OT line l H)) SO HD square current stamp conductance JT DEV
    solve tol locked o tdo maxit fuel gmin (fun id => at_time id 0) y x flag DM OR) as (V & I & V' & I' & s' & g & RV & RI & SE & ST & LW).
  exists d, start, points, V', I', s', g. split; [exact CD|]. split; [exact MA|]. split; [exact T0|]. split; [exact NE|]. split; [exact LA|].
  split; [exact SV|]. split; [exact SI|]. split; [|split; [exact R1|split; [exact R2|exact R3]]].
  exists V, I. split; [|split; [|split; [exact SE|split; [exact ST|exact LW]]]].
  - intros n IN N0. specialize (SV n (lit "V" ++ n) IN N0 eq_refl). rewrite (RV n (lit "V" ++ n) IN N0 eq_refl : op_report t es (SimulateTran.tran_start (Some x)) (lit "V" ++ n) = _) in SV. congruence.
  - intros id IN. specialize (SI id _ IN eq_refl). rewrite (RI id _ IN eq_refl : op_report t es (SimulateTran.tran_start (Some x)) _ = _) in SI. congruence.
Qed.
Print Assumptions C218_tran.

(** The diode circuit of C197, in a run of the whole program. *)
Lemma clamp_load_all : load_all (fun _ => Some clamp) (fun _ => Err NetlistParseError) 1 1 (lit "f") = Ok (clamp_parts, shunt_t, clamp_es).
Proof.
  pose proof clamp_load as C. unfold load in C. unfold load_all.
  match goal with |- context [read_netlist ?a ?b ?c] => let r := eval vm_compute in (read_netlist a b c) in change (read_netlist a b c) with r in *; change (read_netlist a 1 c) with r in C end.
  cbn [bindr r_models r_lines r_subs map parse_subs fst snd] in *. exact C.
Qed.
Example C218_example : forall csolve locked damp_first acit trit topt cmin at_time skip inv modules has_module rounds settings rest, op_guess settings true = true ->
  exists rs x, main_file (fun _ => solve1) csolve cube_devices clamp_check locked PropsDc.default_opts (mkTd false false 1) damp_first 20 acit trit 30 topt cmin 0 at_time
      (fun _ _ => -1 / 2) skip inv modules has_module rounds settings rest (fun _ r => Ok r) (fun _ => Some clamp) (fun _ => Err NetlistParseError) 1 1 (lit "f")
    = Ok (clamp_parts, shunt_t, clamp_es, rs) /\
  dget streqb rs (lit "op") = Some (ROp (Some (x, true))) /\ op_report shunt_t clamp_es x (lit "VA") = Ok 1.
Proof.
  intros csolve locked damp_first acit trit topt cmin at_time skip inv modules has_module rounds settings rest OG.
  destruct (C197_example locked (at_dc at_time)) as (_ & _ & _ & x & RUN & Y). exists [(lit "op", ROp (Some (x, true)))], x.
  split; [|split; [reflexivity|exact Y]]. unfold main_file. rewrite clamp_load_all. cbn [bindr].
  assert (DR : exists s, read_netlist (fun _ => Some clamp) 1 (lit "f") = Ok s /\ map fst (r_dirs s) = [lit ".op"]) by (eexists; split; [vm_compute; reflexivity|reflexivity]).
  destruct DR as (s & -> & DR). cbn [bindr]. cbv zeta. rewrite DR.
  change (parse_ics [lit ".op"]) with (@Ok (list (Directive.val * list (str * Directive.val))) []). cbn [bindr ic_vectors mapr concat].
  assert (PA : parse_analysis [lit ".op"] = Ok [[(lit "type", VStr (lit "op")); (lit "guess", VBool true); (lit "x0", VNone)]]) by (vm_compute; reflexivity). rewrite PA. cbn [bindr map].
  fold op_an. change [as_an op_an] with (map as_an [op_an]).
  rewrite (one_op _ (clamp_parts, shunt_t, clamp_es) _ _ (ROp (Some (x, true))) (ROp (Some (x, true)))); [reflexivity| |reflexivity].
  unfold exec. change (streqb (lit "op") (lit "op")) with true. cbv iota. cbn [start_of bindr].
  change (dget streqb op_an (lit "guess")) with (Some (VBool true)). cbn [bindr]. rewrite OG, RUN. reflexivity.
Qed.
