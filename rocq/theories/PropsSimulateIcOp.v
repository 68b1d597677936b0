(** Transients that start from the operating point and the conditions of the elements (C217). *)
From Coq Require Import Ascii String Reals List Bool Arith ZArith Lia Lra.
From Verif Require Import Base BaseFacts Str Units Directive Lines Reader Netlist ModelLines Nodes NodesFacts Circuit CircuitFacts Rsum Mna MnaSpec DcSolve Newton
  NewtonFacts DynFacts Df Tran TranFacts PropsTran Ac AcFacts Sweep Csv PropsCsv Results PropsDirective PropsReader PropsNetlist PropsResults PropsMna PropsDc PropsAc Session PropsSetup
  RunQueue Ics PropsIcs Subckt PropsSubckt Simulate PropsSimulate SimulateAc PropsSimulateAc SimulateDc PropsSimulateDc SimulateTran PropsSimulateTran
  SimulateSub PropsSimulateSub PropsSimulateHier PropsSimulateSubLaws PropsSimulateOp SimulateMain PropsSimulateMain PropsSimulateIc SimulateIc.
Import ListNotations.
Open Scope R_scope.

(** * Specification *)

(** The capacitor (a, b) starts with the voltage v, which is not zero. *)
Definition charged (e : pelem) (a b : str) (v : R) : Prop := exists id c d, e = PC id a b c (Some d) /\ v = dR d /\ v <> 0.
(** The inductor starts with the current i, which is not zero. *)
Definition magnetised (e : pelem) (id : str) (i : R) : Prop := exists a b l d, e = PL id a b l (Some d) /\ i = dR d /\ i <> 0.
(** The charged capacitors are not connected to ground, and the first node of one is not a
    first node of a later one, nor is its second node. *)
Definition floating (parts : list pelem) : Prop :=
  forall before e after a b v, parts = (before ++ e :: after)%list -> charged e a b v ->
    a <> lit "0" /\ b <> lit "0" /\ a <> b /\ forall e' a' b' v', In e' after -> charged e' a' b' v' -> a' <> a /\ a' <> b.

(** * Lemmas *)
Lemma place_at : forall t n i, at_node t n i -> place_of t n = i.
Proof. intros t n i A. unfold place_of. rewrite A. reflexivity. Qed.
Lemma sets_charged : forall parts t e i j v, ac_sound parts e -> sets (ic_elem t e) = Some (i, j, v) -> exists a b, charged e a b v /\ i = place_of t a /\ j = place_of t b.
Proof.
  intros parts t e i j v (S & _) H. destruct e; cbn [ic_elem sets] in H; try discriminate H.
  - destruct ic as [d|]; cbn [option_map] in H; [|discriminate H]. destruct (Req_EM_T (dR d) 0) as [|N]; [discriminate H|]. injection H as <- <- <-.
    exists n1, n2. split; [|split; reflexivity]. exists id, v0, d. auto.
  - exfalso. cbn [sound] in S. exact S.
Qed.
Lemma charged_sets : forall t e a b v, charged e a b v -> sets (ic_elem t e) = Some (place_of t a, place_of t b, v).
Proof. intros t e a b v (id & c & d & -> & -> & N). cbn [ic_elem sets option_map]. destruct (Req_EM_T (dR d) 0); [congruence|reflexivity]. Qed.
Lemma ivde_current : forall t e, is_ivde (ic_elem t e) = has_current e.
Proof. intros t e. destruct e; reflexivity. Qed.
Lemma ivde_count : forall t l, List.length (filter is_ivde (map (ic_elem t) l)) = List.length (current_ids l).
Proof. intros t l. unfold current_ids. rewrite map_length. induction l as [|e l IH]; [reflexivity|]. cbn [map filter]. rewrite ivde_current. destruct (has_current e); cbn [List.length]; rewrite ?IH; reflexivity. Qed.

(** * C217 *)

(** A transient with [uic=2] after an operating point: capacitors and inductors with an initial
    condition start from it, everything else from the operating point. *)
Theorem C217_conditions_guarded : forall solve csolve JT check locked o tdo damp_first maxit acit trit fuel topt cmin gmin at_time guess skip inv modules has_module rounds settings rest
    fs user depth files filename parts t es rs dirs before1 opline before2 line after owords words a s b m,
  main_file solve csolve JT check locked o tdo damp_first maxit acit trit fuel topt cmin gmin at_time guess skip inv modules has_module rounds settings rest icmodified
    fs user depth files filename = Ok (parts, t, es, rs) -> directives fs files filename dirs -> dirs = (before1 ++ opline :: before2 ++ line :: after)%list ->
  asks "op" opline owords -> Forall (fun l => ~ of_type "op" l) before2 -> asks "tran" line words -> Forall (fun l => ~ of_type "tran" l) after -> Forall (fun l => ~ of_type "op" l) after ->
  quantity "tstep" (Some 0)%nat words s -> quantity "tstop" (Some 1)%nat words b -> quantity "tstart" None words a \/ (absent "tstart" None words /\ a = 0) ->
  (exists v, parameter "method" None words v /\ m = Some (ss v)) \/ (absent "method" None words /\ m = None) -> uses_ic words 2 -> 0 < s ->
  (forall line l, user line = Ok l -> Forall word_names l) ->
  Forall (ac_sound parts) parts -> (forall k, 0 < k -> tr_regular k gmin (Rmax 0 cmin) parts) -> floating parts ->
  solver_ok solve (op_size t es) -> d_first tdo = false -> (0 < trit)%nat -> (0 < fuel)%nat -> o_std o = true ->
  exists q r, dget streqb rs (lit "op") = Some (ROp q) /\ dget streqb rs (lit "tran") = Some (RTran r) /\ forall x flag rows, q = Some (x, flag) -> r = Some rows ->
  let report := tran_report t es rows in
  let src time := driven (fun id => at_time id time) written_dc in
  exists d start points, choose_df has_module (tran_method settings m) = Ok d /\
    marches src gmin (Rmax 0 cmin) parts d (rev (start :: points)) /\ p_t start = a /\ points <> [] /\ b <= last_from a (map p_t points) /\
    (* what is written holds *)
    (forall e a b v, In e parts -> charged e a b v -> p_V start a - p_V start b = v) /\
    (forall e id i, In e parts -> magnetised e id i -> p_I start id = i) /\
    (* the rest is from the operating point *)
    (forall n name, In n (node_list parts) -> n <> lit "0" -> (forall e b v, In e parts -> ~ charged e n b v) -> slower name = slower (lit "V" ++ n) -> op_report t es x name = Ok (p_V start n)) /\
    (forall id name, In id (current_ids parts) -> (forall e i, In e parts -> ~ magnetised e id i) -> slower name = slower (lit "I(" ++ id ++ lit ")") -> op_report t es x name = Ok (p_I start id)) /\
    (forall name, slower name = lit "t" -> report name = Ok (map p_t points)) /\
    (forall n name, In n (node_list parts) -> n <> lit "0" -> slower name = slower (lit "V" ++ n) -> report name = Ok (map (fun p => p_V p n) points)) /\
    (forall id name, In id (current_ids parts) -> slower name = slower (lit "I(" ++ id ++ lit ")") -> report name = Ok (map (fun p => p_I p id) points)).
Proof.
  intros solve csolve JT check locked o tdo damp_first maxit acit trit fuel topt cmin gmin at_time guess skip inv modules has_module rounds settings rest
    fs user depth files filename parts t es rs dirs before1 opline before2 line after owords words a s b m M DI BLA AO LO A LAST OLAST QS QB QA QM UIC SP US SC REG FLO (S1 & S2) DF TX FU OS.
  edestruct tran_from with (before := (before1 ++ opline :: before2)%list) as (LD & x & r & RUN & DG & _ & _ & _ & K2 & _); [exact M|exact DI|rewrite BLA, <- app_assoc; reflexivity|exact A|exact LAST|exact QS|exact QB|exact QA|exact QM|exact UIC|].
  destruct (K2 eq_refl before1 opline before2 owords eq_refl AO LO) as (y0 & q & ri & OR & IM & SV & OG).
  destruct (C209_load _ _ _ _ _ _ US LD) as (other & OT & LD').
  exists q, r. split; [exact (OG OLAST)|]. split; [exact DG|]. intros x' flag rows -> ->. destruct fuel as [|fuel'] eqn:EF; [lia|].
  cbn [icmodified] in IM. injection IM as <-. cbn [start_of] in SV. injection SV as <-. set (y := modify_x0 (get_nodes_number t) (map (ic_elem t) parts) x') in *.
  destruct (C196_tran fs other files filename parts t es LD' OT SC solve JT check locked o tdo trit fuel' topt cmin gmin at_time inv modules has_module (tran_method settings m) (step_control settings true)
      a s b (Some y) rounds rows S1 S2 DF TX OS SP REG RUN) as (d & start & points & CD & MA & T0 & NE & LA & SV & SI & R1 & R2 & R3).
  exists d, start, points. split; [exact CD|]. split; [exact MA|]. split; [exact T0|]. split; [exact NE|]. split; [exact LA|].
  assert (OL : forall line l, other line = Ok l -> Forall lower_case l) by (intros ln l H; eapply Forall_impl; [|exact (OT ln l H)]; intros q He; apply He).
  assert (OP : forall line l, other line = Ok l -> Forall PropsSimulateAc.plain_names l) by (intros ln l H; eapply Forall_impl; [|exact (OT ln l H)]; intros q He; apply He).
  assert (SO : Forall (proper parts) parts).
  { pose proof (load_lower _ _ _ _ _ _ _ OL LD') as LC. apply Forall_forall. rewrite Forall_forall in SC, LC. intros q H. split; [auto|apply SC; exact H]. }
  pose proof (load_plain _ _ _ _ _ _ _ OP LD') as PN. destruct (load_facts _ _ _ _ _ _ _ LD') as (G & NV & PL_ & ND & MEN).
  destruct (result_names t parts es G PL_ SO PN ND MEN) as (ns & NS & LN & DN & PNS & IDS & DID & PIS & LEN & REGD & IDX).
  pose proof (grounded_number t G) as NZ. set (nv := get_nodes_number t) in *.
  assert (SZ : op_size t es = (List.length ns + List.length (current_ids parts))%nat) by (unfold op_size; fold nv; lia).
  destruct (op_values t es ns (current_ids parts) y NS IDS DN DID SZ) as (O1 & O2). destruct (op_values t es ns (current_ids parts) x' NS IDS DN DID SZ) as (P1 & P2).
  assert (NDI : NoDup (current_ids parts)) by (unfold PropsResults.distinct in DID; apply NoDup_map_inv in DID; exact DID).
  assert (YV : forall n k, In n (node_list parts) -> n <> lit "0" -> nth_error ns k = Some n -> p_V start n = y k).
  { intros n k IN N0 NK. pose proof (SV n (lit "V" ++ n)%list IN N0 eq_refl) as EV. rewrite (O1 k n _ NK eq_refl : op_report t es (SimulateTran.tran_start (Some y)) _ = _) in EV. congruence. }
  assert (YI : forall id k, nth_error (current_ids parts) k = Some id -> p_I start id = y (List.length ns + k)%nat).
  { intros id k NK. pose proof (SI id (lit "I(" ++ id ++ lit ")")%list (nth_error_In _ _ NK) eq_refl) as EV.
    rewrite (O2 k id _ NK eq_refl : op_report t es (SimulateTran.tran_start (Some y)) _ = _) in EV. congruence. }
  assert (CN : forall e a b v, In e parts -> charged e a b v -> In a (node_list parts) /\ In b (node_list parts)).
  { intros e a0 b0 v I (id & c & dd & -> & _). unfold node_list. split; apply in_flat_map; eexists; (split; [exact I|cbn [nodes_in]; cbn; auto]). }
  assert (FL : forall e a b v, In e parts -> charged e a b v -> a <> lit "0" /\ b <> lit "0" /\ a <> b).
  { intros e a0 b0 v I C. destruct (in_split _ _ I) as (p1 & p2 & E). destruct (FLO p1 e p2 a0 b0 v E C) as (F1 & F2 & F3 & _). auto. }
  assert (PO : forall n, In n (node_list parts) -> n <> lit "0" -> exists k, nth_error ns k = Some n /\ at_node t n (S k) /\ place_of t n = S k /\ (k < nv - 1)%nat).
  { intros n IN N0. destruct (IDX n IN N0) as (k & NK & AK). exists k. split; [exact NK|]. split; [exact AK|]. split; [exact (place_at t n (S k) AK)|]. rewrite <- LN. apply nth_error_Some. congruence. }
  rewrite Forall_forall in SC.
  assert (DIFF : forall n n', In n (node_list parts) -> In n' (node_list parts) -> n <> n' -> place_of t n <> place_of t n').
  { intros n n' I1 I2 D E. destruct (REGD n I1) as (i & Ai). destruct (REGD n' I2) as (j & Aj). rewrite (place_at _ _ _ Ai), (place_at _ _ _ Aj) in E. subst j. exact (D (at_node_inj t n n' i (proj1 G) Ai Aj)). }
  destruct (C35_conditions_hold_guarded nv (map (ic_elem t) parts) x') as (Y1 & Y2 & Y3 & Y4).
  { apply Forall_map. apply Forall_forall. intros e I i j v H. destruct (sets_charged parts t e i j v (SC e I) H) as (a0 & b0 & C & -> & ->).
    destruct (CN e a0 b0 v I C) as (IA & IB). destruct (FL e a0 b0 v I C) as (F1 & F2 & F3).
    destruct (PO a0 IA F1) as (ka & _ & _ & -> & KA). destruct (PO b0 IB F2) as (kb & _ & _ & -> & KB). lia. }
  { intros es1 ie es2 i j v E H. apply map_eq_app in E. destruct E as (p1 & pr & E & E1 & E2). destruct pr as [|e p2]; [discriminate E2|]. cbn [map] in E2. injection E2 as <- <-.
    assert (I : In e parts) by (rewrite E; apply in_or_app; right; left; reflexivity).
    destruct (sets_charged parts t e i j v (SC e I) H) as (a0 & b0 & C & -> & ->). destruct (CN e a0 b0 v I C) as (IA & IB). destruct (FLO p1 e p2 a0 b0 v E C) as (F1 & F2 & F3 & F4).
    split; [exact (DIFF a0 b0 IA IB F3)|]. apply Forall_map. apply Forall_forall. intros e' I' i' j' v' H'.
    assert (IP : In e' parts) by (rewrite E; apply in_or_app; right; right; exact I').
    destruct (sets_charged parts t e' i' j' v' (SC e' IP) H') as (a1 & b1 & C1 & -> & ->). destruct (CN e' a1 b1 v' IP C1) as (IA1 & IB1). destruct (F4 e' a1 b1 v' I' C1) as (G1 & G2).
    split; [exact (DIFF a1 a0 IA1 IA G1)|exact (DIFF a1 b0 IA1 IB G2)]. }
  fold y in Y1, Y2, Y3, Y4. split; [|split; [|split; [|split; [|split; [exact R1|split; [exact R2|exact R3]]]]]].
  - intros e a0 b0 v I C. destruct (CN e a0 b0 v I C) as (IA & IB). destruct (FL e a0 b0 v I C) as (F1 & F2 & F3).
    destruct (PO a0 IA F1) as (ka & NA & _ & PA & KA). destruct (PO b0 IB F2) as (kb & NB & _ & PB & KB).
    pose proof (Y1 (ic_elem t e) _ _ v (in_map (ic_elem t) _ _ I) (charged_sets t e a0 b0 v C)) as Q. rewrite PA, PB in Q. rewrite !Nat.sub_succ, !Nat.sub_0_r in Q.
    rewrite (YV a0 ka IA F1 NA), (YV b0 kb IB F2 NB). exact Q.
  - intros e id i I (a0 & b0 & l & dd & -> & -> & N). destruct (in_split _ _ I) as (p1 & p2 & E).
    assert (NK : nth_error (current_ids parts) (List.length (current_ids p1)) = Some id).
    { rewrite E. unfold current_ids. rewrite filter_app, map_app. cbn [filter has_current map pid]. rewrite nth_error_app2 by lia. rewrite Nat.sub_diag. reflexivity. }
    rewrite (YI id _ NK), LN. rewrite <- (ivde_count t p1). apply (Y2 (map (ic_elem t) p1) (dR dd) (map (ic_elem t) p2)); [|exact N]. rewrite E, map_app. reflexivity.
  - intros n name IN N0 NC EN. destruct (PO n IN N0) as (k & NK & AK & PK_ & KK). rewrite (P1 k n name NK EN), (YV n k IN N0 NK). f_equal. symmetry. apply Y3; [exact KK|].
    intros ie i j v H ST. apply in_map_iff in H. destruct H as (e & <- & I). destruct (sets_charged parts t e i j v (SC e I) ST) as (a0 & b0 & C & -> & ->).
    destruct (CN e a0 b0 v I C) as (IA & IB). destruct (FL e a0 b0 v I C) as (F1 & _). destruct (PO a0 IA F1) as (ka & NA & AA & -> & KA). intros Q. rewrite Nat.sub_succ, Nat.sub_0_r in Q. subst ka.
    assert (a0 = n) by congruence. subst a0. exact (NC e b0 v I C).
  - intros id name IN NM EN. destruct (In_nth_error _ _ IN) as (k & NK). rewrite (P2 k id name NK EN), (YI id k NK), LN. f_equal. symmetry. apply Y4.
    intros es1 ic es2 E N. apply map_eq_app in E. destruct E as (p1 & pr & E & <- & E2). destruct pr as [|e p2]; [discriminate E2|]. cbn [map] in E2. injection E2 as E2 _.
    rewrite ivde_count. intros ->. destruct e; try discriminate E2. cbn [ic_elem] in E2. destruct ic0 as [dd|]; [|discriminate E2]. cbn [option_map] in E2. injection E2 as E2.
    assert (id0 = id). { rewrite E in NK. unfold current_ids in NK. rewrite filter_app, map_app in NK. cbn [filter has_current map pid] in NK. rewrite nth_error_app2 in NK by lia. rewrite Nat.sub_diag in NK. injection NK as ->. reflexivity. }
    subst id0. apply (NM (PL id n1 n2 v (Some dd)) (dR dd)); [rewrite E; apply in_or_app; right; left; reflexivity|]. exists n1, n2, v, dd. split; [reflexivity|]. split; [reflexivity|]. rewrite E2. exact N.
Qed.
Print Assumptions C217_conditions_guarded.

(** Ground is not an unknown: its voltage is taken to be the last unknown, here the current of
    the voltage source.  The capacitor is said to start with 5 V, and starts with 4.5 V. *)
Definition grounded_file : list str :=
  map lit ["lowpass"; "v1 b 0 type=vdc vdc=1"; "r1 b a 1"; "r2 a 0 1"; "c1 a 0 1 ic=5"; ".op"; ".tran 1u 10u uic=2"]%string.
Definition grounded_parts : list pelem :=
  [PV (lit "v1") (lit "b") (lit "0") (Some (1, 0)%Z) None None; PR (lit "r1") (lit "b") (lit "a") (1, 0)%Z; PR (lit "r2") (lit "a") (lit "0") (1, 0)%Z;
   PC (lit "c1") (lit "a") (lit "0") (1, 0)%Z (Some (5, 0)%Z)].
Lemma grounded_load : exists t es, load_all (fun _ => Some grounded_file) (fun _ => Err NetlistParseError) 1 1 (lit "f") = Ok (grounded_parts, t, es) /\
  get_nodes_number t = 3%nat /\ map (ic_elem t) grounded_parts = [IOther true; IOther false; IOther false; ICap 2 0 (Some 5)] /\
  (forall x, op_report t es x (lit "va") = Ok (x 1%nat)) /\ (forall x, op_report t es x (lit "i(v1)") = Ok (x 2%nat)).
Proof.
  do 2 eexists. split; [|split; [|split; [|split]]].
  - unfold load_all.
    match goal with |- context [read_netlist ?a ?b ?c] => let r := eval vm_compute in (read_netlist a b c) in change (read_netlist a b c) with r end. cbn [bindr r_models r_lines r_subs map parse_models fst snd].
    match goal with |- context [parse_subs ?a ?b] => let r := eval vm_compute in (parse_subs a b) in change (parse_subs a b) with r end. cbn [bindr]. cbv zeta.
    match goal with |- context [main_netlist_parser ?a ?b ?c ?d] => let r := eval vm_compute in (main_netlist_parser a b c d) in change (main_netlist_parser a b c d) with r end. cbn [bindr].
    cbv -[dR]. reflexivity.
  - reflexivity.
  - cbn [map ic_elem grounded_parts option_map]. rewrite dR_0. reflexivity.
  - intros x. reflexivity.
  - intros x. reflexivity.
Qed.
Theorem C217_grounded_refuted : exists t es, load_all (fun _ => Some grounded_file) (fun _ => Err NetlistParseError) 1 1 (lit "f") = Ok (grounded_parts, t, es) /\
  In (PC (lit "c1") (lit "a") (lit "0") (1, 0)%Z (Some (5, 0)%Z)) grounded_parts /\
  (forall at0, laws (dc_source at0) (fun n => if streqb n (lit "b") then 1 else if streqb n (lit "a") then 1/2 else 0) (fun _ => -1/2) grounded_parts) /\
  forall x flag, op_report t es x (lit "va") = Ok (1/2) -> op_report t es x (lit "i(v1)") = Ok (-1/2) ->
    exists y, icmodified (grounded_parts, t, es) (ROp (Some (x, flag))) = Ok (RVec y) /\ op_report t es y (lit "va") = Ok (9/2).
Proof.
  destruct grounded_load as (t & es & LD & NV & IC & RA & RI). exists t, es. split; [exact LD|]. split; [cbn; auto|]. split.
  - intros at0. split; [reflexivity|]. split.
    + intros n. unfold grounded_parts. cbn [leaving]. unfold leaving1. cbn [first_end second_end through]. at_names. rewrite ?dR_0.
      destruct (streqb n (lit "b")) eqn:E1, (streqb n (lit "0")) eqn:E2, (streqb n (lit "a")) eqn:E3; cbv iota; try lra;
        unfold streqb in *; destruct (list_eq_dec ascii_dec n (lit "b")), (list_eq_dec ascii_dec n (lit "0")), (list_eq_dec ascii_dec n (lit "a")); subst; try discriminate.
    + repeat constructor. cbn [law dc_source driven written_dc]. at_names. rewrite dR_0. lra.
  - intros x flag XA XI. rewrite RA in XA. rewrite RI in XI. injection XA as XA. injection XI as XI. eexists. split; [reflexivity|]. rewrite RA, NV, IC. f_equal.
    unfold modify_x0, ic_voltage, truthy. cbn. destruct (Req_EM_T 5 0); [lra|]. unfold vset. cbn. rewrite XI. lra.
Qed.
Print Assumptions C217_grounded_refuted.

(** With the capacitor between two nodes all is well. *)
Definition floating_file : list str :=
  map lit ["highpass"; "v1 b 0 type=vdc vdc=1"; "c1 a b 1 ic=5"; "r1 a 0 1"; "l1 a 0 1 ic=2"; ".op"; ".tran 1u 10u uic=2"]%string.
Definition floating_parts : list pelem :=
  [PV (lit "v1") (lit "b") (lit "0") (Some (1, 0)%Z) None None; PC (lit "c1") (lit "a") (lit "b") (1, 0)%Z (Some (5, 0)%Z); PR (lit "r1") (lit "a") (lit "0") (1, 0)%Z;
   PL (lit "l1") (lit "a") (lit "0") (1, 0)%Z (Some (2, 0)%Z)].
Example C217_example : floating floating_parts /\ charged (nth 1 floating_parts (PR [] [] [] (0, 0)%Z)) (lit "a") (lit "b") 5 /\
  exists t es, load_all (fun _ => Some floating_file) (fun _ => Err NetlistParseError) 1 1 (lit "f") = Ok (floating_parts, t, es) /\
  forall x flag, exists y, icmodified (floating_parts, t, es) (ROp (Some (x, flag))) = Ok (RVec y) /\ op_report t es y (lit "va") = Ok (x 0%nat + 5) /\ op_report t es y (lit "vb") = Ok (x 0%nat) /\
    op_report t es y (lit "i(l1)") = Ok 2.
Proof.
  split; [|split].
  - intros before e after a b v E (id & c & d & -> & -> & N). unfold floating_parts in E. destruct before as [|? [|? before]]; [discriminate E| |].
    2:{ injection E as _ _ E. destruct before as [|? [|? [|? before]]]; discriminate E. }
    injection E as _ <- <- <- <- <- <-. split; [discriminate|]. split; [discriminate|]. split; [discriminate|]. intros e' a' b' v' [<-|[<-|[]]] (? & ? & ? & Q & _); discriminate Q.
  - exists (lit "c1"), (1, 0)%Z, (5, 0)%Z. split; [reflexivity|]. rewrite dR_0. split; lra.
  - do 2 eexists. split.
    + unfold load_all.
      match goal with |- context [read_netlist ?a ?b ?c] => let r := eval vm_compute in (read_netlist a b c) in change (read_netlist a b c) with r end. cbn [bindr r_models r_lines r_subs map parse_models fst snd].
      match goal with |- context [parse_subs ?a ?b] => let r := eval vm_compute in (parse_subs a b) in change (parse_subs a b) with r end. cbn [bindr]. cbv zeta.
      match goal with |- context [main_netlist_parser ?a ?b ?c ?d] => let r := eval vm_compute in (main_netlist_parser a b c d) in change (main_netlist_parser a b c d) with r end. cbn [bindr].
      cbv -[dR]. reflexivity.
    + intros x flag. eexists. split; [reflexivity|].
      match goal with |- context [map (ic_elem ?t) floating_parts] => assert (E : map (ic_elem t) floating_parts = [IOther true; ICap 2 1 (Some 5); IOther false; IInd (Some 2)])
        by (cbn [map ic_elem floating_parts option_map]; rewrite !dR_0; reflexivity); rewrite E end.
      unfold modify_x0, ic_voltage, truthy. cbn -[op_report]. destruct (Req_EM_T 5 0); [lra|]. destruct (Req_EM_T 2 0); [lra|].
      split; [reflexivity|]. split; reflexivity.
Qed.
