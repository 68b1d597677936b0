(** What the operating points of the program start from (C222). *)
From Coq Require Import Ascii String Reals List Bool Arith ZArith Lia Lra.
From Verif Require Import Base BaseFacts Str Units Directive Lines Reader Netlist ModelLines Nodes NodesFacts Circuit CircuitFacts Rsum Mna MnaSpec DcSolve Newton
  NewtonFacts DynFacts Df Tran TranFacts PropsTran Ac AcFacts Sweep Csv PropsCsv Results PropsDirective PropsReader PropsNetlist PropsResults PropsMna PropsDc PropsAc Session PropsSetup
  RunQueue Ics PropsIcs Subckt PropsSubckt Simulate PropsSimulate SimulateAc PropsSimulateAc SimulateDc PropsSimulateDc SimulateTran PropsSimulateTran SimulateNl PropsSimulateNl
  SimulateSub PropsSimulateSub PropsSimulateHier PropsSimulateSubLaws PropsSimulateOp SimulateMain PropsSimulateMain PropsSimulateIc.
Import ListNotations.
Open Scope R_scope.

(** The vector made from the conditions of a line, under the names of the results. *)
Lemma conditions_vector : forall fs user depth files filename parts t es conds e x,
  load_all fs user depth files filename = Ok (parts, t, es) -> (forall line l, user line = Ok l -> Forall word_names l) ->
  NoDup (map fst conds) ->
  Forall (fun c : str * str => (exists n, word n /\ In n (node_list parts) /\ fst c = of_node n) \/ (exists e, word e /\ In e (current_ids parts) /\ fst c = of_current e)) conds ->
  build_x0 t (map (fun e => list_ascii_of_string (lid e)) (filter is_vde es)) e = Ok x ->
  Forall2 (fun (c : str * str) (q : str * R) => fst q = fst c /\ exists x, convert_units (snd c) = Ok x /\ snd q = dR x) conds e ->
  (forall n name, In n (node_list parts) -> n <> lit "0" -> slower name = slower (lit "V" ++ n) -> exists v, op_report t es x name = Ok v /\ written_as conds (of_node n) v) /\
  (forall id name, In id (current_ids parts) -> slower name = slower (lit "I(" ++ id ++ lit ")") -> exists v, op_report t es x name = Ok v /\ written_as conds (of_current id) v).
Proof.
  intros fs user depth files filename parts t es conds e x1 LD US NDC FC BX F2.
  destruct (C209_load _ _ _ _ _ _ US LD) as (other & OT & LD').
  assert (OL : forall line l, other line = Ok l -> Forall lower_case l) by (intros ln l H; eapply Forall_impl; [|exact (OT ln l H)]; intros q He; apply He).
  pose proof (load_lower _ _ _ _ _ _ _ OL LD') as LC. pose proof (load_registered _ _ _ _ _ _ _ LD') as REGD. destruct (load_facts _ _ _ _ _ _ _ LD') as (G & NV & PL_ & ND & MEN).
  destruct (nl_names t parts es G PL_ LC ND MEN REGD) as (ns & NS & LN & DN & PNS & IDS & DID & PIS & LEN & IDX).
  pose proof (grounded_number t G) as NZ. set (nv := get_nodes_number t) in *.
  assert (SZ : op_size t es = (List.length ns + List.length (current_ids parts))%nat) by (unfold op_size; fold nv; lia).
  destruct (PropsSimulateTran.op_values t es ns (current_ids parts) x1 NS IDS DN DID SZ) as (O1 & O2). rewrite IDS in BX.
  assert (NDI : NoDup (current_ids parts)) by (unfold PropsResults.distinct in DID; apply NoDup_map_inv in DID; exact DID).
  set (Q := fun (l : str) (i : nat) => (exists n, l = of_node n /\ at_node t n i) \/ (exists id q, l = of_current id /\ nth_error (current_ids parts) q = Some id /\ i = (nv + q)%nat)).
  assert (RANGE : forall n i, at_node t n (S i) -> (S i < nv)%nat).
  { intros n i At. pose proof (MEN n (S i) At) as IN. destruct (list_eq_dec ascii_dec n (lit "0")) as [->|N0].
    - pose proof (at_node_fun t (lit "0") (S i) 0 At (proj2 G)). discriminate.
    - destruct (IDX n IN N0) as (k & NK & AK). pose proof (at_node_fun t n _ _ At AK) as E. assert (k < List.length ns)%nat by (apply nth_error_Some; congruence). lia. }
  destruct (vector_of t (current_ids parts) e x1 Q) as (W1 & W2).
  - rewrite (forall2_keys _ _ F2). exact NDC.
  - exact BX.
  - intros l w I. apply (in_map fst) in I. rewrite (forall2_keys _ _ F2) in I. cbn [fst] in I. apply in_map_iff in I. destruct I as (c & <- & I). rewrite Forall_forall in FC. pose proof (FC c I) as LB.
    destruct LB as [(n & W & IN & ->)|(id & W & IN & ->)].
    + destruct (REGD n IN) as (i & At). exists i. split; [|left; exists n; split; [reflexivity|exact At]]. apply (den_v t _ _ n i (node_label n W)). exact At.
    + apply In_nth_error in IN. destruct IN as (q & IN). exists (nv + q)%nat. split; [|right; exists id, q; repeat split; exact IN].
      apply (den_i t _ _ id id q (current_label id W) IN eq_refl). intros j e'' J H E.
      unfold PropsResults.distinct in DID. rewrite NoDup_nth_error in DID. specialize (DID j q). rewrite map_length, !nth_error_map, H, IN in DID. cbn [option_map] in DID. rewrite E in DID.
      assert (j < List.length (current_ids parts))%nat by (apply nth_error_Some; congruence). specialize (DID H0 eq_refl). lia.
  - intros l l' i [(n & -> & An)|(id & q & -> & Aq & Eq)] [(n' & -> & An')|(id' & q' & -> & Aq' & Eq')].
    + rewrite (at_node_inj t n n' (S i) (proj1 G) An An'). reflexivity.
    + pose proof (RANGE n i An). lia.
    + pose proof (RANGE n' i An'). lia.
    + assert (q = q') by lia. subst q'. congruence.
  - split.
    + intros n name IN N0 SN. destruct (IDX n IN N0) as (k & NK & AK). exists (x1 k). split; [exact (O1 k n name NK SN)|]. split.
      * intros w dd I CW. destruct (forall2_value _ _ _ _ F2 I) as (d' & CW' & I'). assert (d' = dd) by congruence. subst d'. apply (W1 (of_node n) (dR dd) k I').
        -- left. exists n. split; [reflexivity|exact AK].
        -- intros j [(n' & E & An)|(id & q & E & _)]; [|discriminate E]. rewrite (of_node_inj _ _ E) in AK. exact (at_node_fun t n' _ _ An AK).
      * intros NI. apply W2. intros l w I [(n' & -> & An)|(id & q & -> & Aq & Eq)].
        -- rewrite (at_node_inj t n n' (S k) (proj1 G) AK An) in NI. apply NI. rewrite <- (forall2_keys _ _ F2). apply (in_map fst) in I. exact I.
        -- pose proof (RANGE n k AK). lia.
    + intros id name IN SN. destruct (In_nth_error _ _ IN) as (q & NQ). exists (x1 (List.length ns + q)%nat). split; [exact (O2 q id name NQ SN)|]. split.
      * intros w dd I CW. destruct (forall2_value _ _ _ _ F2 I) as (d' & CW' & I'). assert (d' = dd) by congruence. subst d'. apply (W1 (of_current id) (dR dd) _ I').
        -- right. exists id, q. split; [reflexivity|]. split; [exact NQ|]. lia.
        -- intros j [(n' & E & _)|(id' & q' & E & NQ' & ->)]; [discriminate E|]. rewrite <- (of_current_inj _ _ E) in NQ'. rewrite NoDup_nth_error in NDI.
           assert (LT : (q' < List.length (current_ids parts))%nat) by (apply nth_error_Some; congruence). specialize (NDI q' q LT ltac:(congruence)). lia.
      * intros NI. apply W2. intros l w I [(n' & -> & An)|(id' & q' & -> & Aq & Eq)].
        -- pose proof (RANGE n' _ An). lia.
        -- assert (q' = q) by lia. subst q'. assert (id' = id) by congruence. subst id'. apply NI. rewrite <- (forall2_keys _ _ F2). apply (in_map fst) in I. exact I.
Qed.

(** Whether the guess is wanted: not if the line says no. *)
Definition wants_guess (words : list str) (b : bool) : Prop :=
  (absent "guess" None words /\ b = true) \/
  exists v, parameter "guess" None words v /\ (if b then In v [lit "yes"; lit "true"; lit "1"] else In v [lit "no"; lit "false"; lit "0"]).

(** * C222 *)
Theorem C222_op_start : forall solve csolve JT check locked o tdo damp_first maxit acit trit fuel topt cmin gmin at_time guess skip inv modules has_module rounds settings rest icmod
    fs user depth files filename parts t es rs dirs before line after words,
  main_file solve csolve JT check locked o tdo damp_first maxit acit trit fuel topt cmin gmin at_time guess skip inv modules has_module rounds settings rest icmod
    fs user depth files filename = Ok (parts, t, es, rs) -> directives fs files filename dirs -> dirs = (before ++ line :: after)%list ->
  asks "op" line words -> Forall (fun l => ~ of_type "op" l) after ->
  (forall line l, user line = Ok l -> Forall word_names l) ->
  exists x r, dget streqb rs (lit "op") = Some (ROp r) /\ op_run solve JT check locked o tdo maxit fuel gmin (fun id => at_time id 0) t es x = Ok r /\
    (* without a name, from the guess, or from zero *)
    (absent "ic_label" None words -> forall g, wants_guess words g -> x = if op_guess settings g then guess es else vzero) /\
    (* with a name, from what is written in the .ic line of that name, wherever it stands; the guess does not matter *)
    (forall name icline conds, parameter "ic_label" None words name -> name <> lit "op" -> name <> lit "op+ic" -> ic_line parts icline name conds -> only_line dirs icline name ->
      (forall n nm, In n (node_list parts) -> n <> lit "0" -> slower nm = slower (lit "V" ++ n) -> exists v, op_report t es x nm = Ok v /\ written_as conds (of_node n) v) /\
      (forall id nm, In id (current_ids parts) -> slower nm = slower (lit "I(" ++ id ++ lit ")") -> exists v, op_report t es x nm = Ok v /\ written_as conds (of_current id) v)) /\
    (* with the name op, from the operating point before it *)
    (parameter "ic_label" None words (lit "op") -> forall before1 opline before2 owords, before = (before1 ++ opline :: before2)%list -> asks "op" opline owords ->
      Forall (fun l => ~ of_type "op" l) before2 ->
      exists y q, op_run solve JT check locked o tdo maxit fuel gmin (fun id => at_time id 0) t es y = Ok q /\ forall z flag, q = Some (z, flag) -> x = z).
Proof.
  intros solve csolve JT check locked o tdo damp_first maxit acit trit fuel topt cmin gmin at_time guess skip inv modules has_module rounds settings rest icmod
    fs user depth files filename parts t es rs dirs before line after words M DI BLA A LAST US.
  assert (IC : is_ic line = false) by (apply (asks_ic "op" line words A); intros x Q; discriminate Q).
  edestruct main_line as (LD & ics & xs0 & pre & an & post & xs & x0 & r & PI_ & IV & PPRE & PL_ & _ & ST & BE & EX & DG & OG); [exact M|exact DI|exact BLA|exact IC|].
  assert (ND : ~ In c_dot (lit "op")) by (cbn; intuition discriminate). assert (LO : slower (lit "op") = lit "op") by reflexivity.
  pose proof (type_of "op" line words an A ND LO PL_) as TY. rewrite TY in EX, DG.
  destruct (single_line line "op" words an A PL_ ND LO) as (tbl & an1 & IT & P & _ & SAME & _). specialize (SAME ltac:(discriminate) ltac:(discriminate)). subst an1.
  assert (TB : tbl = Directive.op_table) by (cbn in IT; repeat (destruct IT as [IT|IT]; [try discriminate IT; congruence|]); destruct IT). rewrite TB in IT, P.
  unfold exec in EX. change (streqb (lit "op") (lit "op")) with true in EX. cbv iota in EX.
  apply bindr_Ok in EX. destruct EX as (x & SX & EX). apply bindr_Ok in EX. destruct EX as (g & G & EX). apply bindr_Ok in EX. destruct EX as (r' & OR & E). injection E as <-.
  assert (TXT : forall name, parameter "ic_label" None words name -> exists v, dget streqb xs name = Some v /\ start_of (Some v) = Ok x).
  { intros name PN. destruct (parameter_value _ _ _ _ _ "ic_label" _ name _ IT P PN ltac:(unfold no_equals; cbn; intuition discriminate) ltac:(right; left; reflexivity) eq_refl eq_refl) as (x7 & X7 & D7).
    match type of X7 with convert ?w _ = _ => assert (X7' : Ok (VStr w) = Ok x7) by exact X7 end. injection X7' as <-. cbn [s_dest sp] in D7.
    unfold begins_at, as_an in BE. cbn [a_x0] in BE. rewrite D7 in BE. destruct BE as (v & DV & ->). exists v. split; [exact DV|exact SX]. }
  eexists. exists r'. split; [apply DG; rewrite Forall_forall in LAST |- *; intros l L; exact (not_of "op" l (LAST l L))|]. split; [exact OR|]. split; [|split].
  - intros AX gg W. pose proof (absent_value _ _ _ _ _ "ic_label" None _ IT P AX ltac:(right; left; reflexivity) eq_refl eq_refl) as D2. cbn [s_dest s_default sp] in D2.
    unfold begins_at, as_an in BE. cbn [a_x0] in BE. rewrite D2 in BE. subst x0. injection SX as <-.
    assert (GG : g = gg).
    { destruct W as [(AG & ->)|(v & PV & VV)].
      - pose proof (absent_value _ _ _ _ _ "guess" None _ IT P AG ltac:(left; reflexivity) eq_refl eq_refl) as D1. cbn [s_dest s_default sp] in D1. rewrite D1 in G. injection G as <-. reflexivity.
      - destruct (parameter_value _ _ _ _ _ "guess" _ v _ IT P PV ltac:(unfold no_equals; cbn; intuition discriminate) ltac:(left; reflexivity) eq_refl eq_refl) as (x5 & X5 & D5).
        cbn [s_dest sp] in D5. rewrite D5 in G.
        destruct gg; cbn [In] in VV; repeat (destruct VV as [<-|VV]; [vm_compute in X5; injection X5 as <-; injection G as <-; reflexivity|]); destruct VV. }
    subst gg. reflexivity.
  - intros name icline conds PN N1 N2 ICD ONLY. destruct (TXT name PN) as (v & DV & SV). destruct ST as (ST & _). rewrite (ST name N1 N2) in DV.
    destruct (the_line _ _ _ _ _ _ _ _ _ _ PI_ IV DV ICD ONLY) as (e & x1 & -> & BX & F2). cbn [start_of] in SV. injection SV as <-.
    destruct ICD as (_ & _ & _ & _ & NDC & FC).
    apply (conditions_vector fs user depth files filename parts t es conds e x1 LD US NDC); [|exact BX|exact F2].
    eapply Forall_impl; [|exact FC]. intros c (H & _). exact H.
  - intros PN before1 opline before2 owords BE2 AO LO2. destruct (TXT _ PN) as (v & DV & SV). destruct ST as (_ & _ & ST).
    assert (ICO : is_ic opline = false) by (apply (asks_ic "op" opline owords AO); intros y Q; discriminate Q).
    unfold parse_analysis in PPRE. rewrite BE2, filter_app in PPRE. cbn [filter] in PPRE. rewrite ICO in PPRE. cbn [negb] in PPRE.
    destruct (mapr_app _ _ _ _ _ _ PPRE) as (p1 & r2 & _ & P2 & ->). cbn [mapr] in P2. apply bindr_Ok in P2. destruct P2 as (ano & P2 & P3). apply bindr_Ok in P3. destruct P3 as (p2 & P3 & E).
    injection E as <-. rewrite map_app in ST. cbn [map] in ST.
    destruct (ST _ _ _ eq_refl) as (y & q & ri & EO & IC2 & DO & DO2).
    + apply (type_of "op" opline owords ano AO); [cbn; intuition discriminate|reflexivity|exact P2].
    + apply Forall_map. rewrite Forall_forall in LO2 |- *. intros bb B T. destruct (mapr_in _ _ _ _ _ _ P3 B) as (lb & LB & PB). apply filter_In in LB. destruct LB as [LB _].
      destruct (single_type lb bb PB) as (w & ws & SP & TYb). apply (LO2 lb LB). exists w, ws. split; [exact SP|]. rewrite <- TYb. exact T.
    + unfold RunQueue.op, exec in EO. change (streqb (lit "op") (lit "op")) with true in EO. cbv iota in EO.
      apply bindr_Ok in EO. destruct EO as (y' & _ & EO). apply bindr_Ok in EO. destruct EO as (g' & _ & EO). apply bindr_Ok in EO. destruct EO as (q' & RO & E). injection E as <-.
      eexists. exists q'. split; [exact RO|]. intros z flag ->. assert (VQ : Some v = Some (ROp (Some (z, flag)))) by exact (eq_trans (eq_sym DV) DO). injection VQ as ->. cbn [start_of] in SV. injection SV as <-. reflexivity.
Qed.
Print Assumptions C222_op_start.
(** A line with a condition on the node [a], the operating point that asks for it, and the starting vector. *)
Example C222_example :
  let icl := lit ".ic name=warm v(a)=5" in let opl := lit ".op guess=no ic_label=warm" in
  ic_line boxed_parts icl (lit "warm") [(lit "v(a)", lit "5")] /\ only_line [opl; icl] icl (lit "warm") /\
  (exists words, asks "op" opl words /\ wants_guess words false /\ parameter "ic_label" None words (lit "warm")) /\
  exists x, bindr (parse_ics [opl; icl]) (ic_vectors shunt_t boxed_es) = Ok [(lit "warm", RVec x)] /\ x 0%nat = 5.
Proof.
  cbv zeta. split; [|split; [|split]].
  - apply C216_example.
  - intros l w words [<-|[<-|[]]] S I; [|reflexivity]. exfalso. vm_compute in S. injection S as S _. discriminate S.
  - exists (map lit ["guess=no"; "ic_label=warm"]%string). split; [vm_compute; reflexivity|]. split.
    + right. exists (lit "no"). split; [split; [apply lit_no_eq; reflexivity|exists 0%nat; left; reflexivity]|left; reflexivity].
    + split; [apply lit_no_eq; reflexivity|]. exists 1%nat. left. reflexivity.
  - assert (PI_ : parse_ics [lit ".op guess=no ic_label=warm"; lit ".ic name=warm v(a)=5"] = Ok [(VStr (lit "warm"), [(lit "v(a)", VNum (5, 0)%Z)])]) by (vm_compute; reflexivity).
    rewrite PI_. eexists. split; [reflexivity|]. unfold vset. cbn. unfold dR. cbn. lra.
Qed.
