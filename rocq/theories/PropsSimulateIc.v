(** Transients that start from the conditions of an .ic line (C216). *)
From Coq Require Import Ascii String Reals List Bool Arith ZArith Lia Lra.
From Verif Require Import Base BaseFacts Str Units Directive Lines Reader Netlist ModelLines Nodes NodesFacts Circuit CircuitFacts Rsum Mna MnaSpec DcSolve Newton
  NewtonFacts DynFacts Df Tran TranFacts PropsTran Ac AcFacts Sweep Csv PropsCsv Results PropsDirective PropsReader PropsNetlist PropsResults PropsMna PropsDc PropsAc Session PropsSetup
  RunQueue Ics PropsIcs Subckt PropsSubckt Simulate PropsSimulate SimulateAc PropsSimulateAc SimulateDc PropsSimulateDc SimulateTran PropsSimulateTran
  SimulateSub PropsSimulateSub PropsSimulateHier PropsSimulateSubLaws PropsSimulateOp SimulateMain PropsSimulateMain.
Import ListNotations.
Open Scope R_scope.

(** * Specification *)

(** [v(n)] and [i(e)], as the reader leaves them (in lower case, C113). *)
Definition of_node (n : str) : str := (lit "v(" ++ n ++ lit ")")%list.
Definition of_current (e : str) : str := (lit "i(" ++ e ++ lit ")")%list.
(** A line [.ic name=NAME v(a)=1 i(l1)=2m ...]: each condition once, on nodes of the circuit and on
    currents through its voltage-defined elements. *)
Definition ic_line (parts : list pelem) (line name : str) (conds : list (str * str)) : Prop :=
  split line = lit ".ic" :: setting_of "name" name :: map tie conds /\
  name <> [] /\ no_equals name /\ convert_units name = Err ValueError /\ NoDup (map fst conds) /\
  Forall (fun c => ((exists n, word n /\ In n (node_list parts) /\ fst c = of_node n) \/ (exists e, word e /\ In e (current_ids parts) /\ fst c = of_current e)) /\
                   no_equals (snd c) /\ exists d, convert_units (snd c) = Ok d) conds.
(** No other line has that name. *)
Definition only_line (dirs : list str) (line name : str) : Prop :=
  forall l w words, In l dirs -> split l = (lit ".ic" ++ w)%list :: words -> In (setting_of "name" name) words -> l = line.
(** The value written for a label: zero if there is none. *)
Definition written_as (conds : list (str * str)) (label : str) (x : R) : Prop :=
  (forall v d, In (label, v) conds -> convert_units v = Ok d -> x = dR d) /\ (~ In label (map fst conds) -> x = 0).

(** * Lemmas *)
Lemma word_no_eq : forall n, word n -> no_equals n.
Proof. intros n [_ W] I. rewrite Forall_forall in W. specialize (W _ I). discriminate W. Qed.
Lemma app_no_eq : forall a b, no_equals a -> no_equals b -> no_equals (a ++ b).
Proof. intros a b A B I. apply in_app_or in I. destruct I; auto. Qed.
Lemma lit_no_eq : forall l, existsb is_eq l = false -> no_equals l.
Proof. intros l H I. assert (E : existsb is_eq l = true) by (apply existsb_exists; exists c_eq; split; [exact I|reflexivity]). congruence. Qed.

Lemma pair_value : forall l v x, no_equals l -> no_equals v -> convert v TFloat = Ok x -> parse_param_value (l ++ c_eq :: v) = Ok (l, x).
Proof.
  intros l v x L V C. unfold parse_param_value, is_valid_value_param_string. rewrite filter_app. cbn [filter]. change (is_eq c_eq) with true. cbv iota.
  rewrite (filter_no_eq _ L), (filter_no_eq _ V), span_no_eq by exact L. cbn [tl]. cbn -[convert]. rewrite C. reflexivity.
Qed.

Lemma conds_loop : forall name conds d0, NoDup (map fst d0 ++ map fst conds) ->
  Forall (fun c => no_equals (fst c) /\ no_equals (snd c) /\ starred (tie c) = false /\ fst c <> lit "name" /\ exists d, convert_units (snd c) = Ok d) conds ->
  exists d, Directive.ic_loop (map tie conds) (Some name) d0 = Ok (Some name, d0 ++ d) /\
    Forall2 (fun c e => fst e = fst c /\ exists x, convert_units (snd c) = Ok x /\ snd e = VNum x) conds d.
Proof.
  intros name conds. induction conds as [|[l v] conds IH]; intros d0 ND F.
  - exists []. cbn. rewrite app_nil_r. split; [reflexivity|constructor].
  - pose proof (Forall_inv F) as (L & V & S & N & x & X). cbn [fst snd] in *. cbn [map Directive.ic_loop]. rewrite S.
    unfold tie at 1. cbn [fst snd]. rewrite (pair_value l v (VNum x) L V) by (cbn [convert]; rewrite X; reflexivity). cbn [bindr].
    rewrite (PropsIcs.streqb_neq l (lit "name") N). cbn [val_units bindr].
    assert (NI : ~ In l (map fst d0)).
    { intros I. cbn [map fst] in ND. apply NoDup_remove_2 in ND. apply ND. apply in_or_app. left. exact I. }
    rewrite (dset_new streqb PropsSubckt.streqb_spec) by (apply (dget_None_notin streqb PropsSubckt.streqb_spec); exact NI).
    destruct (IH (d0 ++ [(l, VNum x)])) as (d & E & F2).
    + rewrite map_app, <- app_assoc. exact ND.
    + exact (Forall_inv_tail F).
    + exists ((l, VNum x) :: d). split; [rewrite E, <- app_assoc; reflexivity|]. constructor; [|exact F2]. split; [reflexivity|]. exists x. split; [exact X|reflexivity].
Qed.

Lemma keep_name : forall toks n d res, Directive.ic_loop toks (Some n) d = Ok res -> fst res = Some n.
Proof.
  induction toks as [|tok toks IH]; intros n dd res E; [cbn in E; injection E as <-; reflexivity|]. cbn [Directive.ic_loop] in E.
  destruct (starred tok); [injection E as <-; reflexivity|]. destruct (parse_param_value tok) as [[l x]|]; [|discriminate]. cbn [bindr] in E.
  destruct (streqb l (lit "name")); (destruct (val_units x) as [y|]; [cbn [bindr] in E; exact (IH _ _ _ E)|discriminate]).
Qed.
Lemma name_word : forall toks d name r, name <> [] -> Directive.ic_loop toks None d = Ok (Some (VStr name), r) -> In (setting_of "name" name) toks.
Proof.
  induction toks as [|tok toks IH]; intros d name r NN E; [discriminate E|]. cbn [Directive.ic_loop] in E. destruct (starred tok); [discriminate E|].
  destruct (parse_param_value tok) as [[l x]|] eqn:PP; [|discriminate E]. cbn [bindr] in E. destruct (PropsSubckt.streqb_spec l (lit "name")) as [->|].
  - apply keep_name in E. cbn [fst] in E. injection E as <-. left. unfold parse_param_value in PP. destruct (is_valid_value_param_string tok); [|injection PP as _ E; congruence].
    destruct (span (fun c => negb (is_eq c)) tok) as [l' v] eqn:SP. apply bindr_Ok in PP. destruct PP as (x & C & E). injection E as -> ->.
    destruct (span_eq _ _ _ SP) as [-> Q]. unfold setting_of. f_equal. unfold convert in C. destruct (convert_units (tl v)) as [dd|[]]; try discriminate C. injection C as <-.
    destruct v as [|c v]; [cbn [tl] in NN; congruence|]. subst c. reflexivity.
  - right. destruct (val_units x); [|discriminate E]. cbn [bindr] in E. exact (IH _ _ _ NN E).
Qed.

Lemma fold_dset_in : forall (l : list (str * result)) acc k v, dget streqb (fold_left (fun acc kv => dset streqb acc (fst kv) (snd kv)) l acc) k = Some v ->
  In (k, v) l \/ dget streqb acc k = Some v.
Proof.
  induction l as [|[k0 v0] l IH]; intros acc k v H; [right; exact H|]. cbn [fold_left fst snd] in H. destruct (IH _ _ _ H) as [I|D]; [left; right; exact I|].
  rewrite (dget_dset streqb PropsSubckt.streqb_spec) in D. destruct (PropsSubckt.streqb_spec k k0) as [->|]; [injection D as <-; left; left; reflexivity|right; exact D].
Qed.

Lemma conds_numbers : forall conds d e, Forall2 (fun (c : str * str) (e : str * Directive.val) => fst e = fst c /\ exists x, convert_units (snd c) = Ok x /\ snd e = VNum x) conds d ->
  mapr (fun '(k, v) => match v with VNum d => Ok (k, dR d) | _ => Err TypeError end) d = Ok e ->
  Forall2 (fun (c : str * str) (q : str * R) => fst q = fst c /\ exists x, convert_units (snd c) = Ok x /\ snd q = dR x) conds e.
Proof.
  intros conds d e F. revert e. induction F as [|c [k v] conds d (A & x & X & B) F IH]; intros e H; [injection H as <-; constructor|].
  cbn [fst snd] in *. subst k v. cbn [mapr bindr] in H. apply bindr_Ok in H. destruct H as (r & H & E). injection E as <-. constructor; [|exact (IH r H)].
  split; [reflexivity|]. exists x. split; [exact X|reflexivity].
Qed.

Lemma node_label : forall n, word n -> label_of "V" "v" n (of_node n).
Proof. intros n W. exists "v"%char, [], [], []. repeat split; auto; try constructor; apply W. Qed.
Lemma current_label : forall n, word n -> label_of "I" "i" n (of_current n).
Proof. intros n W. exists "i"%char, [], [], []. repeat split; auto; try constructor; apply W. Qed.
Lemma of_node_inj : forall n m, of_node n = of_node m -> n = m.
Proof. intros n m H. unfold of_node in H. apply app_inv_head in H. apply app_inv_tail in H. exact H. Qed.
Lemma of_current_inj : forall n m, of_current n = of_current m -> n = m.
Proof. intros n m H. unfold of_current in H. apply app_inv_head in H. apply app_inv_tail in H. exact H. Qed.
Lemma forall2_keys : forall conds (e : list (str * R)), Forall2 (fun (c : str * str) (q : str * R) => fst q = fst c /\ exists x, convert_units (snd c) = Ok x /\ snd q = dR x) conds e -> map fst e = map fst conds.
Proof. intros conds e F. induction F as [|c q conds e (A & _) F IH]; [reflexivity|]. cbn [map]. rewrite A, IH. reflexivity. Qed.
Lemma forall2_value : forall conds (e : list (str * R)) l v, Forall2 (fun (c : str * str) (q : str * R) => fst q = fst c /\ exists x, convert_units (snd c) = Ok x /\ snd q = dR x) conds e ->
  In (l, v) conds -> exists d, convert_units v = Ok d /\ In (l, dR d) e.
Proof.
  intros conds e l v F. induction F as [|c [k q] conds e (A & x & X & B) F IH]; intros I; [destruct I|]. destruct I as [->|I].
  - cbn [fst snd] in *. subst k q. exists x. split; [exact X|left; reflexivity].
  - destruct (IH I) as (d & D & J). exists d. split; [exact D|right; exact J].
Qed.

(** The vector made from the conditions. *)
Lemma vector_of : forall t vdes e x (P : str -> nat -> Prop), NoDup (map fst e) -> build_x0 t vdes e = Ok x ->
  (forall l w, In (l, w) e -> exists i, denotes t vdes l i /\ P l i) -> (forall l l' i, P l (S i) -> P l' (S i) -> l = l') ->
  (forall l w i, In (l, w) e -> P l (S i) -> (forall j, P l j -> j = S i) -> x i = w) /\ (forall i, (forall l w, In (l, w) e -> ~ P l (S i)) -> x i = 0).
Proof.
  intros t vdes e x P ND B DE INJ. set (idx := fun l => match ic_index t vdes l with Ok i => i | _ => 0%nat end).
  assert (ID : forall l i, denotes t vdes l i -> idx l = i) by (intros l i D; unfold idx; rewrite (denotes_index _ _ _ _ D); reflexivity).
  destruct (C34_named_unknowns t vdes e idx) as (x' & B' & A1 & A2).
  { intros l w I. destruct (DE l w I) as (i & D & _). rewrite (ID l i D). exact D. }
  rewrite B in B'. injection B' as <-. split.
  - intros l w i I PLi U. destruct (in_split _ _ I) as (d1 & d2 & E). assert (IX : idx l = S i) by (destruct (DE l w I) as (j & D & Pj); rewrite (ID l j D); exact (U j Pj)).
    apply (A1 d1 l w d2 i E IX). intros l' w' I' Q. destruct (DE l' w') as (j & D & Pj); [rewrite E; apply in_or_app; right; right; exact I'|].
    rewrite (ID l' j D) in Q. subst j. rewrite (INJ l' l i Pj PLi) in I'. rewrite E, map_app in ND. cbn [map fst] in ND. apply NoDup_remove_2 in ND. apply ND. apply in_or_app. right.
    apply (in_map fst) in I'. exact I'.
  - intros i N. apply A2. intros l w I Q. destruct (DE l w I) as (j & D & Pj). rewrite (ID l j D) in Q. subst j. exact (N l w I Pj).
Qed.

Lemma the_line : forall dirs t es ics xs0 icline name conds parts v, parse_ics dirs = Ok ics -> ic_vectors t es ics = Ok xs0 ->
  dget streqb (fold_left (fun acc kv => dset streqb acc (fst kv) (snd kv)) xs0 []) name = Some v -> ic_line parts icline name conds -> only_line dirs icline name ->
  exists e x, v = RVec x /\ build_x0 t (map (fun e => list_ascii_of_string (lid e)) (filter is_vde es)) e = Ok x /\
    Forall2 (fun (c : str * str) (q : str * R) => fst q = fst c /\ exists x, convert_units (snd c) = Ok x /\ snd q = dR x) conds e.
Proof.
  intros dirs t es ics xs0 icline name conds parts v PI_ IV DG (SP & NN & NE & CU & ND & FC) ONLY.
  destruct (fold_dset_in _ _ _ _ DG) as [I|I]; [|discriminate I]. unfold ic_vectors in IV. apply bindr_Ok in IV. destruct IV as (ls & ML & E). injection E as <-.
  apply in_concat in I. destruct I as (l & IL & I). destruct (mapr_in _ _ _ _ _ _ ML IL) as ((nm & cs) & IC & F). apply bindr_Ok in F. destruct F as (e & ME & F).
  apply bindr_Ok in F. destruct F as (x & BX & F). injection F as <-. destruct nm as [| |dd|sv|bv]; try destruct I. 2:destruct H. injection H as -> <-.
  exists e, x. split; [reflexivity|]. split; [exact BX|]. destruct (mapr_in _ _ _ _ _ _ PI_ IC) as (ln & LN & PD). apply filter_In in LN. destruct LN as [LN ISI].
  assert (EL : ln = icline).
  { destruct (ic_word ln ISI) as (w & r & Q). rewrite Q in PD. cbn [tl] in PD. unfold parse_ic_directive in PD. apply bindr_Ok in PD. destruct PD as ((nm' & d') & LP & E).
    destruct nm' as [nm'|]; [|discriminate E]. injection E as -> ->. exact (ONLY ln w r LN Q (name_word _ _ _ _ NN LP)). }
  subst ln. rewrite SP in PD. cbn [tl] in PD. unfold parse_ic_directive in PD. apply bindr_Ok in PD. destruct PD as ((nm' & d') & LP & E).
  cbn [Directive.ic_loop] in LP. change (starred (setting_of "name" name)) with false in LP. cbv iota in LP. unfold setting_of in LP.
  rewrite (pair_value (lit "name") name (VStr name)) in LP; [|apply lit_no_eq; reflexivity|exact NE|unfold convert; rewrite CU; reflexivity]. cbn [bindr] in LP.
  rewrite PropsIcs.streqb_refl in LP. destruct (conds_loop (VStr name) conds []) as (d & LP' & F2); [exact ND| |].
  { eapply Forall_impl; [|exact FC]. intros c (LB & NV & DC). destruct LB as [(n & W & _ & LB)|(n & W & _ & LB)]; rewrite LB; unfold tie; rewrite LB.
    - split; [apply app_no_eq; [apply lit_no_eq; reflexivity|apply app_no_eq; [apply word_no_eq, W|apply lit_no_eq; reflexivity]]|]. split; [exact NV|]. split; [reflexivity|]. split; [discriminate|exact DC].
    - split; [apply app_no_eq; [apply lit_no_eq; reflexivity|apply app_no_eq; [apply word_no_eq, W|apply lit_no_eq; reflexivity]]|]. split; [exact NV|]. split; [reflexivity|]. split; [discriminate|exact DC]. }
  rewrite LP' in LP. injection LP as <- <-. cbn [app] in E. injection E as <-. exact (conds_numbers _ _ _ F2 ME).
Qed.

(** * C216 *)

(** A transient with [uic=3 ic_label=NAME] starts from what the .ic line of that name says: the
    node voltages and the currents written in it, and zero for all others; and goes on by the
    laws of the netlist. *)
Theorem C216_ic : forall solve csolve JT check locked o tdo damp_first maxit acit trit fuel topt cmin gmin at_time guess skip inv modules has_module rounds settings rest icmod
    fs user depth files filename parts t es rs dirs before line after words a s b m icline name conds,
  main_file solve csolve JT check locked o tdo damp_first maxit acit trit fuel topt cmin gmin at_time guess skip inv modules has_module rounds settings rest icmod
    fs user depth files filename = Ok (parts, t, es, rs) -> directives fs files filename dirs -> dirs = (before ++ line :: after)%list ->
  asks "tran" line words -> Forall (fun l => ~ of_type "tran" l) after ->
  quantity "tstep" (Some 0)%nat words s -> quantity "tstop" (Some 1)%nat words b -> quantity "tstart" None words a \/ (absent "tstart" None words /\ a = 0) ->
  (exists v, parameter "method" None words v /\ m = Some (ss v)) \/ (absent "method" None words /\ m = None) ->
  uses_ic words 3 -> parameter "ic_label" None words name -> name <> lit "op" -> name <> lit "op+ic" ->
  ic_line parts icline name conds -> only_line dirs icline name -> 0 < s ->
  (forall line l, user line = Ok l -> Forall word_names l) ->
  Forall (ac_sound parts) parts -> (forall k, 0 < k -> tr_regular k gmin (Rmax 0 cmin) parts) ->
  solver_ok solve (op_size t es) -> d_first tdo = false -> (0 < trit)%nat -> (0 < fuel)%nat -> o_std o = true ->
  exists r, dget streqb rs (lit "tran") = Some (RTran r) /\ forall rows, r = Some rows ->
  let report := tran_report t es rows in
  let src time := driven (fun id => at_time id time) written_dc in
  exists d start points, choose_df has_module (tran_method settings m) = Ok d /\
    marches src gmin (Rmax 0 cmin) parts d (rev (start :: points)) /\ p_t start = a /\ points <> [] /\ b <= last_from a (map p_t points) /\
    (* the starting point is what is written *)
    (forall n, In n (node_list parts) -> n <> lit "0" -> written_as conds (of_node n) (p_V start n)) /\
    (forall id, In id (current_ids parts) -> written_as conds (of_current id) (p_I start id)) /\
    (forall name, slower name = lit "t" -> report name = Ok (map p_t points)) /\
    (forall n name, In n (node_list parts) -> n <> lit "0" -> slower name = slower (lit "V" ++ n) -> report name = Ok (map (fun p => p_V p n) points)) /\
    (forall id name, In id (current_ids parts) -> slower name = slower (lit "I(" ++ id ++ lit ")") -> report name = Ok (map (fun p => p_I p id) points)).
Proof.
  intros solve csolve JT check locked o tdo damp_first maxit acit trit fuel topt cmin gmin at_time guess skip inv modules has_module rounds settings rest icmod
    fs user depth files filename parts t es rs dirs before line after words a s b m icline name conds M DI BLA A LAST QS QB QA QM UIC ICL N1 N2 ICD ONLY SP US SC REG (S1 & S2) DF TX FU OS.
  edestruct tran_from as (LD & x & r & RUN & DG & _ & _ & _ & _ & K3); [exact M|exact DI|exact BLA|exact A|exact LAST|exact QS|exact QB|exact QA|exact QM|exact UIC|].
  destruct (K3 eq_refl name ICL N1 N2) as (ics & xs0 & v & PI_ & IV & DV & SV). destruct (the_line _ _ _ _ _ _ _ _ _ _ PI_ IV DV ICD ONLY) as (e & x1 & -> & BX & F2).
  cbn [start_of] in SV. injection SV as <-. destruct (C209_load _ _ _ _ _ _ US LD) as (other & OT & LD').
  exists r. split; [exact DG|]. intros rows ->. destruct fuel as [|fuel'] eqn:EF; [lia|].
  destruct (C196_tran fs other files filename parts t es LD' OT SC solve JT check locked o tdo trit fuel' topt cmin gmin at_time inv modules has_module (tran_method settings m) (step_control settings true)
      a s b (Some x1) rounds rows S1 S2 DF TX OS SP REG RUN) as (d & start & points & CD & MA & T0 & NE & LA & SV & SI & R1 & R2 & R3).
  exists d, start, points. split; [exact CD|]. split; [exact MA|]. split; [exact T0|]. split; [exact NE|]. split; [exact LA|].
  assert (OL : forall line l, other line = Ok l -> Forall lower_case l) by (intros ln l H; eapply Forall_impl; [|exact (OT ln l H)]; intros q He; apply He).
  assert (OP : forall line l, other line = Ok l -> Forall PropsSimulateAc.plain_names l) by (intros ln l H; eapply Forall_impl; [|exact (OT ln l H)]; intros q He; apply He).
  assert (SO : Forall (proper parts) parts).
  { pose proof (load_lower _ _ _ _ _ _ _ OL LD') as LC. apply Forall_forall. rewrite Forall_forall in SC, LC. intros q H. split; [auto|apply SC; exact H]. }
  pose proof (load_plain _ _ _ _ _ _ _ OP LD') as PN. destruct (load_facts _ _ _ _ _ _ _ LD') as (G & NV & PL_ & ND & MEN).
  destruct (result_names t parts es G PL_ SO PN ND MEN) as (ns & NS & LN & DN & PNS & IDS & DID & PIS & LEN & REGD & IDX).
  pose proof (grounded_number t G) as NZ. set (nv := get_nodes_number t) in *.
  assert (SZ : op_size t es = (List.length ns + List.length (current_ids parts))%nat) by (unfold op_size; fold nv; lia).
  destruct (op_values t es ns (current_ids parts) x1 NS IDS DN DID SZ) as (O1 & O2). rewrite IDS in BX.
  destruct ICD as (_ & _ & _ & _ & NDC & FC).
  assert (NDI : NoDup (current_ids parts)) by (unfold PropsResults.distinct in DID; apply NoDup_map_inv in DID; exact DID).
  set (Q := fun (l : str) (i : nat) => (exists n, l = of_node n /\ at_node t n i) \/ (exists id q, l = of_current id /\ nth_error (current_ids parts) q = Some id /\ i = (nv + q)%nat)).
  assert (RANGE : forall n i, at_node t n (S i) -> (S i < nv)%nat).
  { intros n i At. pose proof (MEN n (S i) At) as IN. destruct (list_eq_dec ascii_dec n (lit "0")) as [->|N0].
    - pose proof (at_node_fun t (lit "0") (S i) 0 At (proj2 G)). discriminate.
    - destruct (IDX n IN N0) as (k & NK & AK). pose proof (at_node_fun t n _ _ At AK) as E. assert (k < List.length ns)%nat by (apply nth_error_Some; congruence). lia. }
  destruct (vector_of t (current_ids parts) e x1 Q) as (W1 & W2).
  - rewrite (forall2_keys _ _ F2). exact NDC.
  - exact BX.
  - intros l w I. apply (in_map fst) in I. rewrite (forall2_keys _ _ F2) in I. cbn [fst] in I. apply in_map_iff in I. destruct I as (c & <- & I). rewrite Forall_forall in FC. destruct (FC c I) as (LB & _).
    destruct LB as [(n & W & IN & ->)|(id & W & IN & ->)].
    + destruct (REGD n IN) as (i & At). exists i. split; [|left; exists n; split; [reflexivity|exact At]]. apply (den_v t _ _ n i (node_label n W)). exact At.
    + apply In_nth_error in IN. destruct IN as (q & IN). exists (nv + q)%nat. split; [|right; exists id, q; repeat split; exact IN].
      apply (den_i t _ _ id id q (current_label id W) IN eq_refl). intros j e'' J H E.
      unfold PropsResults.distinct in DID. rewrite NoDup_nth_error in DID. specialize (DID j q). rewrite map_length, !nth_error_map, H, IN in DID. cbn [option_map] in DID. rewrite E in DID.
      assert (j < List.length (current_ids parts))%nat by (apply nth_error_Some; congruence). specialize (DID H0 eq_refl). lia.
  - intros l l' i [(n & -> & An)|(id & q & -> & Aq & Eq)] [(n' & -> & An')|(id' & q' & -> & Aq' & Eq')].
    + rewrite (at_node_inj t n n' (S i) (proj1 G) An An'). reflexivity.
    + pose proof (RANGE n i An). lia.
    + pose proof (RANGE n' i An'). lia.
    + assert (q = q') by lia. subst q'. congruence.
  - split; [|split; [|split; [exact R1|split; [exact R2|exact R3]]]].
    + intros n IN N0. destruct (IDX n IN N0) as (k & NK & AK). pose proof (SV n (lit "V" ++ n)%list IN N0 eq_refl) as EV.
      rewrite (O1 k n _ NK eq_refl : op_report t es (SimulateTran.tran_start (Some x1)) _ = _) in EV. injection EV as <-. split.
      * intros w dd I CW. destruct (forall2_value _ _ _ _ F2 I) as (d' & CW' & I'). assert (d' = dd) by congruence. subst d'. apply (W1 (of_node n) (dR dd) k I').
        -- left. exists n. split; [reflexivity|exact AK].
        -- intros j [(n' & E & An)|(id & q & E & _)]; [|discriminate E]. rewrite (of_node_inj _ _ E) in AK. exact (at_node_fun t n' _ _ An AK).
      * intros NI. apply W2. intros l w I [(n' & -> & An)|(id & q & -> & Aq & Eq)].
        -- rewrite (at_node_inj t n n' (S k) (proj1 G) AK An) in NI. apply NI. rewrite <- (forall2_keys _ _ F2). apply (in_map fst) in I. exact I.
        -- pose proof (RANGE n k AK). lia.
    + intros id IN. destruct (In_nth_error _ _ IN) as (q & NQ). pose proof (SI id (lit "I(" ++ id ++ lit ")")%list IN eq_refl) as EV.
      rewrite (O2 q id _ NQ eq_refl : op_report t es (SimulateTran.tran_start (Some x1)) _ = _) in EV. injection EV as <-. split.
      * intros w dd I CW. destruct (forall2_value _ _ _ _ F2 I) as (d' & CW' & I'). assert (d' = dd) by congruence. subst d'. apply (W1 (of_current id) (dR dd) _ I').
        -- right. exists id, q. split; [reflexivity|]. split; [exact NQ|]. lia.
        -- intros j [(n' & E & _)|(id' & q' & E & NQ' & ->)]; [discriminate E|]. rewrite <- (of_current_inj _ _ E) in NQ'. rewrite NoDup_nth_error in NDI.
           assert (LT : (q' < List.length (current_ids parts))%nat) by (apply nth_error_Some; congruence). specialize (NDI q' q LT ltac:(congruence)). lia.
      * intros NI. apply W2. intros l w I [(n' & -> & An)|(id' & q' & -> & Aq & Eq)].
        -- pose proof (RANGE n' _ An). lia.
        -- assert (q' = q) by lia. subst q'. assert (id' = id) by congruence. subst id'. apply NI. rewrite <- (forall2_keys _ _ F2). apply (in_map fst) in I. exact I.
Qed.
Print Assumptions C216_ic.
(** A line with a condition on the node [a], the transient that asks for it, and the vector. *)
Example C216_example :
  let icl := lit ".ic name=warm v(a)=5" in let tl_ := lit ".tran 1u 10u uic=3 ic_label=warm" in
  ic_line boxed_parts icl (lit "warm") [(lit "v(a)", lit "5")] /\ only_line [icl; tl_] icl (lit "warm") /\
  (exists words, asks "tran" tl_ words /\ uses_ic words 3 /\ parameter "ic_label" None words (lit "warm")) /\
  exists x, bindr (parse_ics [icl; tl_]) (ic_vectors shunt_t boxed_es) = Ok [(lit "warm", RVec x)] /\ x 0%nat = 5.
Proof.
  cbv zeta. split; [|split; [|split]].
  - split; [vm_compute; reflexivity|]. split; [discriminate|]. split; [apply lit_no_eq; reflexivity|]. split; [vm_compute; reflexivity|]. split; [constructor; [intros []|constructor]|].
    constructor; [|constructor]. split; [left; exists (lit "a"); split; [split; [discriminate|repeat constructor]|split; [vm_compute; auto|reflexivity]]|].
    split; [apply lit_no_eq; reflexivity|]. exists (5, 0)%Z. vm_compute. reflexivity.
  - intros l w words [<-|[<-|[]]] S I; [reflexivity|]. exfalso. vm_compute in S. injection S as S _. discriminate S.
  - exists (map lit ["1u"; "10u"; "uic=3"; "ic_label=warm"]%string). split; [vm_compute; reflexivity|]. split.
    + right. exists (lit "3"), (3, 0)%Z. split; [split; [apply lit_no_eq; reflexivity|exists 2%nat; left; reflexivity]|split; vm_compute; reflexivity].
    + split; [apply lit_no_eq; reflexivity|]. exists 3%nat. left. reflexivity.
  - assert (PI_ : parse_ics [lit ".ic name=warm v(a)=5"; lit ".tran 1u 10u uic=3 ic_label=warm"] = Ok [(VStr (lit "warm"), [(lit "v(a)", VNum (5, 0)%Z)])]) by (vm_compute; reflexivity).
    rewrite PI_. eexists. split; [reflexivity|]. unfold vset. cbn. unfold dR. cbn. lra.
Qed.
