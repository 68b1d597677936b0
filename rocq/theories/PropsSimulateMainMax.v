(** Node voltages stay between those of the sources (C231). *)
From Coq Require Import Ascii String Reals List Bool Arith ZArith Lia Lra Permutation.
From Verif Require Import Base BaseFacts Str Units Directive Lines Reader Netlist ModelLines Nodes NodesFacts Circuit CircuitFacts Rsum Mna MnaSpec DcSolve Newton
  NewtonFacts DynFacts Df Tran TranFacts PropsTran Ac AcFacts Sweep Csv PropsCsv Results PropsDirective PropsReader PropsNetlist PropsResults PropsMna PropsDc PropsAc Session PropsSetup
  RunQueue Ics PropsIcs Subckt PropsSubckt Simulate PropsSimulate SimulateAc PropsSimulateAc SimulateDc PropsSimulateDc SimulateTran PropsSimulateTran SimulateNl PropsSimulateNl
  SimulateSub PropsSimulateSub PropsSimulateHier PropsSimulateSubLaws PropsSimulateOp SimulateMain PropsSimulateMain PropsSimulateMainRel PropsSimulateMainSup PropsSimulateMainFnd PropsSimulateMainRec.
Import ListNotations.
Open Scope R_scope.

(** Resistors of positive value, capacitors, inductors, current sources of value zero, and
    voltage sources to ground of values from [lo] to [hi]. *)
Definition divides (src : pelem -> R) (lo hi : R) (e : pelem) : Prop :=
  match e with
  | PR _ _ _ r => 0 < dR r
  | PC _ _ _ _ _ | Netlist.PL _ _ _ _ _ => True
  | PV _ _ b _ _ _ => b = lit "0" /\ lo <= src e <= hi
  | Netlist.PI _ _ _ _ _ _ => src e = 0
  | _ => False
  end.
(** What is cut off by a monotone function is nothing. *)
Lemma cut_zero : forall src lo hi parts (f : R -> R), Forall (divides src lo hi) parts -> lo <= 0 <= hi -> well_posed src parts ->
  (forall x, lo <= x <= hi -> f x = 0) -> (forall x y, (f x - f y) * (f x - f y) <= (f x - f y) * (x - y)) ->
  forall V I, laws src V I parts -> forall n, In n (node_list parts) -> f (V n) = 0.
Proof.
  intros src lo hi parts f D B (V0 & I0 & L0 & UN) FZ FM V I (Z & K & L). rewrite Forall_forall in D, L. set (U := fun n => f (V n)).
  assert (EN : forall e, In e parts -> In (first_end e) (node_list parts) /\ In (second_end e) (node_list parts)).
  { intros e IE. specialize (D e IE). unfold node_list. split; apply in_flat_map; exists e; (split; [exact IE|]); destruct e; try (destruct D; fail); cbn; auto. }
  set (ns := nodup (list_eq_dec ascii_dec) (node_list parts)).
  pose proof (dc_tellegen src V I U ns parts (NoDup_nodup _ _)) as T. rewrite (lsum_0 _ _ ns) in T by (intros n _; rewrite K; ring).
  specialize (T ltac:(intros e IE; destruct (EN e IE); split; apply nodup_In; assumption)).
  assert (U0 : U (lit "0") = 0) by (unfold U; rewrite Z; apply FZ; lra).
  assert (SRC : forall id a b dc ac g, In (PV id a b dc ac g) parts -> U a = 0 /\ U b = 0).
  { intros id a b dc ac g IE. pose proof (D _ IE) as (-> & R1). pose proof (L _ IE) as Q. cbn [law] in Q. rewrite Z in Q. split; [|exact U0]. unfold U. apply FZ. lra. }
  assert (NN : forall e, In e parts -> 0 <= (U (first_end e) - U (second_end e)) * through src V I e).
  { intros e IE. pose proof (D e IE) as De. pose proof (L e IE) as Le. destruct e; try (destruct De; fail); cbn [divides first_end second_end through law] in *.
    - pose proof (FM (V n1) (V n2)) as Q. unfold U. pose proof (Rle_0_sqr (f (V n1) - f (V n2))) as S. unfold Rsqr in S. unfold Rdiv. rewrite <- Rmult_assoc. apply Rmult_le_pos; [lra|left; apply Rinv_0_lt_compat; exact De].
    - lra.
    - unfold U. replace (V n1) with (V n2) by lra. lra.
    - destruct (SRC _ _ _ _ _ _ IE) as (-> & ->). lra.
    - rewrite De. lra. }
  pose proof (lsum_each _ _ parts NN ltac:(lra)) as EZ.
  assert (RS : forall id a b r, In (PR id a b r) parts -> U a - U b = 0).
  { intros id a b r IE. pose proof (D _ IE) as De. pose proof (EZ _ IE) as Q. cbn [divides first_end second_end through] in De, Q. unfold Rdiv in Q. rewrite <- Rmult_assoc in Q.
    apply Rmult_integral in Q. destruct Q as [Q|Q]; [|pose proof (Rinv_0_lt_compat _ De); lra]. pose proof (FM (V a) (V b)) as S. fold (U a) (U b) in S. rewrite Q in S. apply Rsqr_0_uniq. pose proof (Rle_0_sqr (U a - U b)). unfold Rsqr in *. lra. }
  assert (TH : forall e, In e parts -> through src (fun n => V n + U n) I e = through src V I e).
  { intros e IE. pose proof (D e IE) as De. destruct e; try (destruct De; fail); cbn [through]; try reflexivity. pose proof (RS _ _ _ _ IE). f_equal. lra. }
  assert (L' : laws src (fun n => V n + U n) I parts).
  { split; [rewrite Z, U0; ring|]. split.
    - intros n. rewrite <- (K n). clear - TH. induction parts as [|e l IH]; [reflexivity|]. cbn [leaving]. rewrite (IH (fun e' H => TH e' (or_intror H))). unfold leaving1. rewrite (TH e (or_introl eq_refl)). reflexivity.
    - apply Forall_forall. intros e IE. pose proof (D e IE) as De. pose proof (L e IE) as Le. destruct e; try (destruct De; fail); cbn [law] in *; try exact Logic.I.
      + unfold U. replace (V n1) with (V n2) by lra. lra.
      + destruct (SRC _ _ _ _ _ _ IE) as (-> & ->). lra. }
  intros n IN. destruct (UN _ _ L') as (A & _). destruct (UN V I (conj Z (conj K (proj2 (Forall_forall _ _) L)))) as (A' & _). specialize (A n IN). specialize (A' n IN). cbv beta in A. fold (U n). lra.
Qed.
Theorem C231_laws : forall src lo hi parts, Forall (divides src lo hi) parts -> lo <= 0 <= hi -> well_posed src parts ->
  forall V I, laws src V I parts -> forall n, In n (node_list parts) -> lo <= V n <= hi.
Proof.
  intros src lo hi parts D B W V I L n IN. split.
  - pose proof (cut_zero src lo hi parts (fun x => Rmin (x - lo) 0) D B W) as K. cbv beta in K.
    specialize (K ltac:(intros x X; apply Rmin_right; lra) ltac:(intros x y; unfold Rmin; destruct (Rle_dec (x - lo) 0), (Rle_dec (y - lo) 0); nra) V I L n IN). unfold Rmin in K. destruct (Rle_dec (V n - lo) 0); lra.
  - pose proof (cut_zero src lo hi parts (fun x => Rmax (x - hi) 0) D B W) as K. cbv beta in K.
    specialize (K ltac:(intros x X; apply Rmax_right; lra) ltac:(intros x y; unfold Rmax; destruct (Rle_dec (x - hi) 0), (Rle_dec (y - hi) 0); nra) V I L n IN). unfold Rmax in K. destruct (Rle_dec (V n - hi) 0); lra.
Qed.
Print Assumptions C231_laws.

(** * C231 *)
Theorem C231_op : forall at_time parts t es x lo hi, let src := dc_source (fun id => at_time id 0) in
  op_found at_time parts t es x -> Forall (sound parts) parts -> well_posed src parts -> Forall (divides src lo hi) parts -> lo <= 0 <= hi ->
  forall n name, In n (node_list parts) -> n <> lit "0" -> slower name = slower (lit "V" ++ n) -> exists v, op_report t es x name = Ok v /\ lo <= v <= hi.
Proof.
  intros at_time parts t es x lo hi src F SO W D B n name IN N0 SN. pose proof W as (V & I & L & _). destruct (op_found_laws _ _ _ _ _ F SO W V I L) as (R1 & _).
  exists (V n). split; [exact (R1 n name IN N0 SN)|]. exact (C231_laws src lo hi parts D B W V I L n IN).
Qed.
Print Assumptions C231_op.

(** The same at each point of DC sweeps; [v] is the value of the swept source. *)
Theorem C231_sweep : forall solve csolve JT check locked o tdo damp_first maxit acit trit fuel topt cmin gmin at_time guess skip inv modules has_module rounds settings rest icmod
    fs user depth files filename parts t es rs dirs before line after words source a b s,
  main_file solve csolve JT check locked o tdo damp_first maxit acit trit fuel topt cmin gmin at_time guess skip inv modules has_module rounds settings rest icmod
    fs user depth files filename = Ok (parts, t, es, rs) ->
  directives fs files filename dirs ->
  dirs = before ++ line :: after -> asks "dc" line words -> Forall (fun l => ~ of_type "dc" l) after ->
  parameter "source" (Some 0)%nat words source -> quantity "start" (Some 1)%nat words a -> quantity "stop" (Some 2)%nat words b -> quantity "step" (Some 3)%nat words s ->
  absent "type" None words \/ (exists v, parameter "type" None words v /\ stype3 (ss v) = "LIN"%string) ->
  (forall line l, user line = Ok l -> Forall word_names l) ->
  Forall (sound parts) parts -> solver_ok solve (op_size t es) -> d_first tdo = false -> (0 < maxit)%nat -> (0 < fuel)%nat -> o_std o = true ->
  (* the name of the source is not that of a result *)
  (forall n, In n (node_list parts) -> slower source <> slower (lit "V" ++ n)) -> (forall id, In id (current_ids parts) -> slower source <> slower (lit "I(" ++ id ++ lit ")")) ->
  let at0 id := at_time id 0 in
  (forall e v, In e parts -> well_posed (swept at0 (pid e) v) parts) ->
  exists r, dget streqb rs (lit "dc") = Some (RDc r) /\ forall rows, r = Some rows ->
  exists e, In e parts /\ names_source source e /\
    forall n name, In n (node_list parts) -> n <> lit "0" -> slower name = slower (lit "V" ++ n) ->
    exists l, dc_report t es source rows source = Ok (map fst rows) /\ dc_report t es source rows name = Ok l /\
      Forall2 (fun v z => forall lo hi, lo <= 0 <= hi -> Forall (divides (swept at0 (pid e) v) lo hi) parts -> lo <= z <= hi) (map fst rows) l.
Proof.
  intros solve csolve JT check locked o tdo damp_first maxit acit trit fuel topt cmin gmin at_time guess skip inv modules has_module rounds settings rest icmod
    fs user depth files filename parts t es rs dirs before line after words source a b s M DI BLA A LAST PS QA QB QS TY US SO SV DF MX FU OS NC1 NC2 at0 WPS.
  destruct (C213_dc solve csolve JT check locked o tdo damp_first maxit acit trit fuel topt cmin gmin at_time guess skip inv modules has_module rounds settings rest icmod
    fs user depth files filename parts t es rs dirs before line after words source a b s M DI BLA A LAST PS QA QB QS TY US SO SV DF MX FU OS) as (r & DG & KD).
  exists r. split; [exact DG|]. intros rows ER. destruct (KD rows ER) as (e & ax & vals & IE & NS & _ & _ & _ & _ & RD). clear KD.
  destruct (RD NC1 NC2) as (RS & RR). destruct (RR (fun v _ => WPS e v IE)) as (RV & _). clear RD RR. exists e. split; [exact IE|]. split; [exact NS|].
  intros n name IN N0 SN. destruct (RV n name IN N0 SN) as (l & R1 & F). exists l. split; [exact (RS source eq_refl)|]. split; [exact R1|].
  eapply forall2_weaken; [|exact F]. intros v z H lo hi B D. pose proof (WPS e v IE) as W. destruct W as (V & I & L & U). rewrite (H V I L).
  exact (C231_laws _ lo hi parts D B (WPS e v IE) V I L n IN).
Qed.
Print Assumptions C231_sweep.

(** ** Examples: 6 V over resistors of 1 Ohm and 2 Ohm in series; and a file with a source and a resistor *)
Definition split_parts : list pelem := [PV (lit "v1") (lit "a") (lit "0") (Some (6, 0)%Z) None None; PR (lit "r1") (lit "a") (lit "b") (1, 0)%Z; PR (lit "r2") (lit "b") (lit "0") (2, 0)%Z].
Example C231_split : let src := dc_source (fun _ => 0) in Forall (divides src 0 6) split_parts /\ well_posed src split_parts /\ laws src (pair_V 6 4) (fun _ => -2) split_parts.
Proof.
  cbv zeta. assert (LW : laws (dc_source (fun _ => 0)) (pair_V 6 4) (fun _ => -2) split_parts).
  { split; [reflexivity|]. split.
    - intros m. unfold split_parts. cbn [leaving]. unfold leaving1. cbn [first_end second_end through]. rewrite !d_int. change (pair_V 6 4 (lit "a")) with 6. change (pair_V 6 4 (lit "b")) with 4. change (pair_V 6 4 (lit "0")) with 0.
      destruct (PropsSubckt.streqb_spec m (lit "a")) as [->|]; [|destruct (PropsSubckt.streqb_spec m (lit "b")) as [->|]; [|destruct (PropsSubckt.streqb_spec m (lit "0")) as [->|]]];
      repeat match goal with |- context [streqb ?u ?v] => let r := eval vm_compute in (streqb u v) in change (streqb u v) with r end; try lra;
      cbv iota; lra.
    - repeat constructor. cbn [law]. change (pair_V 6 4 (lit "a")) with 6. change (pair_V 6 4 (lit "0")) with 0. unfold dc_source, driven, written_dc. rewrite d_int. lra. }
  split; [|split; [|exact LW]].
  - repeat constructor; cbn [divides]; rewrite ?d_int; try lra; unfold dc_source, driven, written_dc; rewrite d_int; lra.
  - exists (pair_V 6 4), (fun _ => -2). split; [exact LW|]. intros V I (Z0 & K & L). pose proof (Forall_inv L) as LV. cbn [law] in LV. unfold dc_source, driven, written_dc in LV. rewrite d_int, Z0 in LV.
    pose proof (K (lit "a")) as KA. pose proof (K (lit "b")) as KB. unfold split_parts in KA, KB. cbn [leaving] in KA, KB. unfold leaving1 in KA, KB. cbn [first_end second_end through] in KA, KB. rewrite !d_int, Z0 in KA, KB.
    repeat match type of KA with context [streqb ?u ?v] => let r := eval vm_compute in (streqb u v) in change (streqb u v) with r in KA end;
    repeat match type of KB with context [streqb ?u ?v] => let r := eval vm_compute in (streqb u v) in change (streqb u v) with r in KB end; cbv iota in KA, KB. unfold Rdiv in KA, KB.
    assert (VA : V (lit "a") = 6) by lra. assert (VB : V (lit "b") = 4) by lra. assert (IV : I (lit "v1") = -2) by lra.
    split; [intros m IN; cbn in IN; repeat (destruct IN as [<-|IN]; [assumption|]); destruct IN|intros id IN; cbn in IN; destruct IN as [<-|[]]; exact IV].
Qed.
Definition load_parts : list pelem := [PV (lit "v1") (lit "a") (lit "0") (Some (6, 0)%Z) None None; PR (lit "r1") (lit "a") (lit "0") (2, 0)%Z].
Definition load_lines : list str := map lit ["load"; "V1 a 0 type=vdc vdc=6"; "R1 a 0 2"; ".op"]%string.
Definition load_t : ntab := mkNtab [(KInt 1, KStr "a"); (KStr "a", KInt 1); (KInt 0, KStr "0"); (KStr "0", KInt 0)]%string 0.
Definition load_es : list lelem := [EV "v1" 1 0 (dR (6, 0)%Z) false; ER "r1" 1 0 (dR (2, 0)%Z)]%string.
Lemma load_any : forall src, well_posed src load_parts.
Proof.
  intros src. set (e := PV (lit "v1") (lit "a") (lit "0") (Some (6, 0)%Z) None None). exists (pair_V (src e) 0), (fun _ => - (src e / 2)). split.
  - split; [reflexivity|]. split.
    + intros m. unfold load_parts. cbn [leaving]. unfold leaving1. cbn [first_end second_end through]. rewrite !d_int. change (pair_V (src e) 0 (lit "a")) with (src e). change (pair_V (src e) 0 (lit "0")) with 0.
      destruct (streqb m (lit "a")), (streqb m (lit "0")); lra.
    + repeat constructor. cbn [law]. change (pair_V (src e) 0 (lit "a")) with (src e). change (pair_V (src e) 0 (lit "0")) with 0. fold e. lra.
  - intros V I (Z0 & K & L). pose proof (Forall_inv L) as LV. cbn [law] in LV. fold e in LV. rewrite Z0 in LV.
    pose proof (K (lit "a")) as KA. unfold load_parts in KA. cbn [leaving] in KA. unfold leaving1 in KA. cbn [first_end second_end through] in KA. rewrite !d_int, Z0 in KA.
    repeat match type of KA with context [streqb ?u ?v] => let r := eval vm_compute in (streqb u v) in change (streqb u v) with r in KA end; cbv iota in KA. unfold Rdiv in KA.
    assert (VA : V (lit "a") = src e) by lra. assert (IV : I (lit "v1") = - (src e / 2)) by lra.
    split; [intros m IN; cbn in IN; repeat (destruct IN as [<-|IN]; [assumption|]); destruct IN|intros id IN; cbn in IN; destruct IN as [<-|[]]; exact IV].
Qed.
Example C231_example : forall at_time, exists x v, op_found at_time load_parts load_t load_es x /\ op_report load_t load_es x (lit "VA") = Ok v /\ 0 <= v <= 6.
Proof.
  intros at_time.
  assert (LD : load_all (fun _ => Some load_lines) (fun _ => Err NetlistParseError) 1 1 (lit "f") = Ok (load_parts, load_t, load_es)) by amp_load.
  assert (DI : directives (fun _ => Some load_lines) 1 (lit "f") [lit ".op"]).
  { amp_dirs (lit "load") load_lines [BLine (lit "v1 a 0 type=vdc vdc=6"); BLine (lit "r1 a 0 2"); BLine (lit ".op")]. }
  assert (SO : Forall (sound load_parts) load_parts) by (repeat constructor; discriminate).
  assert (X : exists x, op_found at_time load_parts load_t load_es x).
  { set (csolve := fun (_ : cmat) (_ : cvec) => @None cvec). set (JT := fun _ : vec => (mzero, vzero)). set (rest := fun (_ : list pelem * ntab * list lelem) (_ : str) (_ : list (str * Directive.val)) (_ : option result) => @Err result ValueError).
    set (check := fun _ _ _ : vec => true). set (locked := fun _ : list lelem => @nil (nat * nat)). set (modules := fun _ : string => m_ie).
    assert (SV : solver_ok (fun _ => cramer2) (op_size load_t load_es)) by exact cramer2_ok.
    edestruct (C214_op (fun _ => cramer2) csolve JT check locked PropsDc.default_opts (mkTd false true 0) false 20 20 20 30 tran_opts 0 0 at_time (fun _ => vzero) false (fun m => m) modules (fun _ => false) 1
      Session.default_opts rest (fun _ r => Ok r)) with (parts := load_parts) (t := load_t) (es := load_es) (line := lit ".op") as (x & M & _);
      [exact LD|discriminate|exact SO|repeat constructor; cbn [passive]; rewrite ?d_int; lra|apply load_any|exact SV|reflexivity|lia|lia|reflexivity|lra
      |intros x; eexists; reflexivity|exact DI|reflexivity|].
    exists x. do 24 eexists. exists (fun _ => Some load_lines), (fun _ => Err NetlistParseError), 1%nat, 1%nat, (lit "f"). eexists. exists [lit ".op"], [], (lit ".op"), [], []. exists true.
    split; [exact M|]. split; [exact DI|]. split; [reflexivity|]. split; [reflexivity|]. split; [constructor|]. split; [discriminate|]. split; [exact SV|].
    split; [reflexivity|]. split; [lia|]. split; [lia|]. split; reflexivity. }
  destruct X as (x & F). exists x.
  destruct (C231_op at_time load_parts load_t load_es x 0 6 F) with (n := lit "a") (name := lit "VA") as (v & A & B);
    [exact SO|apply load_any| |lra|cbn; auto|discriminate|reflexivity|exists v; auto].
  repeat constructor; cbn [divides]; rewrite ?d_int; try lra; unfold dc_source, driven, written_dc; rewrite d_int; lra.
Qed.

(** A sweep of the source from 0 V to 6 V: the voltages reported lie between 0 V and 6 V. *)
Definition load_swept : list str := map lit ["load"; "V1 a 0 type=vdc vdc=6"; "R1 a 0 2"; ".op"; ".dc v1 0 6 6"]%string.
Definition load_an : list (str * Directive.val) :=
  [(lit "type", VStr (lit "dc")); (lit "source", VStr (lit "v1")); (lit "start", VNum (0, 0)%Z); (lit "stop", VNum (6, 0)%Z); (lit "step", VNum (6, 0)%Z); (lit "sweep_type", VStr (lit "LIN"))].
Example C231_sweep_example : forall at_time csolve JT check locked damp_first acit trit topt cmin skip inv modules has_module rounds settings rest, exists x rows v0 v1,
  main_file (fun _ => cramer2) csolve JT check locked PropsDc.default_opts (mkTd false true 0) damp_first 20 acit trit 30 topt cmin 0 at_time (fun _ => vzero) skip inv modules has_module rounds settings rest (fun _ r => Ok r)
    (fun _ => Some load_swept) (fun _ => Err NetlistParseError) 1 1 (lit "f") = Ok (load_parts, load_t, load_es, [(lit "op", ROp (Some (x, true))); (lit "dc", RDc (Some rows))]) /\
  dc_report load_t load_es (lit "v1") rows (lit "v1") = Ok [0; 6] /\ dc_report load_t load_es (lit "v1") rows (lit "VA") = Ok [v0; v1] /\ v0 = 0 /\ 0 <= v1 <= 6.
Proof.
  intros at_time csolve JT check locked damp_first acit trit topt cmin skip inv modules has_module rounds settings rest.
  assert (LD : load_all (fun _ => Some load_swept) (fun _ => Err NetlistParseError) 1 1 (lit "f") = Ok (load_parts, load_t, load_es)) by amp_load.
  assert (DI : directives (fun _ => Some load_swept) 1 (lit "f") [lit ".op"; lit ".dc v1 0 6 6"])
    by (amp_dirs (lit "load") load_swept [BLine (lit "v1 a 0 type=vdc vdc=6"); BLine (lit "r1 a 0 2"); BLine (lit ".op"); BLine (lit ".dc v1 0 6 6")]).
  assert (SV : solver_ok (fun _ => cramer2) (op_size load_t load_es)) by exact cramer2_ok. assert (US : forall line l, (fun _ : str => @Err (list pelem) NetlistParseError) line = Ok l -> Forall word_names l) by discriminate.
  assert (SO : Forall (sound load_parts) load_parts) by (repeat constructor; discriminate). assert (PA0 : Forall passive load_parts) by (repeat constructor; cbn [passive]; rewrite d_int; lra).
  destruct (op_exec (fun _ => cramer2) csolve JT check locked PropsDc.default_opts (mkTd false true 0) damp_first 20 acit trit 30 topt cmin 0 at_time (fun _ => vzero) skip inv modules has_module rounds settings rest
    _ _ 1 1 (lit "f") _ _ _ LD US SO PA0 (load_any _) SV eq_refl ltac:(lia) ltac:(lia) eq_refl ltac:(lra)) as (x & EX & RP).
  destruct (C209_load _ _ _ _ _ _ US LD) as (other & OT & LD').
  assert (AX : lin_axis 0 6 ((6 - 0) / 6 + 1) = Ok (mkAxis 0 6 0 0 2)).
  { replace ((6 - 0) / 6 + 1) with 2 by lra. unfold lin_axis, Rlt_b. destruct (Rlt_dec 2 2); [lra|]. destruct (Rlt_dec 2 1); [lra|]. destruct (Rlt_dec 1 2); [|lra]. cbn [andb]. do 2 f_equal. lra. }
  assert (CO : collect lin_next (S (S (Z.to_nat (up ((6 - 0) / 6 + 1))))) (mkAxis 0 6 0 0 2) = Some [0; 0 + 6]).
  { replace ((6 - 0) / 6 + 1) with 2 by lra. assert (U : exists m, Z.to_nat (up 2) = S m).
    { destruct (archimed 2) as (U & _). assert (0 < up 2)%Z by (apply lt_IZR; lra). exists (Nat.pred (Z.to_nat (up 2))). lia. }
    destruct U as (m & ->). unfold lin_next, axis_next, Rlt_b. cbn -[INR Rplus]. destruct (Rlt_dec (INR 1) 2) as [_|Q]; [|cbn in Q; lra]. cbn -[INR Rplus].
    destruct (Rlt_dec (INR 2) 2) as [Q|_]; [cbn in Q; lra|]. reflexivity. }
  destruct (C195_sweep _ _ _ _ _ _ _ LD' (fun line l H => Forall_impl _ (fun e He => proj1 He) (OT line l H)) SO PA0 (fun id => at_time id 0) (fun _ => cramer2) JT check locked PropsDc.default_opts (mkTd false true 0) 20 29 0
    (fun _ => vzero) skip 0 6 6 (lit "v1") None (PV (lit "v1") (lit "a") (lit "0") (Some (6, 0)%Z) None None) _ _ (proj1 SV) (proj2 SV) eq_refl ltac:(lia) eq_refl ltac:(lra) (or_introl eq_refl)
    ltac:(split; [reflexivity|eexists; reflexivity]) ltac:(lra) ltac:(lra) AX CO (fun v _ => load_any _)) as (rows & RUN & MF).
  assert (M : main_file (fun _ => cramer2) csolve JT check locked PropsDc.default_opts (mkTd false true 0) damp_first 20 acit trit 30 topt cmin 0 at_time (fun _ => vzero) skip inv modules has_module rounds settings rest (fun _ r => Ok r)
    (fun _ => Some load_swept) (fun _ => Err NetlistParseError) 1 1 (lit "f") = Ok (load_parts, load_t, load_es, [(lit "op", ROp (Some (x, true))); (lit "dc", RDc (Some rows))])).
  { unfold main_file. rewrite LD. cbn [bindr]. destruct (read_lines _ _ _ _ DI) as (s & RD & DR). rewrite RD. cbn [bindr]. cbv zeta. rewrite DR.
    change (parse_ics [lit ".op"; lit ".dc v1 0 6 6"]) with (@Ok (list (Directive.val * list (str * Directive.val))) []). cbn [bindr ic_vectors mapr concat].
    assert (PA : parse_analysis [lit ".op"; lit ".dc v1 0 6 6"] = Ok [op_an; load_an]) by (vm_compute; reflexivity). rewrite PA. cbn [bindr].
    change (map as_an [op_an; load_an]) with [mkAn (list (str * Directive.val)) result (lit "op") (Some (XNone result)) op_an; mkAn (list (str * Directive.val)) result (lit "dc") None load_an].
    rewrite (op_dc _ _ _ _ load_an (ROp (Some (x, true))) (ROp (Some (x, true))) (RDc (Some rows)) EX eq_refl); [reflexivity|].
    unfold exec, num, txt. change (streqb (lit "dc") (lit "op")) with false. change (streqb (lit "dc") (lit "dc")) with true. cbv iota.
    change (dget streqb load_an (lit "start")) with (Some (VNum (0, 0)%Z)). change (dget streqb load_an (lit "stop")) with (Some (VNum (6, 0)%Z)). change (dget streqb load_an (lit "step")) with (Some (VNum (6, 0)%Z)).
    change (dget streqb load_an (lit "source")) with (Some (VStr (lit "v1"))). change (dget streqb load_an (lit "sweep_type")) with (Some (VStr (lit "LIN"))). cbn [bindr].
    change (String.eqb (stype3 (ss (lit "LIN"))) "LIN") with true. cbv iota. rewrite !d_int. unfold at_dc. rewrite RUN. reflexivity. }
  set (words := [lit "v1"; lit "0"; lit "6"; lit "6"]).
  assert (NE : forall v, In v words -> no_equals v) by (intros v H; cbn in H; repeat (destruct H as [<-|H]; [unfold no_equals; cbn; intuition discriminate|]); destruct H).
  edestruct (C231_sweep (fun _ => cramer2) csolve JT check locked PropsDc.default_opts (mkTd false true 0) damp_first 20 acit trit 30 topt cmin 0 at_time (fun _ => vzero) skip inv modules has_module rounds settings rest (fun _ r => Ok r))
    with (dirs := [lit ".op"; lit ".dc v1 0 6 6"]) (before := [lit ".op"]) (line := lit ".dc v1 0 6 6") (after := @nil str) (words := words) (source := lit "v1") (a := 0) (b := 6) (s := 6) as (r & DG & K);
    [exact M|exact DI|reflexivity|reflexivity|constructor| | | | | |exact US|exact SO|exact SV|reflexivity|lia|lia|reflexivity| | |intros; apply load_any|].
  - split; [apply NE; left; reflexivity|exists 0%nat; right; split; reflexivity].
  - exists (lit "0"), (0, 0)%Z. split; [split; [apply NE; cbn; auto|exists 1%nat; right; split; reflexivity]|split; [reflexivity|rewrite d_int; reflexivity]].
  - exists (lit "6"), (6, 0)%Z. split; [split; [apply NE; cbn; auto|exists 2%nat; right; split; reflexivity]|split; [reflexivity|rewrite d_int; reflexivity]].
  - exists (lit "6"), (6, 0)%Z. split; [split; [apply NE; cbn; auto|exists 3%nat; right; split; reflexivity]|split; [reflexivity|rewrite d_int; reflexivity]].
  - left. intros i w W. split; [intros v ->|discriminate]. cbn in W. do 4 (destruct i as [|i]; [cbn in W; discriminate W|]). destruct i; discriminate W.
  - intros n IN. cbn in IN. repeat (destruct IN as [<-|IN]; [discriminate|]). destruct IN.
  - intros id IN. cbn in IN. destruct IN as [<-|[]]. discriminate.
  - injection DG as <-. destruct (K rows eq_refl) as (e & IE & (NS & _) & AG). clear K.
    assert (EE : e = PV (lit "v1") (lit "a") (lit "0") (Some (6, 0)%Z) None None) by (destruct IE as [<-|[<-|[]]]; [reflexivity|discriminate NS]). subst e.
    destruct (AG (lit "a") (lit "VA") (or_introl eq_refl) ltac:(discriminate) eq_refl) as (l & R1 & R2 & F). rewrite MF in R1, F. rewrite Rplus_0_l in R1, F.
    inversion F as [|? v ? l1 B0 F1]; subst. inversion F1 as [|? v' ? l2 B6 F2]; subst. inversion F2; subst. exists x, rows, v, v'. split; [exact M|]. split; [exact R1|]. split; [exact R2|].
    assert (DV : forall z, 0 <= z -> Forall (divides (swept (fun id => at_time id 0) (lit "v1") z) 0 z) load_parts).
    { intros z Z0. apply Forall_cons; [|apply Forall_cons; [|apply Forall_nil]]; cbn [divides]; [|rewrite d_int; lra].
      change (swept (fun id => at_time id 0) (lit "v1") z (PV (lit "v1") (lit "a") (lit "0") (Some (6, 0)%Z) None None)) with z. split; [reflexivity|lra]. }
    split; [|apply B6; [lra|apply DV; lra]]. enough (0 <= v <= 0) by lra. apply B0; [lra|apply DV; lra].
Qed.
