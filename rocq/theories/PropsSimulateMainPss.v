(** Periodic steady states in the dictionary of results of the program (C221). *)
From Coq Require Import Ascii String Reals List Bool Arith ZArith Lia Lra.
From Verif Require Import Base BaseFacts Str Units Directive Lines Reader Netlist ModelLines Nodes NodesFacts Circuit CircuitFacts Rsum Mna MnaSpec DcSolve DcSolveFacts Newton
  NewtonFacts DynFacts Df Tran TranFacts PropsTran Ac AcFacts Sweep Csv PropsCsv Results PropsDirective PropsReader PropsNetlist PropsResults PropsMna PropsDc PropsAc Session PropsSetup
  RunQueue Ics Subckt PropsSubckt Simulate PropsSimulate SimulateAc PropsSimulateAc SimulateDc PropsSimulateDc SimulateTran PropsSimulateTran SimulateNl PropsSimulateNl
  SimulateSub PropsSimulateSub SimulateMain PropsSimulateMain Pss PropsPss SimulatePss PropsSimulatePss PropsSimulatePssNl Waves SimulateMainPss.
Import ListNotations.
Open Scope R_scope.

(** ** Natural numbers *)
Lemma pow10_IZR : forall e, (0 <= e)%Z -> powerRZ 10 e = IZR (10 ^ e).
Proof.
  intros e H. rewrite <- (Z2Nat.id e H). rewrite <- pow_powerRZ, <- pow_IZR. reflexivity.
Qed.
Lemma dnat_spec : forall d n, dR d = INR n -> dnat d = Some n.
Proof.
  intros [m e] n H. unfold dR in H. cbn [fst snd] in H. unfold dnat. rewrite INR_IZR_INZ in H.
  assert (P10 : 0 < powerRZ 10 e) by (apply powerRZ_lt; lra).
  assert (M : (0 <= m)%Z). { apply le_IZR. assert (0 <= IZR (Z.of_nat n)) by (apply IZR_le; lia). destruct (Rle_dec 0 (IZR m)) as [|N]; [assumption|]. exfalso. nra. }
  destruct (Z.ltb_spec m 0); [lia|]. destruct (Z.leb_spec 0 e) as [E|E].
  - rewrite (pow10_IZR e E), <- mult_IZR in H. apply eq_IZR in H. rewrite H, Nat2Z.id. reflexivity.
  - assert (Q : m = (Z.of_nat n * 10 ^ (- e))%Z).
    { apply eq_IZR. rewrite mult_IZR, <- H, <- pow10_IZR by lia. rewrite Rmult_assoc, <- powerRZ_add by lra. replace (e + - e)%Z with 0%Z by lia. cbn. ring. }
    assert (T : (0 < 10 ^ (- e))%Z) by (apply Z.pow_pos_nonneg; lia).
    rewrite Q, Z.mod_mul, Z.div_mul, Nat2Z.id by lia. reflexivity.
Qed.

(** A number of the line, or none. *)
Definition amount (label : string) (words : list str) (v : option R) : Prop :=
  match v with Some q => quantity label None words q | None => absent label None words end.
(** The method: what the line says, shooting if it says nothing. *)
Definition method_is (words : list str) (m : string) : Prop :=
  (exists v, parameter "method" None words v /\ lower (ss v) = m) \/ (absent "method" None words /\ m = "shooting"%string).

Section PssProgram.
  Variable solve : nat -> mat -> vec -> option vec.
  Variable csolve : cmat -> cvec -> option cvec.
  Variable JT : vec -> mat * vec.
  Variable check : vec -> vec -> vec -> bool.
  Variable locked : list lelem -> list (nat * nat).
  Variables (o : dopts) (tdo : tdopts) (damp_first : bool) (maxit acit trit fuel : nat) (topt : topts) (cmin gmin : R).
  Variable at_time : str -> R -> R.
  Variable guess : list lelem -> vec.
  Variable skip : bool.
  Variable inv : mat -> mat.
  Variable modules : string -> dfm.
  Variable has_module : string -> bool.
  Variable rounds : nat.
  Variable settings : Session.opts.
  Variable others : list pelem * ntab * list lelem -> str -> list (str * Directive.val) -> option result -> res result.
  Variable icmod : list pelem * ntab * list lelem -> result -> res result.
  (** The devices, and the other functions of numpy. *)
  Variable square : pelem -> bool.
  Variable current : pelem -> list R -> R.
  Variable conductance : pelem -> list R -> nat -> R.
  Variable msolve : nat -> mat -> mat -> option mat.
  Variable minv : nat -> mat -> option mat.
  Variable tol : tols.
  Variables (bf_default limit bf_iter sh_default sh_iter : nat).
  Local Notation pss_ := (pss_analysis solve msolve minv square current conductance locked tdo tol cmin at_time bf_default limit bf_iter JT check o trit fuel topt gmin inv modules
    has_module rounds sh_default sh_iter).
  Local Notation rest_ := (pss_rest solve msolve minv square current conductance locked tdo tol cmin at_time bf_default limit bf_iter JT check o trit fuel topt gmin inv modules
    has_module rounds sh_default sh_iter others).
  Local Notation main_ := (main_file solve csolve JT check locked o tdo damp_first maxit acit trit fuel topt cmin gmin at_time guess skip inv modules has_module rounds settings rest_ icmod).
  Local Notation dget_ := (dget streqb).

  (** The analysis that the line asks for. *)
  Lemma pss_from : forall fs user depth files filename parts t es rs dirs before line after words period step n m,
    main_ fs user depth files filename = Ok (parts, t, es, rs) -> directives fs files filename dirs -> dirs = before ++ line :: after ->
    asks "pss" line words -> Forall (fun l => ~ of_type "pss" l) after ->
    quantity "period" (Some 0)%nat words period -> quantity "points" None words (INR n) -> amount "step" words step -> method_is words m ->
    load_all fs user depth files filename = Ok (parts, t, es) /\
    exists method r, lower method = m /\ pss_ method t parts es period step (Some n) None = Ok r /\ dget_ rs (lit "pss") = Some (RPss r).
  Proof.
    intros fs user depth files filename parts t es rs dirs before line after words period step n m M DI BLA A LAST QP QN QS ME.
    assert (IC : is_ic line = false) by (apply (asks_ic "pss" line words A); intros x Q; discriminate Q).
    edestruct main_line as (LD & ics & xs0 & pre & an & post & xs & x0 & r & _ & _ & _ & PL_ & _ & ST & BE & EX & DG & OG); [exact M|exact DI|exact BLA|exact IC|]. split; [exact LD|].
    assert (ND : ~ In c_dot (lit "pss")) by (cbn; intuition discriminate). assert (LO : slower (lit "pss") = lit "pss") by reflexivity.
    pose proof (type_of "pss" line words an A ND LO PL_) as TY. rewrite TY in EX, DG.
    destruct (single_line line "pss" words an A PL_ ND LO) as (tbl & an1 & IT & P & _ & SAME & _). specialize (SAME ltac:(discriminate) ltac:(discriminate)). subst an1.
    assert (TB : tbl = Directive.pss_table) by (cbn in IT; repeat (destruct IT as [IT|IT]; [try discriminate IT; congruence|]); destruct IT). rewrite TB in IT, P.
    destruct (quantity_value _ _ _ _ _ "period" _ period _ IT P QP ltac:(unfold no_equals; cbn; intuition discriminate) ltac:(left; reflexivity) eq_refl eq_refl eq_refl) as (d1 & D1 & E1).
    destruct (quantity_value _ _ _ _ _ "points" _ (INR n) _ IT P QN ltac:(unfold no_equals; cbn; intuition discriminate) ltac:(right; left; reflexivity) eq_refl eq_refl eq_refl) as (d2 & D2 & E2).
    symmetry in E2. apply dnat_spec in E2.
    assert (D3 : opt_num an "step" = Ok step).
    { unfold opt_num. destruct step as [st|]; cbn [amount] in QS.
      - destruct (quantity_value _ _ _ _ _ "step" _ st _ IT P QS ltac:(unfold no_equals; cbn; intuition discriminate) ltac:(right; right; left; reflexivity) eq_refl eq_refl eq_refl) as (d3 & D3 & E3).
        cbn [s_dest sp] in D3. rewrite D3, E3. reflexivity.
      - pose proof (absent_value _ _ _ _ _ "step" _ _ IT P QS ltac:(right; right; left; reflexivity) eq_refl eq_refl) as D3. cbn [s_dest sp s_default] in D3. rewrite D3. reflexivity. }
    assert (D4 : exists v, dget_ an (lit "method") = Some (VStr v) /\ lower (ss v) = m).
    { destruct ME as [(v & PV & LV)|(AV & ->)].
      - exists v. split; [|exact LV].
        destruct (parameter_value _ _ _ _ _ "method" _ v _ IT P PV ltac:(unfold no_equals; cbn; intuition discriminate) ltac:(right; right; right; right; left; reflexivity) eq_refl eq_refl) as (x5 & X5 & D5).
        match type of X5 with convert ?w _ = _ => assert (X5' : Ok (VStr w) = Ok x5) by exact X5 end. injection X5' as <-. exact D5.
      - exists (lit "shooting"). split; [|reflexivity]. exact (absent_value _ _ _ _ _ "method" _ _ IT P AV ltac:(right; right; right; right; left; reflexivity) eq_refl eq_refl). }
    destruct D4 as (v & D4 & LV).
    (* no starting point *)
    assert (X0 : dget_ an (lit "x0") = None).
    { destruct (C45_values Directive.pss_table _ words an (C45_tables (lit "pss") _ (or_introl IT)) P) as (_ & _ & OTHER). specialize (OTHER (lit "x0")). rewrite OTHER; [reflexivity|].
      intros s IS E. cbn in IS. repeat (destruct IS as [<-|IS]; [discriminate E|]). destruct IS. }
    unfold begins_at, as_an in BE. cbn [a_x0] in BE. rewrite X0 in BE. subst x0.
    cbn [s_dest sp] in D1, D2. unfold exec in EX. change (streqb (lit "pss") (lit "op")) with false in EX. change (streqb (lit "pss") (lit "dc")) with false in EX.
    change (streqb (lit "pss") (lit "ac")) with false in EX. change (streqb (lit "pss") (lit "tran")) with false in EX. cbv iota in EX.
    unfold pss_rest, num, txt in EX. change (streqb (lit "pss") (lit "pss")) with true in EX. cbv iota in EX. rewrite D1, D2, D3, D4 in EX. cbn [bindr start_of] in EX. rewrite E2 in EX.
    apply bindr_Ok in EX. destruct EX as (r' & OR & E). injection E as <-. rewrite <- E1 in OR. exists (ss v), r'. split; [exact LV|]. split; [exact OR|].
    apply DG. rewrite Forall_forall in LAST |- *. intros l L. exact (not_of "pss" l (LAST l L)).
  Qed.

  (** The number of points, if there is no step. *)
  Lemma points_only : forall n period d k h, check_step_and_points None (Some n) period d = Ok (k, h) -> k = n.
  Proof. intros n period d k h H. unfold check_step_and_points in H. destruct n as [|[|n]]; cbn in H; [discriminate H|discriminate H|]. injection H as <- _. reflexivity. Qed.

  Section Line.
    Variables (fs : str -> option (list str)) (user : str -> res (list pelem)) (depth files : nat) (filename : str).
    Variables (parts : list pelem) (t : ntab) (es : list lelem) (rs : list (str * result)) (dirs before : list str) (line : str) (after words : list str).
    Variables (period : R) (step : option R) (n : nat).
    Hypothesis M : main_ fs user depth files filename = Ok (parts, t, es, rs).
    Hypothesis DI : directives fs files filename dirs.
    Hypothesis BLA : dirs = before ++ line :: after.
    Hypothesis A : asks "pss" line words.
    Hypothesis LAST : Forall (fun l => ~ of_type "pss" l) after.
    Hypothesis QP : quantity "period" (Some 0)%nat words period.
    Hypothesis QN : quantity "points" None words (INR n).
    Hypothesis QS : amount "step" words step.
    (** The names of the elements made by user-defined methods are words in lower case. *)
    Hypothesis US : forall line l, user line = Ok l -> Forall word_names l.
    Hypothesis PP : 0 < period.
    Hypothesis SP : forall st, step = Some st -> 0 < st <= period.
    Local Notation src time := (driven (fun id => at_time id time) written_dc).

    (** ** C221: a period of the netlist is reported *)
    Theorem C221_brute_force : method_is words "brute-force" -> Forall (ac_sound parts) parts -> (forall n, solves n (solve n)) ->
      exists r, dget_ rs (lit "pss") = Some (RPss r) /\ forall rows, r = Some rows ->
      exists h first rest,
        spans period h (first :: rest) /\ shows (pss_report t es rows) parts (first :: rest) /\ (step = None -> S (List.length rest) = n) /\
        (* at each point after the first the laws hold, the derivatives being backward differences *)
        marches (fun time => src time) 0 (Rmax 0 cmin) parts DImplicitEuler (rev (first :: rest)) /\
        (* the last point is the first *)
        (forall n, In n (node_list parts) -> n <> lit "0" -> p_V (last rest first) n = p_V first n) /\
        (forall id, In id (current_ids parts) -> p_I (last rest first) id = p_I first id).
    Proof.
      intros ME SC SS. destruct (pss_from _ _ _ _ _ _ _ _ _ _ _ _ _ _ _ _ _ _ M DI BLA A LAST QP QN QS ME) as (LD & method & r & LM & RUN & DG).
      exists r. split; [exact DG|]. intros rows ->. destruct (C209_load _ _ _ _ _ _ US LD) as (other & OT & LD').
      destruct (C202_brute_force _ _ _ _ _ _ _ LD' OT SC _ _ _ _ _ _ _ _ _ _ _ _ _ _ _ _ _ _ _ _ _ _ _ _ _ _ _ _ _ _ _ _ _ SS PP SP LM RUN) as (h & p0 & rest & CS & S1 & S2 & S3 & S4 & S5).
      exists h, p0, rest. repeat split; try assumption; try apply S1; try apply S2. intros ->. exact (points_only _ _ _ _ _ CS).
    Qed.
    Print Assumptions C221_brute_force.

    Theorem C221_shooting : method_is words "shooting" -> Forall (ac_sound parts) parts ->
      (forall n, solves n (solve n)) -> (forall n, msolves n (msolve n)) -> (forall n, inverts n (minv n)) ->
      exists r, dget_ rs (lit "pss") = Some (RPss r) /\ forall rows, r = Some rows ->
      exists h first rest before,
        spans period h (first :: rest) /\ shows (pss_report t es rows) parts (first :: rest) /\ (step = None -> S (List.length rest) = n) /\
        (* at each point the laws hold, the derivatives being backward differences; a step before the first point the values
           are those of the last one *)
        marches (fun time => src time) 0 (Rmax 0 cmin) parts DImplicitEuler (rev (before :: first :: rest)) /\ p_t before = - h /\
        (forall n, In n (node_list parts) -> n <> lit "0" -> p_V before n = p_V (last rest first) n) /\
        (forall id, In id (current_ids parts) -> p_I before id = p_I (last rest first) id).
    Proof.
      intros ME SC SS SM SI. destruct (pss_from _ _ _ _ _ _ _ _ _ _ _ _ _ _ _ _ _ _ M DI BLA A LAST QP QN QS ME) as (LD & method & r & LM & RUN & DG).
      exists r. split; [exact DG|]. intros rows ->. destruct (C209_load _ _ _ _ _ _ US LD) as (other & OT & LD').
      destruct (C203_shooting _ _ _ _ _ _ _ LD' OT SC _ _ _ _ _ _ _ _ _ _ _ _ _ _ _ _ _ _ _ _ _ _ _ _ _ _ _ _ _ _ _ _ _ SS SM SI PP SP LM RUN) as (h & p0 & rest & p1 & CS & S1 & S2 & S3 & S4 & S5 & S6).
      exists h, p0, rest, p1. repeat split; try assumption; try apply S1; try apply S2. intros ->. exact (points_only _ _ _ _ _ CS).
    Qed.
    Print Assumptions C221_shooting.
    (** With devices: the laws hold for the tangents at the values before the last step of Newton's method, which was short. *)
    Theorem C221_brute_force_devices : method_is words "brute-force" -> Forall (nl_sound parts) parts -> (forall n, solves n (solve n)) -> 0 < d_max tdo ->
      exists r, dget_ rs (lit "pss") = Some (RPss r) /\ forall rows, r = Some rows ->
      exists h pts V0 I0 V1 I1 part,
        (2 <= pts)%nat /\ 0 < h /\ INR (pts - 1) * h = period /\ (step = None -> pts = n) /\
        let V k n := V0 k n + part * (V1 k n - V0 k n) in
        let I k id := I0 k id + part * (I1 k id - I0 k id) in
        0 < part <= 1 /\ reports (pss_report t es rows) parts pts h V I /\
        all_small (Newton.t_ver tol) (Newton.t_vea tol) pts (fun n => In n (node_list parts) /\ n <> lit "0") V V0 V1 /\
        all_small (Newton.t_ier tol) (Newton.t_iea tol) pts (fun id => In id (current_ids parts)) I I0 I1 /\
        (forall k, (1 <= k < pts)%nat -> tan_laws square current conductance (src (INR k * h)) (Rmax 0 cmin) parts (V0 k) (V1 k) (I1 k)
           (fun n => (V1 k n - V1 (k - 1)%nat n) / h) (fun id => (I1 k id - I1 (k - 1)%nat id) / h)) /\
        (forall n, In n (node_list parts) -> n <> lit "0" -> V1 (pts - 1)%nat n = V1 0%nat n) /\
        (forall id, In id (current_ids parts) -> I1 (pts - 1)%nat id = I1 0%nat id).
    Proof.
      intros ME SC SS DM. destruct (pss_from _ _ _ _ _ _ _ _ _ _ _ _ _ _ _ _ _ _ M DI BLA A LAST QP QN QS ME) as (LD & method & r & LM & RUN & DG).
      exists r. split; [exact DG|]. intros rows ->. destruct (C209_load _ _ _ _ _ _ US LD) as (other & OT & LD').
      destruct (C205_brute_force _ _ _ _ _ _ _ LD' OT SC _ _ _ _ _ _ _ _ _ _ _ _ _ _ _ _ _ _ _ _ _ _ _ _ _ _ _ _ _ _ _ _ _ SS DM PP SP LM RUN)
        as (h & pts & V0 & I0 & V1 & I1 & part & CS & B & H0 & HP & RST).
      exists h, pts, V0, I0, V1, I1, part. repeat (split; [assumption|]). split; [|exact RST]. intros ->. exact (points_only _ _ _ _ _ CS).
    Qed.
    Print Assumptions C221_brute_force_devices.

    Theorem C221_shooting_devices : method_is words "shooting" -> Forall (nl_sound parts) parts ->
      (forall n, solves n (solve n)) -> (forall n, msolves n (msolve n)) -> (forall n, inverts n (minv n)) -> 0 < d_max tdo ->
      exists r, dget_ rs (lit "pss") = Some (RPss r) /\ forall rows, r = Some rows ->
      exists h pts V0 I0 V1 I1 part,
        (2 <= pts)%nat /\ 0 < h /\ INR (pts - 1) * h = period /\ (step = None -> pts = n) /\
        let V k n := V0 k n + part k * (V1 k n - V0 k n) in
        let I k id := I0 k id + part k * (I1 k id - I0 k id) in
        (forall k, (k < pts)%nat -> 0 < part k <= 1) /\ reports (pss_report t es rows) parts pts h V I /\
        both_small (Rmin (Newton.t_ver tol) (Newton.t_ier tol)) (Rmin (Newton.t_vea tol) (Newton.t_iea tol)) pts parts V V0 V1 I I0 I1 /\
        (forall k, (k < pts)%nat -> tan_laws square current conductance (src (INR k * h)) (Rmax 0 cmin) parts (V0 k) (V1 k) (I1 k)
           (fun n => (V1 k n - V1 (PropsPss.before pts k) n) / h) (fun id => (I1 k id - I1 (PropsPss.before pts k) id) / h)).
    Proof.
      intros ME SC SS SM SI DM. destruct (pss_from _ _ _ _ _ _ _ _ _ _ _ _ _ _ _ _ _ _ M DI BLA A LAST QP QN QS ME) as (LD & method & r & LM & RUN & DG).
      exists r. split; [exact DG|]. intros rows ->. destruct (C209_load _ _ _ _ _ _ US LD) as (other & OT & LD').
      destruct (C205_shooting _ _ _ _ _ _ _ LD' OT SC _ _ _ _ _ _ _ _ _ _ _ _ _ _ _ _ _ _ _ _ _ _ _ _ _ _ _ _ _ _ _ _ _ SS SM SI DM PP SP LM RUN)
        as (h & pts & V0 & I0 & V1 & I1 & part & CS & B & H0 & HP & RST).
      exists h, pts, V0, I0, V1, I1, part. repeat (split; [assumption|]). split; [|exact RST]. intros ->. exact (points_only _ _ _ _ _ CS).
    Qed.
    Print Assumptions C221_shooting_devices.
  End Line.
End PssProgram.

(** The circuit of C203, and a line that says that it oscillates by itself. *)
Definition lone_line : str := lit ".pss 1 points=3 autonomous=yes".
Definition lone : list str := [lit "swing"; lit "I1 0 a type=sin 0.5 0.5 1 -0.25 0"; lit "R1 a 0 1"; lit "C1 a 0 1"; lone_line].
Definition lone_an : list (str * Directive.val) :=
  [(lit "type", VStr (lit "pss")); (lit "period", VNum (1, 0)%Z); (lit "points", VNum (3, 0)%Z); (lit "autonomous", VBool true); (lit "step", VNone); (lit "method", VStr (lit "shooting"))].
Lemma lone_load : load_all (fun _ => Some lone) (fun _ => Err NetlistParseError) 1 1 (lit "f") = Ok (swing_parts, swing_t, swing_es).
Proof.
  unfold load_all.
  match goal with |- context [read_netlist ?a ?b ?c] => let r := eval vm_compute in (read_netlist a b c) in change (read_netlist a b c) with r end.
  cbn [bindr r_models r_lines r_subs map parse_subs parse_models fst snd].
  match goal with |- context [main_netlist_parser ?a ?b ?c ?d] => let r := eval vm_compute in (main_netlist_parser a b c d) in change (main_netlist_parser a b c d) with r end. cbn [bindr].
  cbv -[dR]. reflexivity.
Qed.
Lemma one_pss : forall (C : Type) (c : C) ex ic (par : list (str * Directive.val)) (r : result), ex c (lit "pss") par None = Ok r ->
  fst (RunQueue.main C _ _ (fun ty => mem ty known_types) ex ic c [] [mkAn _ _ (lit "pss") None par] (mkSt C _ _ [] [] [])) = Ok [(lit "pss", r)].
Proof. intros C c ex ic par r H. cbv in H. cbv. rewrite H. reflexivity. Qed.

Section Lone.
  Variable csolve : cmat -> cvec -> option cvec.
  Variable square : pelem -> bool.
  Variable current : pelem -> list R -> R.
  Variable conductance : pelem -> list R -> nat -> R.
  Variable locked : list lelem -> list (nat * nat).
  Variable tol : tols.
  Variable JT : vec -> mat * vec.
  Variable check : vec -> vec -> vec -> bool.
  Variable inv : mat -> mat.
  Variable modules : string -> dfm.
  Variable has_module : string -> bool.
  Variables (bf_default limit bf_iter sh_default sh_iter : nat) (gmin : R).
  Variables (damp_first : bool) (maxit acit : nat) (guess : list lelem -> vec) (skip : bool) (settings : Session.opts).
  Variable others : list pelem * ntab * list lelem -> str -> list (str * Directive.val) -> option result -> res result.
  Variable icmod : list pelem * ntab * list lelem -> result -> res result.
  Local Notation main_ := (main_file (only1 PropsPss.solve1) csolve JT check locked PropsDc.default_opts (mkTd false true 0) damp_first maxit acit 20 30 tran_opts 0 gmin (wave_of swing_parts)
      guess skip inv modules has_module 30 settings
      (pss_rest (only1 PropsPss.solve1) (only1 msolve1) (only1' inv1) square current conductance locked (mkTd false true 0) tol 0 (wave_of swing_parts) bf_default limit bf_iter JT check
        PropsDc.default_opts 20 30 tran_opts gmin inv modules has_module 30 sh_default sh_iter others) icmod).

  (** The manual (doc/help/Netlist-Syntax.rst) says that the simulator halts if [autonomous] is true, and so does
      ahkab/bfpss.py 66-70.  The program takes no notice, and the voltage that it reports for the end of the period is not the
      one for its start (C203). *)
  Theorem C221_refuted : 0 < gmin -> 0 <= Rmin (Newton.t_ver tol) (Newton.t_ier tol) -> 0 < Rmin (Newton.t_vea tol) (Newton.t_iea tol) -> (4 <= sh_iter)%nat ->
    exists words rows, In lone_line lone /\ asks "pss" lone_line words /\
      parameter "autonomous" None words (lit "yes") /\ convert (lit "yes") TBool = Ok (VBool true) /\
      main_ (fun _ => Some lone) (fun _ => Err NetlistParseError) 1 1 (lit "f") = Ok (swing_parts, swing_t, swing_es, [(lit "pss", RPss (Some rows))]) /\
      (forall t, 0 <= t -> wave_of swing_parts (lit "i1") (t + 1) = wave_of swing_parts (lit "i1") t) /\
      pss_report swing_t swing_es rows (lit "T") = Ok [0; 1 / 2; 1] /\ pss_report swing_t swing_es rows (lit "VA") = Ok [15 / 19; 10 / 19; 13 / 19].
  Proof.
    intros GM ER EA SI. destruct C203_refuted as (_ & _ & WP & RU).
    destruct (RU square current conductance locked tol JT check inv modules has_module bf_default limit bf_iter sh_default sh_iter gmin None GM ER EA SI) as (rows & RUN & RT & RV). clear RU.
    assert (DR : exists s, read_netlist (fun _ => Some lone) 1 (lit "f") = Ok s /\ map fst (r_dirs s) = [lone_line]) by (eexists; split; vm_compute; reflexivity).
    exists [lit "1"; lit "points=3"; lit "autonomous=yes"], rows. split; [do 4 right; left; reflexivity|]. split; [reflexivity|].
    split; [split; [unfold no_equals; cbn; intuition discriminate|exists 2%nat; left; reflexivity]|]. split; [reflexivity|].
    split; [|split; [exact WP|split; [exact RT|exact RV]]].
    unfold main_file. rewrite lone_load. cbn [bindr].
    destruct DR as (s & -> & DR). cbn [bindr]. cbv zeta. rewrite DR.
    change (parse_ics [lone_line]) with (@Ok (list (Directive.val * list (str * Directive.val))) []). cbn [bindr ic_vectors mapr concat].
    assert (PA : parse_analysis [lone_line] = Ok [lone_an]) by (vm_compute; reflexivity). rewrite PA. cbn [bindr map].
    change (as_an lone_an) with (mkAn (list (str * Directive.val)) result (lit "pss") None lone_an).
    rewrite (one_pss _ (swing_parts, swing_t, swing_es) _ _ lone_an (RPss (Some rows))); [reflexivity|].
    unfold exec. change (streqb (lit "pss") (lit "op")) with false. change (streqb (lit "pss") (lit "dc")) with false. change (streqb (lit "pss") (lit "ac")) with false.
    change (streqb (lit "pss") (lit "tran")) with false. cbv iota.
    unfold pss_rest, num, txt, opt_num. change (streqb (lit "pss") (lit "pss")) with true. cbv iota.
    change (dget streqb lone_an (lit "period")) with (Some (VNum (1, 0)%Z)). change (dget streqb lone_an (lit "step")) with (Some VNone).
    change (dget streqb lone_an (lit "points")) with (Some (VNum (3, 0)%Z)). change (dget streqb lone_an (lit "method")) with (Some (VStr (lit "shooting"))). cbv iota. cbn [bindr start_of].
    change (dnat (3, 0)%Z) with (Some 3%nat). cbv iota. rewrite dR_0. change (ss (lit "shooting")) with "shooting"%string. rewrite RUN. reflexivity.
  Qed.
  Print Assumptions C221_refuted.
End Lone.

(** The line of the refutation is one of those of the theorem. *)
Example C221_example : let words := [lit "1"; lit "points=3"; lit "autonomous=yes"] in
  asks "pss" lone_line words /\ method_is words "shooting" /\ amount "step" words None /\ quantity "points" None words (INR 3) /\ quantity "period" (Some 0)%nat words 1 /\
  Forall (ac_sound swing_parts) swing_parts.
Proof.
  intros words. split; [reflexivity|].
  assert (AB : forall label, match list_ascii_of_string label with c :: _ => c <> "1"%char /\ c <> "p"%char /\ c <> "a"%char | [] => False end -> absent label None words).
  { intros label NC i w H. split; [|discriminate]. intros v E. subst w. destruct label as [|c label]; [destruct NC|]. destruct NC as (N1 & N2 & N3).
    destruct i as [|[|[|[|i]]]]; try discriminate H; injection H as H; congruence. }
  split; [right; split; [apply AB; cbn; intuition discriminate|reflexivity]|]. split; [apply AB; cbn; intuition discriminate|].
  split; [exists (lit "3"), (3, 0)%Z; split; [split; [unfold no_equals; cbn; intuition discriminate|exists 1%nat; left; reflexivity]|split; [reflexivity|unfold dR; simpl; lra]]|].
  split; [exists (lit "1"), (1, 0)%Z; split; [split; [unfold no_equals; cbn; intuition discriminate|exists 0%nat; right; split; reflexivity]|split; [reflexivity|unfold dR; simpl; lra]]|].
  repeat constructor.
Qed.
