(** Property theorems about the words of the directives, the set-up of a DC sweep, the
    checks on a circuit, user-defined elements, the constructors of the waveforms, resistors,
    the output files and coupled inductors (C178-C191). *)
From Coq Require Import Reals QArith String Ascii List Bool Arith ZArith Lia Lra.
From Verif Require Import Base BaseFacts Str Units Directive PropsDirective Nodes NodesFacts Circuit CircuitFacts Mna Newton NewtonFacts Sweep SweepFacts TimeFun Netlist PropsParse PropsTime Session PropsSubckt.
Import ListNotations.
Open Scope nat_scope.

(** * C178: documented words of the directives *)

(** [word=value]. *)
Definition setting_of (w : string) (v : str) : str := (lit w ++ c_eq :: v)%list.
Definition no_equals (v : str) : Prop := ~ In c_eq v.

(** The manual (doc/help/Netlist-Syntax.rst): directive, word, type of the value, and the
    argument of the analysis that it is. *)
Definition manual : list (string * string * ptype * string) :=
  [("op", "guess", TBool, "guess"); ("op", "ic_label", TStr, "x0");
   ("dc", "start", TFloat, "start"); ("dc", "stop", TFloat, "stop"); ("dc", "step", TFloat, "step"); ("dc", "type", TStr, "sweep_type");
   ("tran", "tstep", TFloat, "tstep"); ("tran", "tstop", TFloat, "tstop"); ("tran", "tstart", TFloat, "tstart");
   ("tran", "ic_label", TStr, "x0"); ("tran", "method", TStr, "method");
   ("ac", "start", TFloat, "start"); ("ac", "stop", TFloat, "stop"); ("ac", "nsteps", TFloat, "points");
   ("pss", "period", TFloat, "period"); ("pss", "points", TFloat, "points"); ("pss", "step", TFloat, "step");
   ("pss", "method", TStr, "method"); ("pss", "autonomous", TBool, "autonomous");
   ("pz", "output", TStr, "output_port"); ("pz", "shift", TFloat, "shift");
   ("symbolic", "tf", TStr, "source"); ("symbolic", "ac", TBool, "ac_enable")]%string.

(** And those that the manual has and the program does not know. *)
Definition manual_unknown : list (string * string) :=
  [("dc", "src"); ("ac", "sweep_type"); ("pz", "source"); ("pz", "zeros")]%string.

Lemma filter_no_eq : forall v, no_equals v -> filter is_eq v = [].
Proof.
  induction v as [|c v IH]; intros N; [reflexivity|]. cbn [filter]. unfold is_eq at 1. destruct (ascii_dec c c_eq) as [->|_].
  - exfalso. apply N. left. reflexivity.
  - apply IH. intros K. apply N. right. exact K.
Qed.
Lemma span_no_eq : forall l v, no_equals l -> span (fun c => negb (is_eq c)) (l ++ c_eq :: v) = (l, c_eq :: v).
Proof.
  induction l as [|c l IH]; intros v N; [reflexivity|]. cbn [app span]. unfold is_eq at 1. destruct (ascii_dec c c_eq) as [->|_].
  - exfalso. apply N. left. reflexivity.
  - cbn [negb]. rewrite IH; [reflexivity|]. intros K. apply N. right. exact K.
Qed.
Lemma setting_label : forall w v, no_equals (lit w) -> no_equals v -> label_value (setting_of w v) = (Some (lit w), v).
Proof.
  intros w v W V. unfold label_value, setting_of, is_valid_value_param_string. rewrite filter_app. cbn [filter].
  change (is_eq c_eq) with true. cbv iota. rewrite (filter_no_eq _ W), (filter_no_eq _ V), span_no_eq by exact W. reflexivity.
Qed.

Ltac entry_of L := match L with
  | ?t :: ?L' => first [ exists t; repeat split; [cbn; auto 12; fail|..]; reflexivity | entry_of L' ]
  end.

Theorem C178_words : forall ty w pt dest tbl an0 toks an v,
  In (ty, w, pt, dest) manual -> In (lit ty, tbl) specs -> parse_params tbl an0 toks = Ok an ->
  In (setting_of w v) (live toks) -> no_equals v ->
  exists x, convert v pt = Ok x /\ dget streqb an (lit dest) = Some x.
Proof.
  intros ty w pt dest tbl an0 toks an v M T P I V.
  assert (CL : clear tbl) by (apply (C45_tables (lit ty)); left; exact T).
  assert (Q : no_equals (lit w) /\ exists t, In t tbl /\ s_label t = Some (lit w) /\ s_type t = pt /\ s_dest t = lit dest).
  { clear P I V CL. cbn in M. repeat destruct M as [M|M]; try contradiction; injection M as <- <- <- <-;
      (split; [intros K; cbn in K; repeat destruct K as [K|K]; try discriminate K; contradiction|]);
      cbn in T; repeat destruct T as [T|T]; try contradiction; try (exfalso; discriminate (f_equal fst T)); injection T as <-;
      match goal with |- exists t, In t ?L /\ _ => let L' := eval cbv in L in idtac end;
      match goal with |- exists t, In t ?L /\ _ => let L' := eval unfold op_table, dc_table, ac_table, tran_table, pss_table, pz_table, symbolic_table in L in entry_of L' end. }
  destruct Q as (W & t & T1 & T2 & <- & <-). apply In_nth_error in I. destruct I as [i I].
  destruct (C45_values tbl an0 toks an CL P) as (A & _). pose proof (setting_label w v W V) as E.
  destruct (A i (setting_of w v) t I) as (x & X & D); [split; [exact T1|rewrite E; exact T2]|].
  rewrite E in X. exists x. split; assumption.
Qed.
Print Assumptions C178_words.

Theorem C178_refuted : forall ty w tbl an0 toks v, In (ty, w) manual_unknown -> In (lit ty, tbl) specs ->
  In (setting_of w v) (live toks) -> no_equals v -> parse_params tbl an0 toks = Err NetlistParseError.
Proof.
  intros ty w tbl an0 toks v M T I V.
  assert (CL : clear tbl) by (apply (C45_tables (lit ty)); left; exact T).
  apply (C45_rejects tbl an0 toks CL). intros (A & _). apply In_nth_error in I. destruct I as [i I].
  destruct (A i _ I) as (t & x & (B & L) & _).
  assert (W : no_equals (lit w)).
  { cbn in M. repeat destruct M as [M|M]; try contradiction; injection M as <- <-; intros K; cbn in K; repeat destruct K as [K|K]; try discriminate K; contradiction. }
  rewrite (setting_label w v W V) in L. cbn [fst] in L. clear A I CL W.
  cbn in M. repeat destruct M as [M|M]; try contradiction; injection M as <- <-;
    cbn in T; repeat destruct T as [T|T]; try contradiction; try (discriminate (f_equal fst T)); injection T as <-;
    cbn in B; repeat destruct B as [B|B]; try contradiction; subst t; discriminate L.
Qed.
Print Assumptions C178_refuted.
Example C178_example :
  parse_single_analysis (lit ".dc v1 start=0 stop=5 step=1") = parse_single_analysis (lit ".dc v1 0 5 1") /\
  isOk (parse_single_analysis (lit ".dc v1 start=0 stop=5 step=1")) = true /\
  parse_single_analysis (lit ".dc src=v1 start=0 stop=5 step=1") = Err NetlistParseError /\
  parse_single_analysis (lit ".ac start=1 stop=1k nsteps=10 sweep_type=lin") = Err NetlistParseError.
Proof. repeat split; reflexivity. Qed.

(** * C179: .op guess=<ic_label> *)

Definition yes_or_no : list string := ["no"; "false"; "0"; "yes"; "true"; "1"]%string.

(** The manual: .op [guess=<ic_label>].  A label is refused there, unless it is a word that
    means yes or no. *)
Theorem C179_refuted : forall an0 toks v, In (setting_of "guess" v) (live toks) -> no_equals v ->
  (forall s, In s yes_or_no -> v <> lit s) -> parse_params op_table an0 toks = Err NetlistParseError.
Proof.
  intros an0 toks v I V N.
  assert (CL : clear op_table) by (apply (C45_tables (lit "op")); left; cbn; auto).
  apply (C45_rejects op_table an0 toks CL). intros (A & _). apply In_nth_error in I. destruct I as [i I].
  destruct (A i _ I) as (t & x & (B & L) & C).
  assert (W : no_equals (lit "guess")) by (intros K; cbn in K; repeat destruct K as [K|K]; try discriminate K; contradiction).
  rewrite (setting_label "guess" v W V) in L, C. cbn [fst snd] in L, C.
  cbn in B. repeat destruct B as [B|B]; try contradiction; subst t; [|discriminate L]. cbn [s_type sp convert] in C.
  unfold convert_boolean in C.
  repeat match type of C with context [streqb v (lit ?s)] => destruct (streqb_spec v (lit s)) as [K|_]; [exact (N s ltac:(cbn; auto 10) K)|] end.
  discriminate C.
Qed.
Print Assumptions C179_refuted.
(** It is [ic_label] that names the starting point. *)
Theorem C179_ic_label : forall an0 toks an v, In (setting_of "ic_label" v) (live toks) -> no_equals v ->
  parse_params op_table an0 toks = Ok an -> dget streqb an (lit "x0") = Some (VStr v).
Proof.
  intros an0 toks an v I V P.
  destruct (C178_words "op" "ic_label" TStr "x0" op_table an0 toks an v) as (x & X & D); try assumption; [cbn; auto|cbn; auto|].
  injection X as <-. exact D.
Qed.
Print Assumptions C179_ic_label.
Example C179_example :
  parse_single_analysis (lit ".op guess=start") = Err NetlistParseError /\
  parse_single_analysis (lit ".op ic_label=start") = Ok [(lit "type", VStr (lit "op")); (lit "x0", VStr (lit "start")); (lit "guess", VBool true)].
Proof. split; reflexivity. Qed.

(** * C180: .symbolic without ac= *)

(** The manual: ac=<bool>, the default is False.  It is True. *)
Theorem C180_refuted : forall an0 toks an, (forall v, ~ In (setting_of "ac" v) (live toks)) ->
  parse_params symbolic_table an0 toks = Ok an -> dget streqb an (lit "ac_enable") = Some (VBool true).
Proof.
  intros an0 toks an N P.
  assert (CL : clear symbolic_table) by (apply (C45_tables (lit "symbolic")); left; cbn; auto 10).
  destruct (C45_values symbolic_table an0 toks an CL P) as (A & B & _).
  refine (proj2 (B (sp "ac" None TBool false "ac_enable" (VBool true)) _ _)); [cbn; auto|].
  intros i tok K (_ & L). destruct (label_value tok) as [l v] eqn:E. cbn [fst] in L. destruct l as [l|]; [|destruct L; discriminate].
  cbn [s_label sp] in L. injection L as L. apply (N v). apply nth_error_In with i. rewrite K. f_equal.
  unfold label_value in E. destruct (is_valid_value_param_string tok) eqn:Q; [|discriminate E].
  destruct (span (fun c => negb (is_eq c)) tok) as [a b] eqn:S'. injection E as -> <-. subst l.
  unfold is_valid_value_param_string in Q. apply Nat.eqb_eq in Q.
  assert (X : forall t a b, span (fun c => negb (is_eq c)) t = (a, b) -> filter is_eq t <> [] -> t = (a ++ c_eq :: tl b)%list).
  { clear. induction t as [|c t IH]; intros a b S' F; [contradiction|]. cbn [span filter] in S', F. destruct (is_eq c) eqn:Ec; cbn [negb] in S'.
    - injection S' as <- <-. cbn [app tl]. f_equal. unfold is_eq in Ec. destruct (ascii_dec c c_eq); [assumption|discriminate].
    - destruct (span (fun c => negb (is_eq c)) t) as [a' b'] eqn:S2. injection S' as <- <-. cbn [app]. f_equal. apply IH; [reflexivity|exact F]. }
  rewrite (X _ _ _ S'); [reflexivity|]. intros Z. rewrite Z in Q. discriminate.
Qed.
Print Assumptions C180_refuted.
Theorem C180_explicit : forall an0 toks an v, In (setting_of "ac" v) (live toks) -> no_equals v -> parse_params symbolic_table an0 toks = Ok an ->
  exists b, convert_boolean v = Ok b /\ dget streqb an (lit "ac_enable") = Some (VBool b).
Proof.
  intros an0 toks an v I V P.
  destruct (C178_words "symbolic" "ac" TBool "ac_enable" symbolic_table an0 toks an v) as (x & X & D); try assumption; [cbn; auto 30|cbn; auto 10|].
  cbn [convert] in X. destruct (convert_boolean v) as [b|]; [|discriminate]. cbn [bindr] in X. injection X as <-. exists b. split; [reflexivity|exact D].
Qed.
Print Assumptions C180_explicit.
Example C180_example :
  dget streqb (match parse_single_analysis (lit ".symbolic tf=v1") with Ok an => an | Err _ => [] end) (lit "ac_enable") = Some (VBool true) /\
  dget streqb (match parse_single_analysis (lit ".symbolic ac=no") with Ok an => an | Err _ => [] end) (lit "ac_enable") = Some (VBool false).
Proof. split; reflexivity. Qed.

(** * C181: PHASE of a sine *)

(** The manual: SIN(VO VA FREQ TD THETA PHASE).  A phase is refused, with or without a label. *)
Theorem C181_refuted : forall toks v, In (setting_of "phase" v) (live toks) -> no_equals v -> parse_time_function (lit "sin") toks = Err NetlistParseError.
Proof.
  intros toks v I V. unfold parse_time_function. change (dget streqb time_fun_specs (lit "sin")) with (Some sin_table). cbv iota.
  assert (CL : clear sin_table) by (apply (C45_tables (lit "sin")); right; left; cbn; auto).
  rewrite (C45_rejects sin_table [] toks CL); [reflexivity|]. intros (A & _). apply In_nth_error in I. destruct I as [i I].
  destruct (A i _ I) as (t & x & (B & L) & _).
  assert (W : no_equals (lit "phase")) by (intros K; cbn in K; repeat destruct K as [K|K]; try discriminate K; contradiction).
  rewrite (setting_label "phase" v W V) in L. cbn [fst] in L.
  cbn in B. repeat destruct B as [B|B]; try contradiction; subst t; discriminate L.
Qed.
Print Assumptions C181_refuted.
Theorem C181_six_words_refuted : forall words, (5 < List.length words)%nat -> Forall PropsDirective.plain words -> parse_time_function (lit "sin") words = Err NetlistParseError.
Proof.
  intros words N PW. unfold parse_time_function. change (dget streqb time_fun_specs (lit "sin")) with (Some sin_table). cbv iota.
  assert (CL : clear sin_table) by (apply (C45_tables (lit "sin")); right; left; cbn; auto).
  rewrite (C45_rejects sin_table [] words CL); [reflexivity|]. intros (A & _). rewrite (plain_live words PW) in A.
  destruct (nth_error words 5) as [w|] eqn:K; [|apply nth_error_None in K; lia].
  destruct (A 5 w K) as (t & x & (B & L) & _). apply nth_error_In in K. rewrite Forall_forall in PW. destruct (PW w K) as [E _].
  rewrite E in L. cbn in B. repeat destruct B as [B|B]; try contradiction; subst t; destruct L as [L|L]; discriminate L.
Qed.
Print Assumptions C181_six_words_refuted.
(** The five others, in the order of the manual. *)
Theorem C181_five_words : forall vo va fr td th nvo nva nfr ntd nth',
  Forall PropsDirective.plain [vo; va; fr; td; th] -> convert_units vo = Ok nvo -> convert_units va = Ok nva -> convert_units fr = Ok nfr ->
  convert_units td = Ok ntd -> convert_units th = Ok nth' ->
  parse_time_function (lit "sin") [vo; va; fr; td; th] =
  Ok (lit "sin", [(lit "vo", VNum nvo); (lit "va", VNum nva); (lit "freq", VNum nfr); (lit "td", VNum ntd); (lit "theta", VNum nth')]).
Proof.
  intros vo va fr td th nvo nva nfr ntd nth' P C1 C2 C3 C4 C5. unfold parse_time_function.
  change (dget streqb time_fun_specs (lit "sin")) with (Some sin_table). cbv iota.
  inversion P as [|? ? P1 P']; subst. inversion P' as [|? ? P2 P'']; subst. inversion P'' as [|? ? P3 P''']; subst. inversion P''' as [|? ? P4 Q]; subst. inversion Q as [|? ? P5 _]; subst.
  unfold parse_params. cbn [ploop]. unfold sin_table, fl, sp.
  rewrite (proj2 P1), (plain_value _ P1). cbn [take_first matches optnat_eqb s_pos s_label Nat.eqb orb optstr_eqb s_type s_dest]. unfold convert at 1. rewrite C1. cbn [bindr].
  rewrite (proj2 P2), (plain_value _ P2). cbn [take_first matches optnat_eqb s_pos s_label Nat.eqb orb optstr_eqb s_type s_dest]. unfold convert at 1. rewrite C2. cbn [bindr].
  rewrite (proj2 P3), (plain_value _ P3). cbn [take_first matches optnat_eqb s_pos s_label Nat.eqb orb optstr_eqb s_type s_dest]. unfold convert at 1. rewrite C3. cbn [bindr].
  rewrite (proj2 P4), (plain_value _ P4). cbn [take_first matches optnat_eqb s_pos s_label Nat.eqb orb optstr_eqb s_type s_dest]. unfold convert at 1. rewrite C4. cbn [bindr].
  rewrite (proj2 P5), (plain_value _ P5). cbn [take_first matches optnat_eqb s_pos s_label Nat.eqb orb optstr_eqb s_type s_dest]. unfold convert at 1. rewrite C5. cbn [bindr].
  reflexivity.
Qed.
Print Assumptions C181_five_words.
Example C181_example :
  parse_time_function (lit "sin") [lit "0"; lit "1"; lit "1k"; lit "0"; lit "0"; lit "90"] = Err NetlistParseError /\
  isOk (parse_time_function (lit "sin") [lit "0"; lit "1"; lit "1k"; lit "0"; lit "0"]) = true.
Proof. split; reflexivity. Qed.

(** * C182: the values of a DC sweep *)
Open Scope R_scope.

Lemma dc_setup_inv : forall es start stop step source st ax k, dc_setup es start stop step source st = Ok (ax, k) ->
  step <> 0 /\ 0 <= (stop - start) * step /\
  match ax with
  | DcLog a => stop <> start /\ a = log_axis start stop ((stop - start) / step + 1)
  | DcLin a => lin_axis start stop ((stop - start) / step + 1) = Ok a
  end.
Proof.
  intros es start stop step source st ax k H. unfold dc_setup in H. destruct source as [|c s]; [discriminate|]. cbv zeta in H.
  destruct (String.eqb st "LOG" && Rlt_b (stop - start) 0); [discriminate|].
  destruct (Rlt_b ((stop - start) * step) 0) eqn:N; [discriminate|]. apply Rlt_b_false in N.
  destruct (Req_EM_T step 0) as [|Z]; [discriminate|]. split; [exact Z|]. split; [exact N|].
  apply bindr_Ok in H. destruct H as (ax' & A & H).
  assert (ax' = ax) as ->.
  { destruct (negb (Ascii.eqb (lower_ascii c) "v") && negb (Ascii.eqb (lower_ascii c) "i")); [discriminate|].
    destruct (find_source es (Ascii.eqb (lower_ascii c) "v") (String c s) 0); congruence. }
  destruct (String.eqb (stype3 st) "LOG").
  - destruct (Req_EM_T ((stop - start) / step + 1) 1) as [|P]; [discriminate|]. injection A as <-. split; [|reflexivity].
    intros ->. apply P. field. exact Z.
  - destruct (String.eqb (stype3 st) "LIN"); [|discriminate]. apply bindr_Ok in A. destruct A as (a & L & A). injection A as <-. exact L.
Qed.

Lemma log_inc : forall start stop step, 0 < start -> 0 < stop -> stop <> start -> step <> 0 ->
  ax_inc (log_axis start stop ((stop - start) / step + 1)) = exp (step / (stop - start) * ln (stop / start)).
Proof.
  intros start stop step P Q D Z. unfold log_axis, Rpower, log10. cbn [ax_inc]. f_equal.
  assert (L : 0 < ln 10) by (rewrite <- ln_1; apply ln_increasing; lra).
  assert (E : ln (stop / start) = ln stop - ln start).
  { unfold Rdiv. rewrite ln_mult by (auto; apply Rinv_0_lt_compat; exact P). rewrite ln_Rinv by exact P. ring. }
  rewrite E. field. repeat split; lra.
Qed.

(** A linear sweep goes through [start], [start + step], ... as long as there are points. *)
Theorem C182_linear : forall es start stop step source st a k, dc_setup es start stop step source st = Ok (DcLin a, k) ->
  exists n, (INR n < (stop - start) / step + 2 /\ (stop - start) / step + 1 <= INR n) /\
    forall fuel, (n < fuel)%nat -> collect lin_next fuel a = Some (map (fun i => start + INR i * step) (seq 0 n)).
Proof.
  intros es start stop step source st a k H. destruct (dc_setup_inv _ _ _ _ _ _ _ _ H) as (Z & N & L).
  assert (PP : 0 <= (stop - start) / step).
  { replace ((stop - start) / step) with ((stop - start) * step / (step * step)) by (field; exact Z).
    apply Rmult_le_pos; [exact N|]. apply Rlt_le, Rinv_0_lt_compat. exact (Rsqr_pos_lt step Z). }
  unfold lin_axis in L. set (p := (stop - start) / step + 1) in *.
  destruct (Rlt_b p 2 && negb (if Req_EM_T start stop then true else false)) eqn:B; [discriminate|].
  destruct (Rlt_b p 1); [discriminate|]. injection L as <-.
  destruct (cnt_exists p) as (n & C & _ & N0); [unfold p; lra|]. exists n. split; [destruct C as [C1 C2]; unfold p in *; split; lra|].
  intros fuel F. erewrite lin_collect; [|reflexivity|reflexivity|exact C|exact N0|exact F]. cbn [ax_min ax_inc].
  f_equal. apply map_ext_in. intros i I. apply in_seq in I. destruct (Rlt_b 1 p) eqn:E.
  - apply Rlt_b_true in E. unfold p. unfold p in E.
    assert (stop - start <> 0) by (intros K; rewrite K in E; unfold Rdiv in E; lra). field. split; [exact Z|lra].
  - apply Rlt_b_false in E. destruct C as [C _]. assert (n < 2)%nat by (apply INR_lt; simpl; lra).
    replace i with 0%nat by lia. simpl. ring.
Qed.
Print Assumptions C182_linear.

(** A logarithmic sweep: the ratio of two values is not [step]. *)
Theorem C182_log : forall es start stop step source st a k, 0 < start -> 0 < stop ->
  dc_setup es start stop step source st = Ok (DcLog a, k) ->
  exists n, (INR n < (stop - start) / step + 2 /\ (stop - start) / step + 1 <= INR n) /\
    forall fuel, (n < fuel)%nat ->
      collect log_next fuel a = Some (map (fun i => start * Rpower (stop / start) (INR i * step / (stop - start))) (seq 0 n)).
Proof.
  intros es start stop step source st a k P Q H. destruct (dc_setup_inv _ _ _ _ _ _ _ _ H) as (Z & N & D & ->).
  assert (PP : 0 <= (stop - start) / step).
  { replace ((stop - start) / step) with ((stop - start) * step / (step * step)) by (field; exact Z).
    apply Rmult_le_pos; [exact N|]. apply Rlt_le, Rinv_0_lt_compat. exact (Rsqr_pos_lt step Z). }
  destruct (cnt_exists ((stop - start) / step + 1)) as (n & C & _ & N0); [lra|]. exists n. split; [destruct C as [C1 C2]; split; lra|].
  intros fuel F. erewrite log_collect; [|reflexivity|reflexivity|exact C|exact N0|exact F].
  rewrite log_inc by assumption. cbn [ax_min log_axis]. f_equal. apply map_ext. intros i. f_equal.
  rewrite <- (Rpower_pow i _ (exp_pos _)). unfold Rpower. rewrite ln_exp. f_equal. field. lra.
Qed.
Print Assumptions C182_log.

(** An analysis that [new_dc] describes by a number of points goes through that many values, from [start] to [stop] included. *)
Theorem C182_points : forall es start stop points step source st ax k, (2 <= points)%nat -> start <> stop -> 0 < start /\ 0 < stop \/ stype3 st = "LIN"%string ->
  new_dc_step start stop points = Ok step -> dc_setup es start stop step source st = Ok (ax, k) -> forall fuel, (points < fuel)%nat ->
  match ax with
  | DcLin a => collect lin_next fuel a = Some (map (fun i => start + INR i * ((stop - start) / (INR points - 1))) (seq 0 points))
  | DcLog a => collect log_next fuel a = Some (map (fun i => start * Rpower (stop / start) (INR i / (INR points - 1))) (seq 0 points))
  end.
Proof.
  intros es start stop points step source st ax k P D PO NS H fuel F. unfold new_dc_step in NS.
  destruct (points =? 1)%nat eqn:E1; [apply Nat.eqb_eq in E1; lia|]. injection NS as <-.
  assert (P2 : 2 <= INR points) by (apply le_INR in P; simpl in P; lra).
  assert (Q : (stop - start) / ((stop - start) / (INR points - 1)) = INR points - 1) by (field; split; lra).
  assert (CN : forall n, INR n < INR points - 1 + 2 /\ INR points - 1 + 1 <= INR n -> n = points).
  { intros n (C1 & C2). assert (n < S points)%nat by (apply INR_lt; rewrite S_INR; lra). assert (points <= n)%nat by (apply INR_le; lra). lia. }
  destruct ax as [a|a].
  - assert (NL : stype3 st <> "LIN"%string).
    { intros E. unfold dc_setup in H. destruct source; [discriminate|]. cbv zeta in H. rewrite E in H.
      destruct (String.eqb st "LOG" && Rlt_b (stop - start) 0); [discriminate|].
      destruct (Rlt_b ((stop - start) * ((stop - start) / (INR points - 1))) 0); [discriminate|].
      destruct (Req_EM_T ((stop - start) / (INR points - 1)) 0); [discriminate|].
      change (String.eqb "LIN" "LOG") with false in H. change (String.eqb "LIN" "LIN") with true in H. cbv iota in H.
      destruct (lin_axis start stop ((stop - start) / ((stop - start) / (INR points - 1)) + 1)); [|discriminate]. cbn [bindr] in H.
      destruct (negb (Ascii.eqb (lower_ascii a0) "v") && negb (Ascii.eqb (lower_ascii a0) "i")); [discriminate|].
      destruct (find_source es (Ascii.eqb (lower_ascii a0) "v") (String a0 source) 0); discriminate. }
    destruct PO as [(PO & PO')|PO]; [|contradiction].
    destruct (C182_log _ _ _ _ _ _ _ _ PO PO' H) as (n & C & CL). rewrite Q in C. apply CN in C. subst n. rewrite (CL fuel F).
    f_equal. apply map_ext. intros i. f_equal. f_equal. field. split; lra.
  - destruct (C182_linear _ _ _ _ _ _ _ _ H) as (n & C & CL). rewrite Q in C. apply CN in C. subst n. exact (CL fuel F).
Qed.
Print Assumptions C182_points.

Definition v1_only : list lelem := [EV "v1" 1 0 0 false; ER "r1" 1 0 1].

(** The manual: S(k+1) = S(k) * step. *)
Theorem C182_log_refuted : exists es start stop step source a k v w rest, 0 < start < stop /\ 1 < step /\
  dc_setup es start stop step source "log" = Ok (DcLog a, k) /\ collect log_next 13 a = Some (v :: w :: rest) /\ w <> v * step.
Proof.
  set (a := log_axis 1 100 ((100 - 1) / 10 + 1)).
  exists v1_only, 1, 100, 10, "v1"%string, a, 0%nat, 1, (ax_inc a).
  assert (S0 : dc_setup v1_only 1 100 10 "v1" "log" = Ok (DcLog a, 0%nat)).
  { unfold dc_setup. cbv zeta. change (String.eqb "log" "LOG") with false. cbn [andb].
    replace (Rlt_b ((100 - 1) * 10) 0) with false by (symmetry; apply Rlt_b_false; lra).
    destruct (Req_EM_T 10 0) as [E|_]; [lra|]. change (String.eqb (stype3 "log") "LOG") with true. cbv iota.
    destruct (Req_EM_T ((100 - 1) / 10 + 1) 1) as [E|_]; [lra|]. reflexivity. }
  destruct (C182_log _ 1 100 _ _ _ _ _ ltac:(lra) ltac:(lra) S0) as (n & (C1 & C2) & CL).
  assert (n = 11)%nat as ->.
  { assert (n < 12)%nat by (apply INR_lt; simpl; lra). assert (10 < n)%nat by (apply INR_lt; simpl; lra). lia. }
  eexists. split; [lra|]. split; [lra|]. split; [exact S0|]. split.
  - rewrite (log_collect a 11 13); [|reflexivity|reflexivity|unfold a, cnt; cbn [ax_points log_axis]; split; simpl; lra|lia|lia].
    cbn [seq map]. change (ax_min a) with 1. f_equal. f_equal; [simpl; ring|]. f_equal. simpl. ring.
  - unfold a. rewrite log_inc by lra. intros E. rewrite Rmult_1_l in E.
    assert (L : 0 < ln 10) by (rewrite <- ln_1; apply ln_increasing; lra).
    rewrite <- (exp_ln 10) in E at 2 by lra. apply exp_inv in E.
    replace (100 / 1) with (10 * 10) in E by lra. rewrite ln_mult in E by lra. lra.
Qed.
Print Assumptions C182_log_refuted.
Example C182_example : exists a, dc_setup v1_only 0 5 1 "V1" "LINEAR" = Ok (DcLin a, 0%nat) /\
  collect lin_next 7 a = Some (map (fun i => 0 + INR i * 1) (seq 0 6)).
Proof.
  assert (L : lin_axis 0 5 ((5 - 0) / 1 + 1) = Ok (mkAxis 0 ((5 - 0) / ((5 - 0) / 1 + 1 - 1)) 0 0 ((5 - 0) / 1 + 1))).
  { unfold lin_axis. replace (Rlt_b ((5 - 0) / 1 + 1) 2) with false by (symmetry; apply Rlt_b_false; lra).
    replace (Rlt_b ((5 - 0) / 1 + 1) 1) with false by (symmetry; apply Rlt_b_false; lra).
    replace (Rlt_b 1 ((5 - 0) / 1 + 1)) with true by (symmetry; apply Rlt_b_true; lra). reflexivity. }
  assert (S0 : dc_setup v1_only 0 5 1 "V1" "LINEAR" = Ok (DcLin (mkAxis 0 ((5 - 0) / ((5 - 0) / 1 + 1 - 1)) 0 0 ((5 - 0) / 1 + 1)), 0%nat)).
  { unfold dc_setup. cbv zeta. change (String.eqb "LINEAR" "LOG") with false. cbn [andb].
    replace (Rlt_b ((5 - 0) * 1) 0) with false by (symmetry; apply Rlt_b_false; lra).
    destruct (Req_EM_T 1 0) as [E|_]; [lra|]. change (String.eqb (stype3 "LINEAR") "LOG") with false. change (String.eqb (stype3 "LINEAR") "LIN") with true.
    cbv iota. rewrite L. reflexivity. }
  eexists. split; [exact S0|]. destruct (C182_linear _ _ _ _ _ _ _ _ S0) as (n & (C1 & C2) & CL).
  assert (n = 6)%nat as ->.
  { assert (n < 7)%nat by (apply INR_lt; simpl; lra). assert (5 < n)%nat by (apply INR_lt; simpl; lra). lia. }
  apply CL. auto with arith.
Qed.

(** * C183: what a DC sweep refuses *)

(** A sweep starts exactly if: the name begins with V or I and there is a source of that
    kind with that name; the step leads from [start] to [stop] and is not 0; the type begins
    with lin or log; a logarithmic one has two different ends, a linear one at least two
    points or equal ends. *)
Definition dc_valid (es : list lelem) (start stop step : R) (source st : string) : Prop :=
  step <> 0 /\ 0 <= (stop - start) * step /\ ~ (st = "LOG"%string /\ stop < start) /\
  ((stype3 st = "LOG"%string /\ start <> stop) \/ (stype3 st = "LIN"%string /\ (start = stop \/ 1 <= (stop - start) / step))) /\
  exists e, In e es /\ lower (lid e) = lower source /\
    match e with EV id _ _ _ _ => exists s, lower source = String "v" s | EI id _ _ _ _ => exists s, lower source = String "i" s | _ => False end.

Lemma find_source_iff : forall es isv name k, (exists n, find_source es isv name k = Some n) <->
  exists e, In e es /\ lower (lid e) = lower name /\ match e with EV _ _ _ _ _ => isv = true | EI _ _ _ _ _ => isv = false | _ => False end.
Proof.
  induction es as [|e es IH]; intros isv name k; cbn [find_source].
  - split; [intros (n & N); discriminate|intros (e & [] & _)].
  - destruct (String.eqb_spec (lower (lid e)) (lower name)) as [E|E]; cbn [andb].
    + set (hit := match e with EV _ _ _ _ _ => isv | EI _ _ _ _ _ => negb isv | _ => false end). destruct hit eqn:Hh.
      * split; [intros _|intros _; eexists; reflexivity]. exists e. split; [left; reflexivity|]. split; [exact E|].
        subst hit. destruct e; try discriminate Hh; [exact Hh|]. destruct isv; [discriminate Hh|reflexivity].
      * rewrite IH. split; intros (f & F & G & K); exists f; (split; [|split; assumption]); [right; exact F|].
        destruct F as [<-|F]; [|exact F]. exfalso. subst hit. destruct e; try contradiction; rewrite K in Hh; discriminate Hh.
    + rewrite IH. split; intros (f & F & G & K); exists f; (split; [|split; assumption]); [right; exact F|].
      destruct F as [<-|F]; [congruence|exact F].
Qed.

Theorem C183_accepts : forall es start stop step source st,
  (exists r, dc_setup es start stop step source st = Ok r) <-> dc_valid es start stop step source st.
Proof.
  intros es start stop step source st. unfold dc_valid. split.
  - intros ([ax k] & H). pose proof (dc_setup_inv _ _ _ _ _ _ _ _ H) as (Z & N & A).
    split; [exact Z|]. split; [exact N|]. unfold dc_setup in H. destruct source as [|c s]; [discriminate|]. cbv zeta in H.
    split; [|split].
    + intros (-> & L). change (String.eqb "LOG" "LOG") with true in H. cbn [andb] in H.
      replace (Rlt_b (stop - start) 0) with true in H by (symmetry; apply Rlt_b_true; lra). discriminate.
    + destruct (String.eqb st "LOG" && Rlt_b (stop - start) 0); [discriminate|]. destruct (Rlt_b ((stop - start) * step) 0); [discriminate|].
      destruct (Req_EM_T step 0); [discriminate|]. apply bindr_Ok in H. destruct H as (ax' & B & _).
      destruct (String.eqb_spec (stype3 st) "LOG") as [E|_].
      * left. split; [exact E|]. intros ->. destruct (Req_EM_T ((stop - stop) / step + 1) 1) as [|P]; [discriminate|]. apply P. field. exact Z.
      * destruct (String.eqb_spec (stype3 st) "LIN") as [E|_]; [|discriminate]. right. split; [exact E|].
        apply bindr_Ok in B. destruct B as (a & L & _). unfold lin_axis in L.
        destruct (Req_EM_T start stop) as [Es|Es]; [left; exact Es|]. right. cbn [negb] in L. rewrite andb_true_r in L.
        destruct (Rlt_b ((stop - start) / step + 1) 2) eqn:Q; [discriminate|]. apply Rlt_b_false in Q. lra.
    + destruct (String.eqb st "LOG" && Rlt_b (stop - start) 0); [discriminate|]. destruct (Rlt_b ((stop - start) * step) 0); [discriminate|].
      destruct (Req_EM_T step 0); [discriminate|]. apply bindr_Ok in H. destruct H as (ax' & _ & H).
      destruct (Ascii.eqb_spec (lower_ascii c) "v") as [Ev|Ev]; destruct (Ascii.eqb_spec (lower_ascii c) "i") as [Ei|Ei]; cbn [negb andb] in H;
        try (rewrite Ev in Ei; discriminate Ei); try discriminate H.
      * destruct (find_source es true (String c s) 0) as [k'|] eqn:F; [|discriminate].
        destruct (proj1 (find_source_iff es true (String c s) 0) (ex_intro _ k' F)) as (e & I & L & M). exists e. split; [exact I|]. split; [exact L|].
        destruct e; try contradiction; try discriminate M. exists (lower s). cbn. rewrite Ev. reflexivity.
      * destruct (find_source es false (String c s) 0) as [k'|] eqn:F; [|discriminate].
        destruct (proj1 (find_source_iff es false (String c s) 0) (ex_intro _ k' F)) as (e & I & L & M). exists e. split; [exact I|]. split; [exact L|].
        destruct e; try contradiction; try discriminate M. exists (lower s). cbn. rewrite Ei. reflexivity.
  - intros (Z & N & LG & T & e & I & L & M). unfold dc_setup. destruct source as [|c s].
    { exfalso. destruct e; try contradiction; destruct M as (s & M); discriminate M. }
    cbv zeta.
    replace (String.eqb st "LOG" && Rlt_b (stop - start) 0) with false.
    2: { symmetry. apply not_true_is_false. intros B. apply andb_true_iff in B. destruct B as [B1 B2]. apply String.eqb_eq in B1. apply Rlt_b_true in B2. apply LG. split; [exact B1|lra]. }
    replace (Rlt_b ((stop - start) * step) 0) with false by (symmetry; apply Rlt_b_false; exact N).
    destruct (Req_EM_T step 0) as [|_]; [contradiction|].
    assert (FS : forall ax : dcaxis, exists r, (if negb (Ascii.eqb (lower_ascii c) "v") && negb (Ascii.eqb (lower_ascii c) "i") then Err SystemExit
        else match find_source es (Ascii.eqb (lower_ascii c) "v") (String c s) 0 with None => Err ValueError | Some k => Ok (ax, k) end) = Ok r).
    { intros ax. destruct e; try contradiction; destruct M as (s' & M); injection M as M1 _; rewrite M1.
      - destruct (proj2 (find_source_iff es true (String c s) 0) (ex_intro _ _ (conj I (conj L eq_refl)))) as (n & F).
        change (Ascii.eqb "v" "v") with true. cbn [negb andb]. rewrite F. eexists. reflexivity.
      - destruct (proj2 (find_source_iff es false (String c s) 0) (ex_intro _ _ (conj I (conj L eq_refl)))) as (n & F).
        change (Ascii.eqb "i" "v") with false. change (Ascii.eqb "i" "i") with true. cbn [negb andb]. rewrite F. eexists. reflexivity. }
    destruct T as [(T & D)|(T & D)]; rewrite T.
    + change (String.eqb "LOG" "LOG") with true. cbv iota. destruct (Req_EM_T ((stop - start) / step + 1) 1) as [E|_].
      * exfalso. apply D. assert (K : (stop - start) / step = 0) by lra. apply Rmult_eq_compat_r with (r := step) in K.
        unfold Rdiv in K. rewrite Rmult_assoc, Rinv_l in K by exact Z. lra.
      * cbn [bindr]. apply FS.
    + change (String.eqb "LIN" "LOG") with false. change (String.eqb "LIN" "LIN") with true. cbv iota. unfold lin_axis.
      replace (Rlt_b ((stop - start) / step + 1) 2 && negb (if Req_EM_T start stop then true else false)) with false.
      2: { symmetry. destruct (Req_EM_T start stop) as [_|Ne]; [apply andb_false_r|]. destruct D as [D|D]; [contradiction|]. rewrite andb_true_r. apply Rlt_b_false. lra. }
      replace (Rlt_b ((stop - start) / step + 1) 1) with false.
      2: { symmetry. apply Rlt_b_false. destruct D as [->|D]; [|lra]. unfold Rdiv. lra. }
      cbn [bindr]. apply FS.
Qed.
Print Assumptions C183_accepts.
(** A logarithmic sweep downwards, which the code means to refuse, is refused only if the
    type is written in capital letters; those of a netlist are small. *)
Theorem C183_log_down_refuted : forall es start stop step name n1 n2 v td, In (EV (String "v" name) n1 n2 v td) es -> stop < start -> step < 0 ->
  dc_setup es start stop step (String "v" name) "LOG" = Err SystemExit /\ exists r, dc_setup es start stop step (String "v" name) "log" = Ok r.
Proof.
  intros es start stop step name n1 n2 v td I D Z. split.
  - unfold dc_setup. cbv zeta. change (String.eqb "LOG" "LOG") with true.
    replace (Rlt_b (stop - start) 0) with true by (symmetry; apply Rlt_b_true; lra). reflexivity.
  - apply C183_accepts. split; [lra|]. split; [nra|]. split; [intros (E & _); discriminate E|]. split; [left; split; [reflexivity|lra]|].
    exists (EV (String "v" name) n1 n2 v td). split; [exact I|]. split; [reflexivity|]. exists (lower name). reflexivity.
Qed.
Print Assumptions C183_log_down_refuted.
Example C183_example : (exists r, dc_setup v1_only 100 1 (-1) "v1" "log" = Ok r) /\
  dc_setup v1_only 0 5 (-1) "v1" "lin" = Err ValueError /\ dc_setup v1_only 0 5 1 "r1" "lin" = Err SystemExit.
Proof.
  split; [eapply C183_log_down_refuted; [left; reflexivity|lra|lra]|]. split.
  - unfold dc_setup. cbv zeta. change (String.eqb "lin" "LOG") with false. cbn [andb].
    replace (Rlt_b ((5 - 0) * -1) 0) with true by (symmetry; apply Rlt_b_true; lra). reflexivity.
  - unfold dc_setup. cbv zeta. change (String.eqb "lin" "LOG") with false. cbn [andb].
    replace (Rlt_b ((5 - 0) * 1) 0) with false by (symmetry; apply Rlt_b_false; lra).
    destruct (Req_EM_T 1 0) as [E|_]; [lra|]. change (String.eqb (stype3 "lin") "LOG") with false. change (String.eqb (stype3 "lin") "LIN") with true.
    cbv iota. unfold lin_axis. replace (Rlt_b ((5 - 0) / 1 + 1) 2) with false by (symmetry; apply Rlt_b_false; lra).
    replace (Rlt_b ((5 - 0) / 1 + 1) 1) with false by (symmetry; apply Rlt_b_false; lra). reflexivity.
Qed.
Open Scope nat_scope.

(** * C184, C185: check_circuit *)

(** The check passes exactly for a circuit with at least two nodes, one of them "0", at
    least two elements, and no name used twice. *)
Theorem C184_check : forall c, cwf c ->
  (fst (check_circuit c) = true <->
   (2 <= get_nodes_number (tab c) /\ ext_node_to_int (tab c) "0" = Ok 0 /\ 2 <= List.length (elems c) /\ NoDup (map part_id (elems c)))).
Proof.
  intros c [T _]. unfold check_circuit.
  assert (G : dmem nkey_eqb (nodes_dict (tab c)) (KInt 0) = true <-> ext_node_to_int (tab c) "0" = Ok 0).
  { destruct T as [g [m I]]. rewrite (ninv_zero_mem _ _ _ I). unfold ext_node_to_int. change "0"%string with ground_name. rewrite (ni_gnd _ _ _ I).
    destruct g; split; intros H; try reflexivity; discriminate H. }
  destruct (get_nodes_number (tab c) <? 2) eqn:N.
  { apply Nat.ltb_lt in N. cbn [fst]. split; [discriminate|]. intros (H & _). lia. }
  apply Nat.ltb_ge in N. destruct (dmem nkey_eqb (nodes_dict (tab c)) (KInt 0)) eqn:Z; cbn [negb].
  2: { cbn [fst]. split; [discriminate|]. intros (_ & H & _). apply G in H. discriminate. }
  destruct (List.length (elems c) <? 2) eqn:L.
  { apply Nat.ltb_lt in L. cbn [fst]. split; [discriminate|]. intros (_ & _ & H & _). lia. }
  apply Nat.ltb_ge in L. destruct (has_duplicate_elem c) eqn:D; cbn [fst].
  - split; [discriminate|]. intros (_ & _ & _ & H). apply has_duplicate_spec in H. congruence.
  - split; [intros _|reflexivity]. split; [exact N|]. split; [apply G; reflexivity|]. split; [exact L|]. apply has_duplicate_spec. exact D.
Qed.
Print Assumptions C184_check.

(** The example of doc/help/Mutual-Inductors.rst ("Multiple coupling") names both couplings
    K1; with the names K1 and K2 it passes. *)
Definition center_tap (k2 : string) : circ :=
  let c := run_cops [AddB "LP" "n1" "n2" 1; AddB "LS1" "nA" "0" 1; AddB "LS2" "0" "nB" 1] empty_circ in
  let is_ind e := vdef e in
  fst (add_coupling is_ind (fst (add_coupling is_ind c "K1" "LP" "LS1" (1 # 2))) k2 "LP" "LS2" (1 # 2)).
Example C184_example :
  check_circuit (center_tap "K1") = (false, "duplicate elements found (check the names!)"%string) /\
  check_circuit (center_tap "K2") = (true, ""%string) /\ List.length (elems (center_tap "K2")) = 5 /\
  check_circuit (run_cops [AddR "R1" "a" "b" 1; AddR "R2" "a" "b" 1] empty_circ) = (false, "the circuit has no ref. Quitting."%string).
Proof. repeat split; vm_compute; reflexivity. Qed.

Definition touches (i : nat) (e : celem) : Prop :=
  at_n1 e = Some i \/ at_n2 e = Some i \/ at_sn1 e = Some i \/ at_sn2 e = Some i.

(** A circuit that passes need not have any element connected to the ground. *)
Theorem C185_ground_refuted : exists ops, let c := run_cops ops empty_circ in
  fst (check_circuit c) = true /\ forall e, In e (elems c) -> ~ touches 0 e.
Proof.
  exists [AddR "R1" "a" "0" 1; AddR "R2" "a" "b" 1; AddR "R3" "b" "a" 1; Rem "R1"]. cbv zeta. split; [vm_compute; reflexivity|].
  intros e I T. vm_compute in I. repeat destruct I as [I|I]; try contradiction; subst e; unfold touches in T; cbn in T;
    repeat destruct T as [T|T]; discriminate T.
Qed.
Print Assumptions C185_ground_refuted.

(** Without removals and refused insertions it has. *)
Fixpoint all_accepted (ops : list cop) (c : circ) : Prop :=
  match ops with
  | [] => True
  | o :: ops' => List.length (elems (step_cop c o)) = S (List.length (elems c)) /\ all_accepted ops' (step_cop c o)
  end.

Definition used (c : circ) : Prop := forall i, reg c i -> exists e, In e (elems c) /\ touches i e.

Lemma cadd_reg : forall c s, cwf c -> forall c' i j, cadd_node c (Text s) = (c', Ok i) -> reg c' j -> reg c j \/ j = i.
Proof.
  intros c s W c' i j H R. unfold cadd_node, add_node in H.
  destruct (dget nkey_eqb (nodes_dict (tab c)) (KStr s)) as [[n|u]|] eqn:E; cbn [fst snd] in H.
  - injection H as <- <-. left. exact R.
  - discriminate.
  - injection H as <- <-. unfold reg in *. cbn [tab set_tab nodes_dict] in R. rewrite get_register in R. cbn [nkey_eqb] in R.
    destruct (Nat.eqb_spec j (fresh_int (nodes_dict (tab c)) s)) as [Q|Q]; [right; exact Q|left; exact R].
Qed.

Ltac reg_step c s W c' i :=
  let W' := fresh "W" in let E := fresh "E" in let L := fresh "L" in let Q := fresh "Q" in
  destruct (cadd_node_wf c s W) as (c' & i & Q & W' & L & _ & _ & _ & _); pose proof (cadd_reg c s W c' i) as E; specialize (fun j => E j Q);
  rewrite Q in *; cbn [cbind] in *.

Lemma len_app1 : forall A (l : list A) x, List.length (l ++ [x]) = S (List.length l).
Proof. intros A l x. rewrite app_length. cbn. lia. Qed.

Lemma used_step : forall o c, cwf c -> List.length (elems (step_cop c o)) = S (List.length (elems c)) -> used c ->
  cwf (step_cop c o) /\ used (step_cop c o).
Proof.
  intros o c W LEN U.
  destruct (is_add_dec o) as [A|(id & ->)].
  2: { exfalso. cbn [step_cop] in LEN. unfold remove_elem in LEN. destruct (get_elem_by_name c id) as [x|]; cbn [fst] in LEN; [|lia].
       assert (RF : forall p es, List.length (remove_first p es) <= List.length es).
       { intros p. induction es as [|e es IH]; cbn; [lia|]. destruct (p e); cbn; lia. }
       destruct (orphans x (elem_nodes x) (remove_first (name_match id) (elems c))); cbn [fst elems set_tab] in LEN;
         specialize (RF (name_match id) (elems c)); lia. }
  split; [apply add_step_wf; assumption|].
  assert (KEEP : forall cc1 e, elems cc1 = elems c -> (forall i, reg cc1 i -> reg c i \/ touches i e) -> used (append cc1 e)).
  { intros cc1 e EL K i R. cbn [elems append]. rewrite EL. destruct (K i R) as [K'|K'].
    - destruct (U i K') as (f & F & T). exists f. split; [apply in_or_app; left; exact F|exact T].
    - exists e. split; [apply in_or_app; right; left; reflexivity|exact K']. }
  destruct o as [id a b v|id a b v|id a b v|id a b v|vd id a b s t v|id a b l|id]; cbn [step_cop] in *; try contradiction.
  - unfold add_resistor in *. reg_step c a W cc1 i. reg_step cc1 b W0 cc2 j. destruct (Qeq_bool v 0); cbn [fst] in *; [rewrite L0, L in LEN; lia|].
    apply KEEP; [rewrite L0; exact L|]. intros k R. destruct (E0 k R) as [R'| ->]; [destruct (E k R') as [R''| ->]; [left; exact R''|]|]; right; unfold touches; cbn; auto.
  - unfold add_capacitor in *. destruct (Qeq_bool v 0); cbn [fst] in *; [lia|]. reg_step c a W cc1 i. reg_step cc1 b W0 cc2 j.
    apply KEEP; [rewrite L0; exact L|]. intros k R. destruct (E0 k R) as [R'| ->]; [destruct (E k R') as [R''| ->]; [left; exact R''|]|]; right; unfold touches; cbn; auto.
  - unfold add_branch in *. reg_step c a W cc1 i. reg_step cc1 b W0 cc2 j.
    apply KEEP; [rewrite L0; exact L|]. intros k R. destruct (E0 k R) as [R'| ->]; [destruct (E k R') as [R''| ->]; [left; exact R''|]|]; right; unfold touches; cbn; auto.
  - unfold add_isource in *. reg_step c a W cc1 i. reg_step cc1 b W0 cc2 j.
    apply KEEP; [rewrite L0; exact L|]. intros k R. destruct (E0 k R) as [R'| ->]; [destruct (E k R') as [R''| ->]; [left; exact R''|]|]; right; unfold touches; cbn; auto.
  - unfold add_vc in *. reg_step c a W cc1 i. reg_step cc1 b W0 cc2 j. reg_step cc2 s W1 cc3 k. reg_step cc3 t W2 cc4 l.
    apply KEEP; [rewrite L2, L1, L0; exact L|]. intros m R.
    destruct (E2 m R) as [R1| ->]; [destruct (E1 m R1) as [R2| ->]; [destruct (E0 m R2) as [R3| ->]; [destruct (E m R3) as [R4| ->]; [left; exact R4|]|]|]|];
      right; unfold touches; cbn; auto.
  - unfold add_diode in *. reg_step c a W cc1 i. reg_step cc1 b W0 cc2 j.
    destruct (existsb (String.eqb l) (models cc2)); cbn [fst] in *; [|rewrite L0, L in LEN; lia].
    apply KEEP; [rewrite L0; exact L|]. intros k R. destruct (E0 k R) as [R'| ->]; [destruct (E k R') as [R''| ->]; [left; exact R''|]|]; right; unfold touches; cbn; auto.
Qed.

Theorem C185_ground : forall models ops, let c0 := mkCirc [] empty_ntab models in
  all_accepted ops c0 -> fst (check_circuit (run_cops ops c0)) = true ->
  exists e, In e (elems (run_cops ops c0)) /\ touches 0 e.
Proof.
  intros models ops c0 A C.
  assert (X : forall ops c, cwf c -> used c -> all_accepted ops c -> cwf (run_cops ops c) /\ used (run_cops ops c)).
  { clear. induction ops as [|o ops IH]; intros c W U A; [split; assumption|]. destruct A as [L A]. destruct (used_step o c W L U) as [W' U'].
    exact (IH (step_cop c o) W' U' A). }
  destruct (X ops c0) as [W U]; [exact cwf_empty|intros i R; exfalso; apply R; reflexivity|exact A|].
  apply U. apply C184_check in C; [|exact W]. destruct C as (_ & G & _). destruct W as [T _].
  apply (registered_int_get _ _ T). unfold registered_int. rewrite (proj1 (ext_int_inverse _ _ _ T) G). reflexivity.
Qed.
Print Assumptions C185_ground.
Example C185_example : let ops := [AddB "V1" "a" "0" 1; AddR "R1" "a" "b" 1; AddR "R2" "b" "0" 1] in
  all_accepted ops empty_circ /\ fst (check_circuit (run_cops ops empty_circ)) = true.
Proof. cbv zeta. split; [repeat split|]; vm_compute; reflexivity. Qed.

(** * C186: user-defined elements *)

Definition pairs (kvs : list (str * str)) : list str := map (fun '(p, v) => (p ++ c_eq :: v)%list) kvs.

Lemma setting_value : forall p v, no_equals p -> no_equals v -> parse_param_value (p ++ c_eq :: v) = bindr (convert v TFloat) (fun x => Ok (p, x)).
Proof.
  intros p v P V. unfold parse_param_value, is_valid_value_param_string. rewrite filter_app. cbn [filter].
  change (is_eq c_eq) with true. cbv iota. rewrite (filter_no_eq _ P), (filter_no_eq _ V), span_no_eq by exact P. reflexivity.
Qed.
Lemma y_params_pairs : forall kvs d, Forall (fun '(p, v) => no_equals p /\ no_equals v /\ starred (p ++ c_eq :: v) = false /\ isOk (convert v TFloat) = true) kvs ->
  NoDup (map fst kvs) -> (forall p, In p (map fst kvs) -> dget streqb d p = None) ->
  exists d', y_params (pairs kvs) d = Ok d' /\
    (forall p v, In (p, v) kvs -> exists x, convert v TFloat = Ok x /\ dget streqb d' p = Some x) /\
    (forall p, ~ In p (map fst kvs) -> dget streqb d' p = dget streqb d p).
Proof.
  induction kvs as [|[p v] kvs IH]; intros d F ND N.
  - exists d. split; [reflexivity|]. split; [intros p v []|reflexivity].
  - inversion F as [|? ? HH F']; subst. cbv beta iota in HH. destruct HH as (P & V & ST & C). cbn [map fst] in ND. inversion ND as [|? ? NI ND']; subst.
    cbn [pairs map y_params]. rewrite ST, setting_value by assumption. destruct (convert v TFloat) as [x|] eqn:CV; [|discriminate C]. cbn [bindr].
    rewrite (N p) by (left; reflexivity).
    destruct (IH (dset streqb d p x) F' ND') as (d' & Y & A & B).
    { intros q Q. rewrite (dget_dset streqb streqb_spec). destruct (streqb_spec q p) as [->|_]; [contradiction|]. apply N. right. exact Q. }
    exists d'. split; [exact Y|]. split.
    + intros q w [E|I]; [injection E as <- <-|exact (A q w I)]. exists x. split; [exact CV|]. rewrite (B p NI), (dget_dset streqb streqb_spec).
      destruct (streqb_spec p p); [reflexivity|contradiction].
    + intros q Q. cbn [map fst In] in Q. rewrite (B q) by (intros K; apply Q; right; exact K). rewrite (dget_dset streqb streqb_spec).
      destruct (streqb_spec q p) as [->|_]; [exfalso; apply Q; left; reflexivity|reflexivity].
Qed.

Lemma ddel_other : forall (d : list (str * val)) k k', k' <> k -> dget streqb (ddel streqb d k) k' = dget streqb d k'.
Proof.
  induction d as [|[a b] d IH]; intros k k' N; [reflexivity|]. cbn [ddel]. destruct (streqb_spec k a) as [->|_].
  - cbn [dget]. destruct (streqb_spec k' a); [contradiction|reflexivity].
  - cbn [dget]. rewrite IH by exact N. reflexivity.
Qed.

(** A well formed line makes an element of the class named, with its nodes, and the other
    parameters, numbers or texts. *)
Theorem C186_line : forall classes line id n1 n2 kvs m t cs,
  split line = id :: n1 :: n2 :: pairs kvs ->
  Forall (fun '(p, v) => no_equals p /\ no_equals v /\ starred (p ++ c_eq :: v) = false /\ isOk (convert v TFloat) = true) kvs -> NoDup (map fst kvs) ->
  In (lit "module", m) kvs -> In (lit "type", t) kvs -> convert_units m = Err ValueError -> convert_units t = Err ValueError ->
  classes m = Some cs -> In t cs ->
  exists d, parse_elem_user_defined classes line = Ok (m, t, id, (n1, n2), d) /\
    forall p v, In (p, v) kvs -> p <> lit "module" -> p <> lit "type" -> exists x, convert v TFloat = Ok x /\ dget streqb d p = Some x.
Proof.
  intros classes line id n1 n2 kvs m t cs L F ND IM IT CM CT CL IC. unfold parse_elem_user_defined. rewrite L.
  destruct (pairs kvs) as [|p0 ps] eqn:PE; [destruct kvs; [contradiction|discriminate]|]. cbv iota.
  destruct (y_params_pairs kvs [] F ND (fun _ _ => eq_refl)) as (d & Y & A & B). rewrite <- PE, Y. cbn [bindr].
  destruct (A _ _ IM) as (x & X & D). unfold convert in X. rewrite CM in X. injection X as <-. rewrite D, CL.
  destruct (A _ _ IT) as (x & X & D2). unfold convert in X. rewrite CT in X. injection X as <-.
  rewrite ddel_other by discriminate. rewrite D2.
  replace (existsb (streqb t) cs) with true.
  2: { symmetry. apply existsb_exists. exists t. split; [exact IC|]. destruct (streqb_spec t t); [reflexivity|contradiction]. }
  eexists. split; [reflexivity|]. intros p v I N1 N2. destruct (A p v I) as (x & X & G). exists x. split; [exact X|].
  rewrite !ddel_other by assumption. exact G.
Qed.
Print Assumptions C186_line.

(** The netlist is turned into small letters before: a class, or a module, with a capital
    letter in its name is never found. *)
Definition all_small (s : str) : Prop := slower s = s.
Lemma small_app : forall a b, all_small (a ++ b) <-> all_small a /\ all_small b.
Proof.
  unfold all_small, slower. induction a as [|c a IH]; intros b; cbn; [tauto|]. split.
  - intros H. injection H as E H. apply IH in H. destruct H as [H1 H2]. split; [congruence|exact H2].
  - intros [H K]. injection H as E H. f_equal; [exact E|]. apply IH. split; assumption.
Qed.
Lemma lower_small : forall s, all_small (slower s).
Proof. intros s. unfold all_small, slower. rewrite map_map. apply map_ext. exact lower_ascii_idem. Qed.
Lemma span_app : forall p s a b, span p s = (a, b) -> s = (a ++ b)%list.
Proof.
  intros p. induction s as [|c s IH]; intros a b H; cbn in H; [injection H as <- <-; reflexivity|].
  destruct (p c); [|injection H as <- <-; reflexivity]. destruct (span p s) as [a' b'] eqn:E. injection H as <- <-. cbn. f_equal. apply IH. reflexivity.
Qed.
Lemma y_params_small : forall toks d d', Forall all_small toks -> (forall p s, dget streqb d p = Some (VStr s) -> all_small s) ->
  y_params toks d = Ok d' -> forall p s, dget streqb d' p = Some (VStr s) -> all_small s.
Proof.
  induction toks as [|tok toks IH]; intros d d' F D Y; cbn [y_params] in Y; [injection Y as <-; exact D|].
  inversion F as [|? ? T F']; subst. destruct (starred tok); [injection Y as <-; exact D|].
  apply bindr_Ok in Y. destruct Y as ([q x] & P & Y). destruct (dget streqb d q); [discriminate|].
  apply (IH (dset streqb d q x) d' F'); [|exact Y]. intros r s. rewrite (dget_dset streqb streqb_spec). destruct (streqb_spec r q) as [_|_]; [|apply D].
  intros E. injection E as ->. unfold parse_param_value in P. destruct (is_valid_value_param_string tok).
  - destruct (span (fun c => negb (is_eq c)) tok) as [a b] eqn:SP. apply span_app in SP. subst tok. apply small_app in T. destruct T as [_ T].
    apply bindr_Ok in P. destruct P as (y & C & P). injection P as <- ->. unfold convert in C.
    assert (TL : all_small (tl b)) by (destruct b as [|c b]; [reflexivity|exact (proj2 (proj1 (small_app [c] b) T))]).
    destruct (convert_units (tl b)) as [|[]]; try discriminate C. injection C as <-. exact TL.
  - injection P as _ <-. reflexivity.
Qed.
Theorem C186_capitals_refuted : forall classes line m t id ns d,
  parse_elem_user_defined classes (slower line) = Ok (m, t, id, ns, d) -> all_small m /\ all_small t.
Proof.
  intros classes line m t id ns d H. unfold parse_elem_user_defined in H.
  assert (SM : Forall all_small (split (slower line))).
  { change (split (slower line)) with (split_aux (slower []) (slower line)). rewrite split_slower. apply Forall_forall. intros x I. apply in_map_iff in I.
    destruct I as (y & <- & _). apply lower_small. }
  destruct (split (slower line)) as [|i0 [|a [|b [|r rest]]]]; try discriminate H. apply bindr_Ok in H. destruct H as (d0 & Y & H).
  assert (G : forall p s, dget streqb d0 p = Some (VStr s) -> all_small s).
  { apply (y_params_small (r :: rest) [] d0); [|intros p s K; discriminate K|exact Y].
    inversion SM as [|? ? _ S1]; subst. inversion S1 as [|? ? _ S2]; subst. inversion S2; subst. assumption. }
  destruct (dget streqb d0 (lit "module")) as [[| | |m'|]|] eqn:M; try discriminate H. destruct (classes m') as [cs|]; [|discriminate H].
  destruct (dget streqb (ddel streqb d0 (lit "module")) (lit "type")) as [[| | |t'|]|] eqn:T; try discriminate H.
  destruct (existsb (streqb t') cs); [|discriminate H]. injection H as <- <- _ _ _. split; [exact (G _ _ M)|].
  rewrite ddel_other in T by discriminate. exact (G _ _ T).
Qed.
Print Assumptions C186_capitals_refuted.
(** A module whose name looks like a number (p2, 1k) is a TypeError. *)
Theorem C186_number_refuted : exists classes line, classes (lit "3n") = Some [lit "osc"] /\
  split line = [lit "y1"; lit "a"; lit "b"; lit "module=3n"; lit "type=osc"] /\ parse_elem_user_defined classes line = Err TypeError.
Proof.
  exists (fun s => if streqb s (lit "3n") then Some [lit "osc"] else None), (lit "y1 a b module=3n type=osc"). repeat split; vm_compute; reflexivity.
Qed.
Print Assumptions C186_number_refuted.
Example C186_example :
  parse_elem_user_defined (fun s => if streqb s (lit "osc") then Some [lit "vdp"] else None) (lit "y1 a 0 module=osc type=vdp g=1k mode=fast") =
  Ok (lit "osc", lit "vdp", lit "y1", (lit "a", lit "0"), [(lit "g", VNum (1, 3)%Z); (lit "mode", VStr (lit "fast"))]) /\
  parse_elem_user_defined (fun s => if streqb s (lit "osc") then Some [lit "VdP"] else None) (slower (lit "Y1 a 0 module=osc type=VdP")) = Err NetlistParseError.
Proof. split; vm_compute; reflexivity. Qed.

(** * C187: the constructors of the waveforms *)
Open Scope R_scope.

(** [pulse] and [exp] with the parameters in the order in which their documentation lists
    them (ahkab/time_functions.py 411-427 and 560-572). *)
Definition pulse_by_doc (v1 v2 td tr tf pw per : R) : pulse := new_pulse v1 v2 td tr tf pw per.
Definition exp_by_doc (v1 v2 td1 td2 tau1 tau2 : R) : R -> R := exp_call v1 v2 td1 td2 tau1 tau2.

Theorem C187_pulse_refuted : exists v1 v2 td tr tf pw per t, valid td tr pw tf per /\ 0 <= t <= per /\
  pulse_call (pulse_by_doc v1 v2 td tr tf pw per) t <> Ok (v1 + (v2 - v1) * trapezoid td tr pw tf t).
Proof.
  exists 0, 1, 0, 1, 1, 3, 10, 3. split; [unfold valid; lra|]. split; [lra|].
  assert (W : valid 0 1 1 3 10) by (unfold valid; lra).
  pose proof (C31_waveform 0 1 0 1 1 3 10 W 0 3 ltac:(lra)) as E. simpl INR in E. rewrite Rmult_0_l, Rplus_0_l in E.
  unfold pulse_by_doc. rewrite E. intros K. injection K as K. unfold trapezoid in K.
  replace (Rmax 0 (Rmin 1 (Rmin ((3 - 0) / 1) ((0 + 1 + 1 + 3 - 3) / 3)))) with (2 / 3) in K.
  2: { rewrite (Rmin_right ((3 - 0) / 1)) by lra. rewrite Rmin_right by lra. rewrite Rmax_right by lra. lra. }
  replace (Rmax 0 (Rmin 1 (Rmin ((3 - 0) / 1) ((0 + 1 + 3 + 1 - 3) / 1)))) with 1 in K.
  2: { rewrite (Rmin_right ((3 - 0) / 1)) by lra. rewrite Rmin_left by lra. rewrite Rmax_right by lra. reflexivity. }
  lra.
Qed.
Print Assumptions C187_pulse_refuted.
(** It is the waveform meant if the width and the fall time are equal. *)
Theorem C187_pulse : forall v1 v2 td tr pw per, valid td tr pw pw per ->
  forall (k : nat) u, 0 <= u <= per ->
  pulse_call (pulse_by_doc v1 v2 td tr pw pw per) (INR k * per + u) = Ok (v1 + (v2 - v1) * trapezoid td tr pw pw u).
Proof. intros v1 v2 td tr pw per V k u H. exact (C31_waveform v1 v2 td tr pw pw per V k u H). Qed.
Print Assumptions C187_pulse.
(** The exponential one: with the time constant in the place of the second delay, it starts
    to fall at that time. *)
Theorem C187_exp_refuted : forall v1 v2 td1 td2 tau1 tau2 t, 0 < td2 -> v1 <> v2 -> td1 <= t -> tau1 < t -> t < td2 -> 0 < tau1 -> 0 < tau2 ->
  exp_by_doc v1 v2 td1 td2 tau1 tau2 t = v1 + (v2 - v1) * (1 - exp (- (t - td1) / td2)) + (v1 - v2) * (1 - exp (- (t - tau1) / tau2)).
Proof.
  intros v1 v2 td1 td2 tau1 tau2 t P D A B C T1 T2. unfold exp_by_doc, exp_call.
  replace (Rlt_b t td1) with false by (symmetry; apply Rlt_b_false; lra).
  replace (Rlt_b t tau1) with false by (symmetry; apply Rlt_b_false; lra).
  replace (-1 * (t - td1) / td2) with (- (t - td1) / td2) by (field; lra).
  replace (-1 * (t - tau1) / tau2) with (- (t - tau1) / tau2) by (field; lra). reflexivity.
Qed.
Print Assumptions C187_exp_refuted.
Example C187_example : exp_by_doc 0 1 0 10 1 1 3 <> 0 + (1 - 0) * (1 - exp (- (3 - 0) / 1)).
Proof.
  rewrite C187_exp_refuted by lra. intros E.
  assert (A : exp (- (3 - 0) / 10) > exp (- (3 - 0) / 1)) by (apply exp_increasing; lra).
  pose proof (exp_increasing (- (3 - 1) / 1) 0 ltac:(lra)) as B. rewrite exp_0 in B. lra.
Qed.

(** * C188: the value and the conductance of a resistor *)

(** After the assignments that were accepted the two agree, and they are those of the last
    one. *)
Definition assigned (o : rop) : R := match o with SetValue v => v | SetG g => g end.
Theorem C188_consistent : forall v r ops, new_resistor v = Ok r -> Forall (fun o => assigned o <> 0) ops ->
  r_value (rrun ops r) * r_g (rrun ops r) = 1 /\
  match rev ops with [] => r_value (rrun ops r) = v | SetValue x :: _ => r_value (rrun ops r) = x | SetG g :: _ => r_g (rrun ops r) = g end.
Proof.
  intros v r ops N F. unfold new_resistor in N. destruct (Req_EM_T v 0) as [|Z]; [discriminate|]. injection N as <-.
  induction ops as [|o ops IH] using rev_ind.
  - cbn. split; [field; exact Z|reflexivity].
  - apply Forall_app in F. destruct F as [F1 F2]. inversion F2 as [|? ? O _]; subst. unfold rrun. rewrite fold_left_app, rev_app_distr. cbn [rev app fold_left].
    destruct o as [x|g]; cbn [assigned] in O; cbn [rstep].
    + destruct (Req_EM_T x 0) as [|X]; [contradiction|]. cbn. split; [field; exact X|reflexivity].
    + destruct (Req_EM_T g 0) as [|X]; [contradiction|]. cbn. split; [field; exact X|reflexivity].
Qed.
Print Assumptions C188_consistent.
(** An assignment of 0 is refused, but leaves a resistor of 0 ohm with the old conductance. *)
Theorem C188_zero_refuted : forall r, r_value r * r_g r = 1 ->
  exists r', rstep r (SetValue 0) = (r', Err ZeroDivision) /\ r' <> r /\ r_value r' * r_g r' <> 1.
Proof.
  intros r H. cbn [rstep]. destruct (Req_EM_T 0 0) as [_|N]; [|contradiction]. eexists. split; [reflexivity|]. cbn [r_value r_g]. split; [|lra].
  intros E. rewrite <- E in H. cbn in H. lra.
Qed.
Print Assumptions C188_zero_refuted.
Example C188_example : r_value (rrun [SetValue 2; SetG 4] (mkRes 1 1)) = 1 / 4.
Proof. unfold rrun. cbn [fold_left rstep]. destruct (Req_EM_T 2 0); [lra|]. cbn [fst rstep]. destruct (Req_EM_T 4 0); [lra|]. reflexivity. Qed.

(** * C190: energy of coupled inductors *)

Definition energy (l1 l2 m i1 i2 : R) : R := l1 * i1 * i1 / 2 + l2 * i2 * i2 / 2 + m * i1 * i2.

Theorem C190_energy : forall l1 l2 k, 0 < l1 -> 0 < l2 -> ((forall i1 i2, 0 <= energy l1 l2 (mutual l1 l2 k) i1 i2) <-> -1 <= k <= 1).
Proof.
  intros l1 l2 k P1 P2. unfold mutual. rewrite sqrt_mult by lra.
  assert (A : 0 < sqrt l1) by (apply sqrt_lt_R0; exact P1). assert (B : 0 < sqrt l2) by (apply sqrt_lt_R0; exact P2).
  pose proof (sqrt_sqrt l1 ltac:(lra)) as S1. pose proof (sqrt_sqrt l2 ltac:(lra)) as S2.
  set (a := sqrt l1) in *. set (b := sqrt l2) in *. split.
  - intros H. assert (E : forall s, energy l1 l2 (a * b * k) (1 / a) (s / b) = (1 + s * s) / 2 + k * s).
    { intros s. unfold energy. rewrite <- S1, <- S2. field. split; lra. }
    pose proof (H (1 / a) (1 / b)) as H1. pose proof (H (1 / a) (-1 / b)) as H2. rewrite (E 1) in H1. rewrite (E (-1)) in H2. split; lra.
  - intros K i1 i2. unfold energy. rewrite <- S1, <- S2.
    replace (a * a * i1 * i1 / 2 + b * b * i2 * i2 / 2 + a * b * k * i1 * i2)
      with ((1 + k) / 4 * Rsqr (a * i1 + b * i2) + (1 - k) / 4 * Rsqr (a * i1 - b * i2)) by (unfold Rsqr; field).
    apply Rplus_le_le_0_compat; apply Rmult_le_pos; try apply Rle_0_sqr; lra.
Qed.
Print Assumptions C190_energy.
(** The manual: "the coupling factor has to be lesser than one".  It is not checked: two
    inductors of the circuit can be coupled with any factor. *)
Theorem C190_unchecked_refuted : forall (k : Q), exists c c' l1 l2, add_coupling vdef c "K1" l1 l2 k = (c', Ok tt) /\ List.length (elems c') = S (List.length (elems c)).
Proof.
  intros k. set (c := run_cops [AddB "L1" "a" "0" 1; AddB "L2" "b" "0" 1] empty_circ).
  exists c, (append c (mkElem "K1" None None None None false [] false k)), "L1"%string, "L2"%string. split; reflexivity.
Qed.
Print Assumptions C190_unchecked_refuted.
Example C190_example : energy 1 1 (mutual 1 1 2) 1 (-1) < 0.
Proof. unfold energy, mutual. rewrite Rmult_1_l, sqrt_1. lra. Qed.

(** * C191: the ratio of a transformer *)

(** The voltages of two coupled inductors (doc/help/Mutual-Inductors.rst). *)
Definition coupled (l1 l2 m di1 di2 v1 v2 : R) : Prop := v1 = l1 * di1 + m * di2 /\ v2 = l2 * di2 + m * di1.

(** The manual: set L1/L2 to the ratio of the windings.  The ratio of the voltages is its
    square root. *)
Theorem C191_ratio : forall l1 l2 k di1 v1 v2, 0 < l1 -> 0 < l2 -> coupled l1 l2 (mutual l1 l2 k) di1 0 v1 v2 -> v2 * sqrt l1 = k * v1 * sqrt l2.
Proof.
  intros l1 l2 k di1 v1 v2 P1 P2 [-> ->]. unfold mutual. rewrite sqrt_mult by lra. pose proof (sqrt_sqrt l1 ltac:(lra)) as S1.
  rewrite <- S1 at 3. ring.
Qed.
Print Assumptions C191_ratio.
Theorem C191_ratio_refuted : forall n v1 v2 l2 di1, 0 < n -> n <> 1 -> 0 < l2 -> v1 <> 0 ->
  coupled (n * l2) l2 (mutual (n * l2) l2 1) di1 0 v1 v2 -> v1 <> n * v2.
Proof.
  intros n v1 v2 l2 di1 N N1 P V H E. assert (L : 0 < n * l2) by (apply Rmult_lt_0_compat; assumption).
  pose proof (C191_ratio _ _ _ _ _ _ L P H) as R0. rewrite sqrt_mult in R0 by lra.
  assert (B : 0 < sqrt l2) by (apply sqrt_lt_R0; exact P). assert (A : 0 < sqrt n) by (apply sqrt_lt_R0; exact N).
  pose proof (sqrt_sqrt n ltac:(lra)) as S1.
  assert (X : v2 * sqrt n = v1) by (apply Rmult_eq_reg_r with (sqrt l2); lra).
  remember (sqrt n) as s eqn:Es. clear Es.
  assert (X2 : v2 * s = s * s * v2) by (rewrite S1, X; exact E). assert (v2 <> 0) by (intros ->; apply V; rewrite E; ring).
  assert (Y : s = 1).
  { apply Rmult_eq_reg_l with (s * v2); [lra|]. apply Rmult_integral_contrapositive; split; [lra|assumption]. }
  apply N1. rewrite <- S1, Y. ring.
Qed.
Print Assumptions C191_ratio_refuted.
Example C191_example : coupled 4 1 (mutual 4 1 1) 1 0 4 2.
Proof. unfold coupled, mutual. replace (4 * 1) with (2 * 2) by lra. rewrite sqrt_square by lra. lra. Qed.
Open Scope nat_scope.

(** * C189: output files *)

Definition documented_kind (k : akind) : Prop := match k with APss m => lower m = "shooting"%string \/ lower m = "brute-force"%string | _ => True end.

Lemma append_cancel : forall a b c, (a ++ b)%string = (a ++ c)%string -> b = c.
Proof. induction a as [|x a IH]; cbn; intros b c H; [exact H|]. injection H as H. apply IH. exact H. Qed.

(** Analyses of different types that are given the same name write to different files. *)
Theorem C189_api : forall on_cli tmp f k k', f <> "stdout"%string -> documented_kind k -> documented_kind k' ->
  new_outfile on_cli tmp k (Some f) = new_outfile on_cli tmp k' (Some f) -> type_name k = type_name k'.
Proof.
  intros on_cli tmp f k k' N D D' H. unfold new_outfile in H. destruct (String.eqb_spec f "stdout"); [contradiction|]. apply append_cancel in H.
  destruct k as [| | | |m| |], k' as [| | | |m'| |]; cbn [suffix type_name documented_kind] in *; try reflexivity; try discriminate H;
    try (destruct D as [D|D]; rewrite D in H; discriminate H); destruct D' as [D'|D']; rewrite D' in H; discriminate H.
Qed.
Print Assumptions C189_api.
Theorem C189_netlist : forall f k k', f <> "stdout"%string -> main_outfile f k = main_outfile f k' -> type_name k = type_name k'.
Proof.
  intros f k k' N H. unfold main_outfile in H. destruct (String.eqb_spec f "stdout"); [contradiction|]. apply append_cancel in H. injection H as H. exact H.
Qed.
Print Assumptions C189_netlist.
(** Two analyses of the same type of a netlist write to the same file. *)
Theorem C189_same_type_refuted : forall f k k', type_name k = type_name k' -> main_outfile f k = main_outfile f k'.
Proof. intros f k k' H. unfold main_outfile. rewrite H. reflexivity. Qed.
Print Assumptions C189_same_type_refuted.
Example C189_example : main_outfile "out" ATran = "out.tran"%string /\ main_outfile "out" (APss "shooting") = main_outfile "out" (APss "brute-force") /\
  new_outfile false (fun s => s) (APss "shooting") (Some "out"%string) = "out.shooting"%string /\ main_outfile "stdout" ATran = "stdout"%string.
Proof. repeat split; reflexivity. Qed.
