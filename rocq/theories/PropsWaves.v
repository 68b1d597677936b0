(** The waveforms of the sources, from the words of the netlist to the values (C204). *)
From Coq Require Import Ascii String Reals List Bool Arith ZArith Lia Lra.
From Verif Require Import Base BaseFacts Str Units Directive PropsDirective Netlist PropsNetlist Newton NewtonFacts TimeFun PropsTime PropsSubckt PropsSetup Simulate PropsSimulate Waves.
Import ListNotations.
Open Scope R_scope.

(** * Specification: doc/help/Netlist-Syntax.rst, "Time functions" *)

(** The number after [word=], or the [pos]-th of the words if it has no label. *)
Definition number_at (toks : list str) (w : string) (pos : nat) (x : R) : Prop :=
  exists v d, (In (setting_of w v) (live toks) \/ nth_error (live toks) pos = Some v) /\ no_equals v /\ convert_units v = Ok d /\ x = dR d.
(** There is no such label, and the [pos]-th word, if there is one, has a label. *)
Definition left_out (toks : list str) (w : string) (pos : nat) : Prop :=
  (forall v, ~ In (setting_of w v) (live toks)) /\
  (forall tok, nth_error (live toks) pos = Some tok -> exists l v, tok = (l ++ c_eq :: v)%list /\ no_equals l /\ no_equals v).
(** The words of a function, their positions, and the values they have if left out. *)
Definition manual_params (ty : string) : list (string * nat * option R) :=
  (if String.eqb ty "sin" then [("vo", 0%nat, None); ("va", 1%nat, None); ("freq", 2%nat, None); ("td", 3%nat, Some 0); ("theta", 4%nat, Some 0)]
   else if String.eqb ty "exp" then [("v1", 0%nat, None); ("v2", 1%nat, None); ("td1", 2%nat, Some 0); ("tau1", 3%nat, None); ("td2", 4%nat, None); ("tau2", 5%nat, None)]
   else if String.eqb ty "pulse" then [("v1", 0%nat, None); ("v2", 1%nat, None); ("td", 2%nat, Some 0); ("tr", 3%nat, None); ("tf", 4%nat, None); ("pw", 5%nat, None); ("per", 6%nat, None)]
   else if String.eqb ty "sffm" then [("vo", 0%nat, None); ("va", 1%nat, None); ("fc", 2%nat, None); ("mdi", 3%nat, None); ("fs", 4%nat, None); ("td", 5%nat, Some 0)]
   else if String.eqb ty "am" then [("sa", 0%nat, None); ("oc", 1%nat, None); ("fm", 2%nat, None); ("fc", 3%nat, None); ("td", 4%nat, None)]
   else [])%string.
Definition given (ty : string) (toks : list str) (p : string -> R) : Prop :=
  forall w pos df, In (w, pos, df) (manual_params ty) -> number_at toks w pos (p w) \/ (left_out toks w pos /\ df = Some (p w)).
(** What the parameters must satisfy. *)
Definition manual_ok (ty : string) (p : string -> R) : Prop :=
  if String.eqb ty "exp" then 0 < p "tau1"%string /\ 0 < p "tau2"%string /\ p "td1"%string <= p "td2"%string
  else if String.eqb ty "pulse" then
    0 < p "per"%string /\ 0 <= p "td"%string /\ 0 < p "tr"%string /\ 0 <= p "pw"%string /\ 0 < p "tf"%string /\
    p "td"%string + p "tr"%string + p "pw"%string + p "tf"%string <= p "per"%string
  else True.
(** The time since the beginning of the period. *)
Definition phase_of (per t : R) : R := t - per * IZR (Int_part (t / per)).
(** The formulas. *)
Definition manual_wave (ty : string) (p : string -> R) (t : R) : R :=
  (if String.eqb ty "sin" then
     if Rlt_dec t (p "td") then p "vo"
     else p "vo" + p "va" * exp (- p "theta" * (t - p "td")) * sin (2 * Rtrigo1.PI * p "freq" * (t - p "td"))
   else if String.eqb ty "exp" then
     let up := p "v1" + (p "v2" - p "v1") * (1 - exp (- ((t - p "td1") / p "tau1"))) in
     if Rlt_dec t (p "td1") then p "v1"
     else if Rlt_dec t (p "td2") then up
     else up + (p "v1" - p "v2") * (1 - exp (- ((t - p "td2") / p "tau2")))
   else if String.eqb ty "pulse" then
     let u := phase_of (p "per") t in
     (* up, flat and down again between the two levels *)
     p "v1" + (p "v2" - p "v1") * Rmax 0 (Rmin 1 (Rmin ((u - p "td") / p "tr") ((p "td" + p "tr" + p "pw" + p "tf" - u) / p "tf")))
   else if String.eqb ty "sffm" then
     if Rle_dec t (p "td") then p "vo"
     else p "vo" + p "va" * sin (2 * Rtrigo1.PI * p "fc" * (t - p "td") + p "mdi" * sin (2 * Rtrigo1.PI * p "fs" * (t - p "td")))
   else
     if Rle_dec t (p "td") then 0
     else p "sa" * (p "oc" + sin (2 * Rtrigo1.PI * p "fm" * (t - p "td"))) * sin (2 * Rtrigo1.PI * p "fc" * (t - p "td")))%string.

(** * Lemmas *)
Lemma unlabelled : forall v, no_equals v -> label_value v = (None, v).
Proof. intros v N. unfold label_value, is_valid_value_param_string. rewrite (filter_no_eq v N). reflexivity. Qed.

Lemma labelled_form : forall tok l v, label_value tok = (Some l, v) -> tok = (l ++ c_eq :: v)%list.
Proof.
  intros tok l v E. unfold label_value in E. destruct (is_valid_value_param_string tok) eqn:Q; [|discriminate E].
  destruct (span (fun c => negb (is_eq c)) tok) as [a b] eqn:S'. injection E as -> <-.
  unfold is_valid_value_param_string in Q. apply Nat.eqb_eq in Q.
  assert (X : forall t a b, span (fun c => negb (is_eq c)) t = (a, b) -> filter is_eq t <> [] -> t = (a ++ c_eq :: tl b)%list).
  { clear. induction t as [|c t IH]; intros a b S' F; [contradiction|]. cbn [span filter] in S', F. destruct (is_eq c) eqn:Ec; cbn [negb] in S'.
    - injection S' as <- <-. cbn [app tl]. f_equal. unfold is_eq in Ec. destruct (ascii_dec c c_eq); [assumption|discriminate].
    - destruct (span (fun c => negb (is_eq c)) t) as [a' b'] eqn:S2. injection S' as <- <-. cbn [app]. f_equal. apply IH; [reflexivity|exact F]. }
  apply (X _ _ _ S'). intros Z. rewrite Z in Q. discriminate.
Qed.

Section Table.
  Variables (tbl : list spec) (toks : list str) (an : list (str * val)).
  Hypothesis CL : clear tbl.
  Hypothesis P : parse_params tbl [] toks = Ok an.
  Lemma read_number : forall w pos nd df x, In (fl w pos nd df) tbl -> no_equals (lit w) -> number_at toks w pos x ->
    exists d, dget streqb an (lit w) = Some (VNum d) /\ dR d = x.
  Proof.
    intros w pos nd df x T W (v & d & WH & NE & CU & ->). destruct (C45_values tbl [] toks an CL P) as (A & _).
    assert (Q : exists i tok, nth_error (live toks) i = Some tok /\ about tbl i tok (fl w pos nd df) /\ snd (label_value tok) = v).
    { destruct WH as [IN|NT].
      - apply In_nth_error in IN. destruct IN as (i & IN). exists i, (setting_of w v). split; [exact IN|]. unfold about. rewrite (setting_label w v W NE). split; [split; [exact T|reflexivity]|reflexivity].
      - exists pos, v. split; [exact NT|]. unfold about. rewrite (unlabelled v NE). split; [split; [exact T|left; reflexivity]|reflexivity]. }
    destruct Q as (i & tok & K & AB & SV). destruct (A i tok _ K AB) as (y & C & G). rewrite SV in C. cbn [s_type fl sp convert] in C. rewrite CU in C. cbn [bindr] in C.
    injection C as <-. exists d. split; [exact G|reflexivity].
  Qed.
  Lemma read_default : forall w pos nd df, In (fl w pos nd df) tbl -> left_out toks w pos -> dget streqb an (lit w) = Some df.
  Proof.
    intros w pos nd df T LO. destruct (C45_values tbl [] toks an CL P) as (_ & D & _). destruct (D _ T) as (_ & G); [|exact G].
    intros i tok K (_ & AB). destruct (label_value tok) as [[l|] v] eqn:E; cbn [fst] in AB.
    - pose proof (labelled_form _ _ _ E) as ->. cbn [s_label fl sp] in AB. injection AB as <-. apply (proj1 LO v). exact (nth_error_In _ _ K).
    - cbn [s_pos s_label fl sp] in AB. destruct AB as [AB|AB]; [|discriminate AB]. injection AB as <-.
      destruct (proj2 LO tok K) as (l & u & -> & NL & NU). unfold label_value, is_valid_value_param_string in E.
      rewrite filter_app in E. cbn [filter] in E. change (is_eq c_eq) with true in E. cbv iota in E. rewrite (filter_no_eq _ NL), (filter_no_eq _ NU) in E.
      cbn [app List.length Nat.eqb] in E. destruct (span _ _); discriminate E.
  Qed.
End Table.

Lemma read_given : forall ty tbl toks an p, In (lit ty, tbl) time_fun_specs -> parse_params tbl [] toks = Ok an -> given ty toks p ->
  forall w pos df nd v, In (w, pos, df) (manual_params ty) -> In (fl w pos nd v) tbl -> no_equals (lit w) -> (forall x, df = Some x -> v = zero /\ x = 0) -> kw an w = Ok (p w).
Proof.
  intros ty tbl toks an p T P G w pos df nd v M IN NE DF. assert (CL : clear tbl) by (apply (C45_tables (lit ty)); right; left; exact T). unfold kw.
  destruct (G w pos df M) as [N|(L & D)].
  - destruct (read_number tbl toks an CL P w pos nd v (p w) IN NE N) as (d & E & <-). rewrite E. reflexivity.
  - rewrite (read_default tbl toks an CL P w pos nd v IN L). destruct (DF _ D) as (-> & ->). unfold zero. f_equal. unfold dR. simpl. ring.
Qed.
Ltac word := let K := fresh in intros K; cbn in K; repeat destruct K as [K|K]; try discriminate K; contradiction.
Ltac dflt := let DF := fresh in intros ? DF; first [discriminate DF | injection DF as <-; split; reflexivity].
Ltac reads ty tbl := match goal with P : parse_params tbl [] _ = Ok ?an, G : given ty _ ?p |- context [kw ?an ?w] =>
  let E := fresh in assert (E : kw an w = Ok (p w)) by (eapply (read_given ty tbl _ an p); [cbn; auto 10|exact P|exact G|cbn; auto 10|cbn; auto 10|word|dflt]);
  rewrite E; clear E; cbn [bindr] end.
Ltac finds ty tbl w := match goal with P : parse_params tbl [] _ = Ok ?an, G : given ty _ ?p |- _ =>
  let E := fresh "E" in assert (E : kw an w = Ok (p w)) by (eapply (read_given ty tbl _ an p); [cbn; auto 10|exact P|exact G|cbn; auto 10|cbn; auto 10|word|dflt]) end.
Lemma kw_some : forall ps w x, kw ps w = Ok x -> kw_none ps w = Ok (Some x) /\ kw_inf ps w = Ok (Some x).
Proof. intros ps w x H. unfold kw, kw_none, kw_inf in *. destruct (dget streqb ps (lit w)) as [[| |d| |]|]; try discriminate H. injection H as <-. split; reflexivity. Qed.
Lemma Rlt_b_dec : forall (A : Type) x y (a b : A), (if Rlt_b x y then a else b) = if Rlt_dec x y then a else b.
Proof. intros. unfold Rlt_b. destruct (Rlt_dec x y); reflexivity. Qed.
Lemma phase_period : forall per t, 0 < per -> 0 <= t -> exists k : nat, t = INR k * per + phase_of per t /\ 0 <= phase_of per t < per.
Proof.
  intros per t P T. assert (Q : 0 <= t / per) by (apply Rmult_le_pos; [lra|left; apply Rinv_0_lt_compat; lra]).
  destruct (base_Int_part (t / per)) as [B1 B2].
  assert (Z0 : (0 <= Int_part (t / per))%Z).
  { assert (IZR (Int_part (t / per)) > -1) by lra. apply lt_IZR in H. lia. }
  exists (Z.to_nat (Int_part (t / per))). unfold phase_of. rewrite INR_IZR_INZ, Z2Nat.id by exact Z0.
  assert (E : t = t / per * per) by (field; lra). split; [ring|]. split.
  - assert (IZR (Int_part (t / per)) * per <= t / per * per) by (apply Rmult_le_compat_r; lra). lra.
  - assert ((t / per - 1) * per < IZR (Int_part (t / per)) * per) by (apply Rmult_lt_compat_r; lra). lra.
Qed.
Ltac which := repeat match goal with |- context [streqb ?a ?b] => let r := eval vm_compute in (streqb a b) in change (streqb a b) with r end; cbv iota.

(** * C204 *)
Theorem C204_wave : forall ty toks f p, In ty ["sin"; "exp"; "pulse"; "sffm"; "am"]%string ->
  parse_time_function (lit ty) toks = Ok f -> given ty toks p -> manual_ok ty p ->
  forall t, 0 <= t -> fun_value f t = Ok (manual_wave ty p t).
Proof.
  intros ty toks f p TY PT G OK t T0. unfold parse_time_function in PT.
  cbn [In] in TY. destruct TY as [<-|[<-|[<-|[<-|[<-|[]]]]]].
  - change (dget streqb time_fun_specs (lit "sin")) with (Some sin_table) in PT. cbv iota in PT. destruct (parse_params _ [] toks) as [ps|] eqn:P; [|discriminate PT]. cbn [bindr] in PT. injection PT as <-.
    unfold fun_value. which. do 5 reads "sin"%string sin_table. f_equal.
    unfold sin_call, manual_wave. cbn [String.eqb Ascii.eqb Bool.eqb]. rewrite Rlt_b_dec. destruct (Rlt_dec _ _).
    + replace (Rtrigo1.PI * 0 / 180) with 0 by field. rewrite sin_0. ring.
    + replace (Rtrigo1.PI * 0 / 180) with 0 by field. rewrite Rplus_0_r. do 3 f_equal. f_equal. ring.
  - change (dget streqb time_fun_specs (lit "exp")) with (Some exp_table) in PT. cbv iota in PT. destruct (parse_params _ [] toks) as [ps|] eqn:P; [|discriminate PT]. cbn [bindr] in PT. injection PT as <-.
    unfold fun_value. which. do 4 reads "exp"%string exp_table.
    finds "exp"%string exp_table "td2"%string. finds "exp"%string exp_table "tau2"%string.
    rewrite (proj2 (kw_some _ _ _ E)), (proj2 (kw_some _ _ _ E0)). cbn [bindr]. destruct OK as (O1 & O2 & O3).
    unfold exp_value, manual_wave. cbn [String.eqb Ascii.eqb Bool.eqb]. rewrite !Rlt_b_dec. destruct (Rlt_dec _ _); [reflexivity|].
    destruct (Req_EM_T (p "tau1"%string) 0); [lra|]. cbv zeta.
    replace (-1 * (t - p "td1"%string) / p "tau1"%string) with (- ((t - p "td1"%string) / p "tau1"%string)) by (field; lra).
    destruct (Rlt_dec _ _); [reflexivity|].
    destruct (Req_EM_T (p "tau2"%string) 0); [lra|].
    replace (-1 * (t - p "td2"%string) / p "tau2"%string) with (- ((t - p "td2"%string) / p "tau2"%string)) by (field; lra). reflexivity.
  - change (dget streqb time_fun_specs (lit "pulse")) with (Some pulse_table) in PT. cbv iota in PT. destruct (parse_params _ [] toks) as [ps|] eqn:P; [|discriminate PT]. cbn [bindr] in PT. injection PT as <-.
    unfold fun_value. which.
    do 7 reads "pulse"%string pulse_table. change (manual_ok "pulse" p) with (PropsTime.valid (p "td"%string) (p "tr"%string) (p "pw"%string) (p "tf"%string) (p "per"%string)) in OK.
    assert (PP : 0 < p "per"%string) by apply OK. destruct (phase_period (p "per"%string) t PP T0) as (k & E & U). rewrite E at 1.
    rewrite (C31_waveform _ _ _ _ _ _ _ OK) by lra. reflexivity.
  - change (dget streqb time_fun_specs (lit "sffm")) with (Some sffm_table) in PT. cbv iota in PT. destruct (parse_params _ [] toks) as [ps|] eqn:P; [|discriminate PT]. cbn [bindr] in PT. injection PT as <-.
    unfold fun_value. which. do 2 reads "sffm"%string sffm_table. finds "sffm"%string sffm_table "fc"%string. rewrite (proj1 (kw_some _ _ _ E)). cbn [bindr].
    do 3 reads "sffm"%string sffm_table. unfold sffm_call, manual_wave. cbn [String.eqb Ascii.eqb Bool.eqb]. rewrite Rlt_b_dec. destruct (Rlt_dec _ _), (Rle_dec _ _); try lra; reflexivity.
  - change (dget streqb time_fun_specs (lit "am")) with (Some am_table) in PT. cbv iota in PT. destruct (parse_params _ [] toks) as [ps|] eqn:P; [|discriminate PT]. cbn [bindr] in PT. injection PT as <-.
    unfold fun_value. which. do 4 reads "am"%string am_table.
    finds "am"%string am_table "td"%string. rewrite (proj1 (kw_some _ _ _ E)). cbn [bindr].
    unfold am_call, manual_wave. cbn [String.eqb Ascii.eqb Bool.eqb]. rewrite Rlt_b_dec. destruct (Rlt_dec _ _), (Rle_dec _ _); try lra; reflexivity.
Qed.
Print Assumptions C204_wave.

(** The rise alone: without the parameters of the fall. *)
Theorem C204_rise : forall toks f v1 v2 td1 tau1, parse_time_function (lit "exp") toks = Ok f ->
  number_at toks "v1" 0 v1 -> number_at toks "v2" 1 v2 -> number_at toks "td1" 2 td1 \/ (left_out toks "td1" 2 /\ td1 = 0) -> number_at toks "tau1" 3 tau1 ->
  left_out toks "td2" 4 -> 0 < tau1 ->
  (exists tau2, number_at toks "tau2" 5 tau2) \/ left_out toks "tau2" 5 ->
  forall t, fun_value f t = Ok (if Rlt_dec t td1 then v1 else v1 + (v2 - v1) * (1 - exp (- ((t - td1) / tau1)))).
Proof.
  intros toks f v1 v2 td1 tau1 PT N1 N2 N3 N4 L5 TP N6 t. unfold parse_time_function in PT.
  change (dget streqb time_fun_specs (lit "exp")) with (Some exp_table) in PT. cbv iota in PT. destruct (parse_params exp_table [] toks) as [ps|] eqn:P; [|discriminate PT]. cbn [bindr] in PT. injection PT as <-.
  assert (CL : clear exp_table) by (apply (C45_tables (lit "exp")); right; left; cbn; auto 10).
  assert (KW : forall w pos nd v x, In (fl w pos nd v) exp_table -> no_equals (lit w) -> number_at toks w pos x -> kw ps w = Ok x).
  { intros w pos nd v x IN NE N. destruct (read_number _ _ _ CL P w pos nd v x IN NE N) as (d & E & <-). unfold kw. rewrite E. reflexivity. }
  assert (K3 : kw ps "td1" = Ok td1).
  { destruct N3 as [N3|(L3 & ->)]; [apply (KW "td1"%string 2%nat false zero); [cbn; auto 10|word|exact N3]|].
    unfold kw. rewrite (read_default _ _ _ CL P "td1" 2 false zero ltac:(cbn; auto 10) L3). unfold zero. f_equal. unfold dR. simpl. ring. }
  assert (K5 : kw_inf ps "td2" = Ok None).
  { unfold kw_inf. rewrite (read_default _ _ _ CL P "td2" 4 false VInf ltac:(cbn; auto 10) L5). reflexivity. }
  assert (K6 : exists x, kw_inf ps "tau2" = Ok x).
  { destruct N6 as [(tau2 & N6)|L6]; [exists (Some tau2); apply kw_some; apply (KW "tau2"%string 5%nat false VInf); [cbn; auto 10|word|exact N6]|].
    exists None. unfold kw_inf. rewrite (read_default _ _ _ CL P "tau2" 5 false VInf ltac:(cbn; auto 10) L6). reflexivity. }
  destruct K6 as (x6 & K6). unfold fun_value. which.
  rewrite (KW "v1"%string 0%nat true VNone v1) by first [cbn; auto 10; fail|exact N1|word]. cbn [bindr].
  rewrite (KW "v2"%string 1%nat true VNone v2) by first [cbn; auto 10; fail|exact N2|word]. cbn [bindr]. rewrite K3. cbn [bindr].
  rewrite (KW "tau1"%string 3%nat true VNone tau1) by first [cbn; auto 10; fail|exact N4|word]. cbn [bindr]. rewrite K5, K6. cbn [bindr].
  unfold exp_value. rewrite Rlt_b_dec. destruct (Rlt_dec _ _); [reflexivity|]. destruct (Req_EM_T tau1 0); [lra|]. cbv zeta. do 5 f_equal. field. lra.
Qed.
Print Assumptions C204_rise.

(** On the line of a source: the value that goes into the laws (of C196, C202 and C203). *)
Theorem C204_line : forall ty n args p id n1 n2 f, function_params (lit ty) n ->
  parse_time_function (lit ty) args = Ok f -> given ty args p -> manual_ok ty p ->
  let line := id :: n1 :: n2 :: (lit "type=" ++ lit ty)%list :: args in
  let follows e := pid e = id /\ forall parts t, NoDup (map pid parts) -> In e parts -> 0 <= t ->
    driven (fun id => wave_of parts id t) written_dc e = manual_wave ty p t in
  ((List.length args <= n)%nat -> exists e, parse_elem_vsource line = Ok e /\ follows e) /\
  (List.length args = n -> exists e, parse_elem_isource line = Ok e /\ follows e).
Proof.
  intros ty n args p id n1 n2 f FP PT G OK line follows.
  assert (TY : In ty ["sin"; "exp"; "pulse"; "sffm"; "am"]%string).
  { inversion FP as [E|E|E|E|E]; apply (f_equal string_of_list_ascii) in E; unfold lit in E; rewrite string_of_list_ascii_of_string in E; cbn in E; subst ty; cbn; auto 10. }
  assert (V : forall e parts t, pid e = id -> function_of e = Some f -> NoDup (map pid parts) -> In e parts -> 0 <= t -> wave_of parts id t = manual_wave ty p t).
  { intros e parts t PI_ FE ND IN T0. unfold wave_of.
    assert (F : find (fun e => streqb (pid e) id) parts = Some e).
    { clear - PI_ ND IN. induction parts as [|x parts IH]; [contradiction|]. cbn [find map] in *. inversion ND as [|? ? NI ND']; subst.
      destruct (PropsSubckt.streqb_spec (pid x) (pid e)) as [Q|Q].
      - destruct IN as [->|IN]; [reflexivity|]. exfalso. apply NI. rewrite Q. apply in_map. exact IN.
      - destruct IN as [->|IN]; [contradiction|]. apply IH; assumption. }
    rewrite F, FE. rewrite (C204_wave ty args f p TY PT G OK t T0). reflexivity. }
  split; intros L.
  - exists (PV id n1 n2 None None (Some f)). split; [exact (C127_voltage id n1 n2 (lit ty) n args f FP L PT)|]. split; [reflexivity|].
    intros parts t ND IN T0. cbn [driven]. exact (V (PV id n1 n2 None None (Some f)) parts t eq_refl eq_refl ND IN T0).
  - exists (PI id n1 n2 None None (Some f)). split; [exact (C127_current id n1 n2 (lit ty) n args f FP L PT)|]. split; [reflexivity|].
    intros parts t ND IN T0. cbn [driven]. exact (V (PI id n1 n2 None None (Some f)) parts t eq_refl eq_refl ND IN T0).
Qed.
Print Assumptions C204_line.

(** A pulse with the delay left out and two words with labels: at 7 periods and a half of the rise. *)
Example C204_example :
  let args := [lit "1"; lit "5"; lit "per=1m"; lit "tr=0.1m"; lit "tf=0.2m"; lit "pw=0.3m"] in
  exists f, parse_time_function (lit "pulse") args = Ok f /\
    parse_elem_vsource (lit "v1" :: lit "a" :: lit "0" :: lit "type=pulse" :: args) = Ok (PV (lit "v1") (lit "a") (lit "0") None None (Some f)) /\
    fun_value f (7 / 1000 + 1 / 20000) = Ok 3.
Proof.
  intros args. eexists. split; [vm_compute; reflexivity|]. split; [vm_compute; reflexivity|].
  erewrite (C204_wave "pulse" args _ (fun w => if String.eqb w "v1" then 1 else if String.eqb w "v2" then 5 else if String.eqb w "td" then 0 else if String.eqb w "tr" then 1 / 10000
    else if String.eqb w "tf" then 2 / 10000 else if String.eqb w "pw" then 3 / 10000 else 1 / 1000)); [|cbn; auto|vm_compute; reflexivity| | |lra].
  - f_equal. unfold manual_wave. cbn [String.eqb Ascii.eqb Bool.eqb]. cbv zeta.
    replace (phase_of (1 / 1000) (7 / 1000 + 1 / 20000)) with (1 / 20000).
    + rewrite (Rmin_left (_ / _) (_ / _)) by lra. rewrite Rmin_right by lra. rewrite Rmax_right by lra. field.
    + unfold phase_of. replace (Int_part _) with 7%Z; [lra|]. unfold Int_part. rewrite <- (tech_up _ 8) by lra. reflexivity.
  - intros w pos df IN. cbn in IN. assert (NE : forall s, no_equals (lit s) -> no_equals (lit s)) by auto.
    repeat destruct IN as [IN|IN]; try contradiction; injection IN as <- <- <-.
    + left. exists (lit "1"), (1, 0)%Z. split; [right; reflexivity|]. split; [word|]. split; [reflexivity|]. unfold dR. simpl. lra.
    + left. exists (lit "5"), (5, 0)%Z. split; [right; reflexivity|]. split; [word|]. split; [reflexivity|]. unfold dR. simpl. lra.
    + right. split; [|reflexivity]. split.
      * intros v K. cbn in K. repeat destruct K as [K|K]; try contradiction; discriminate K.
      * intros tok K. cbn in K. injection K as <-. exists (lit "per"), (lit "1m"). split; [reflexivity|]. split; word.
    + left. exists (lit "0.1m"), (1, -4)%Z. split; [left; cbn; auto 10|]. split; [word|]. split; [reflexivity|]. unfold dR. simpl. lra.
    + left. exists (lit "0.2m"), (2, -4)%Z. split; [left; cbn; auto 10|]. split; [word|]. split; [reflexivity|]. unfold dR. simpl. lra.
    + left. exists (lit "0.3m"), (3, -4)%Z. split; [left; cbn; auto 10|]. split; [word|]. split; [reflexivity|]. unfold dR. simpl. lra.
    + left. exists (lit "1m"), (1, -3)%Z. split; [left; cbn; auto 10|]. split; [word|]. split; [reflexivity|]. unfold dR. simpl. lra.
  - unfold manual_ok. cbn [String.eqb Ascii.eqb Bool.eqb]. repeat split; lra.
Qed.
