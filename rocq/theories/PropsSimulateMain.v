(** From a netlist file with its directives to the dictionary of results (C212-C214). *)
From Coq Require Import Ascii String Reals List Bool Arith ZArith Lia Lra.
From Verif Require PropsParse SweepFacts.
From Verif Require Import Base BaseFacts Str Units Directive Lines Reader Netlist ModelLines Nodes NodesFacts Circuit CircuitFacts Rsum Mna MnaSpec DcSolve Newton
  NewtonFacts DynFacts Df Tran TranFacts PropsTran Ac AcFacts Sweep Csv PropsCsv Results PropsDirective PropsReader PropsNetlist PropsResults PropsMna PropsDc PropsAc Session PropsSetup
  RunQueue Ics Subckt PropsSubckt Simulate PropsSimulate SimulateAc PropsSimulateAc SimulateDc PropsSimulateDc SimulateTran PropsSimulateTran
  SimulateSub PropsSimulateSub PropsSimulateHier PropsSimulateSubLaws PropsSimulateOp SimulateMain.
Import ListNotations.
Open Scope R_scope.

(** * The analyses one by one *)
Section Loop.
  Variables C P X : Type.
  Variable known : str -> bool.
  Variable exec : C -> str -> P -> option X -> res X.
  Variable icmod : C -> X -> res X.
  Local Notation an := (RunQueue.an P X).
  Local Notation ty a := (a_type P X a).
  Local Notation par a := (a_par P X a).
  Local Notation st := (RunQueue.state C P X).
  Local Notation loop_ := (RunQueue.main_loop C P X known exec icmod).

  (** What an analysis starts from. *)
  Definition begins_at (xs : list (str * X)) (a : an) (x0 : option X) : Prop :=
    match a_x0 P X a with
    | None | Some (XNone _) => x0 = None
    | Some (XVal _ v) => x0 = Some v
    | Some (XText _ s) => exists v, dget streqb xs s = Some v /\ x0 = Some v
    end.

  Lemma main_step : forall c a l s rs0 rs s', loop_ c (a :: l) s rs0 = (Ok rs, s') ->
    exists x0 r s1, begins_at (x0s C P X s) a x0 /\ exec c (ty a) (par a) x0 = Ok r /\ loop_ c l s1 (dset streqb rs0 (ty a) r) = (Ok rs, s') /\
      (ty a <> op -> x0s C P X s1 = x0s C P X s) /\
      (ty a = op -> exists ri, icmod c r = Ok ri /\ x0s C P X s1 = dset streqb (dset streqb (x0s C P X s) op r) opic ri).
  Proof.
    intros c a l s rs0 rs s' H. cbn [RunQueue.main_loop] in H. unfold RunQueue.handle in H. cbn [map] in H.
    destruct (unresolved P X (resolve_one P X (x0s C P X s) a)) eqn:U; [discriminate|]. set (a' := resolve_one P X (x0s C P X s) a) in *.
    assert (E1 : ty a' = ty a /\ par a' = par a) by (unfold a', resolve_one; destruct (a_x0 P X a) as [[|k|x]|]; auto; destruct (dget streqb _ k); auto).
    destruct E1 as [E1 E2]. cbn [RunQueue.run RunQueue.loop List.length] in H. rewrite E1, E2 in H.
    destruct (negb (known (ty a))); [discriminate|]. set (x0 := starting P X a') in *.
    assert (B : begins_at (x0s C P X s) a x0).
    { unfold begins_at. unfold x0, a', starting, resolve_one in *. destruct (a_x0 P X a) as [[|k|x]|] eqn:AX; rewrite ?AX in *; try reflexivity.
      destruct (dget streqb (x0s C P X s) k) as [v|] eqn:D; cbn [a_x0] in *; [exists v; auto|]. unfold unresolved in U. rewrite AX in U. discriminate U. }
    destruct (exec c (ty a) (par a) x0) as [r|e] eqn:EX; [|discriminate]. exists x0, r.
    destruct (PropsSubckt.streqb_spec (ty a) op) as [T|T].
    - destruct (icmod c r) as [ri|e] eqn:IC; [|discriminate]. cbn [fold_left fst snd dset] in H.
      eexists. split; [exact B|]. split; [exact EX|]. split; [exact H|]. split; [congruence|]. intros _. exists ri. split; [first [exact IC | reflexivity]|reflexivity].
    - cbn [fold_left fst snd dset] in H. eexists. split; [exact B|]. split; [exact EX|]. split; [exact H|]. split; [reflexivity|congruence].
  Qed.

  Lemma main_keeps : forall c l s rs0 rs s' t, loop_ c l s rs0 = (Ok rs, s') -> Forall (fun a => ty a <> t) l -> dget streqb rs t = dget streqb rs0 t.
  Proof.
    intros c l. induction l as [|a l IH]; intros s rs0 rs s' t H F; [cbn in H; congruence|].
    destruct (main_step _ _ _ _ _ _ _ H) as (x0 & r & s1 & _ & _ & H1 & _). rewrite (IH _ _ _ _ t H1 (Forall_inv_tail F)).
    rewrite (dget_dset streqb PropsSubckt.streqb_spec). destruct (PropsSubckt.streqb_spec t (ty a)) as [->|]; [|reflexivity]. exfalso. apply (Forall_inv F). reflexivity.
  Qed.

  (** The stored starting points before an analysis: those of the last operating point. *)
  Definition stored (c : C) (xs0 : list (str * X)) (pre : list an) (xs : list (str * X)) : Prop :=
    (forall k, k <> op -> k <> opic -> dget streqb xs k = dget streqb xs0 k) /\
    (Forall (fun a => ty a <> op) pre -> xs = xs0) /\
    (forall pre1 b pre2, pre = pre1 ++ b :: pre2 -> ty b = op -> Forall (fun a => ty a <> op) pre2 ->
       exists y r ri, exec c op (par b) y = Ok r /\ icmod c r = Ok ri /\ dget streqb xs op = Some r /\ dget streqb xs opic = Some ri).

  Lemma main_runs : forall c pre a post s rs0 rs s', loop_ c (pre ++ a :: post) s rs0 = (Ok rs, s') ->
    exists xs x0 r, stored c (x0s C P X s) pre xs /\ begins_at xs a x0 /\ exec c (ty a) (par a) x0 = Ok r /\
      (Forall (fun b => ty b <> ty a) post -> dget streqb rs (ty a) = Some r) /\
      (Exists (fun b => ty b = op) pre -> ty a <> op -> Forall (fun b => ty b <> op) post -> dget streqb rs op = dget streqb xs op).
  Proof.
    intros c pre. induction pre as [|b pre IH]; intros a post s rs0 rs s' H.
    - cbn [app] in H. destruct (main_step _ _ _ _ _ _ _ H) as (x0 & r & s1 & B & E & H1 & _). exists (x0s C P X s), x0, r. split.
      + split; [reflexivity|]. split; [reflexivity|]. intros [|? ?] ? ? Q; discriminate Q.
      + split; [exact B|]. split; [exact E|]. split; [|intros Q; inversion Q]. intros F. rewrite (main_keeps _ _ _ _ _ _ _ H1 F). rewrite (dget_dset streqb PropsSubckt.streqb_spec).
        destruct (PropsSubckt.streqb_spec (ty a) (ty a)); congruence.
    - cbn [app] in H. destruct (main_step _ _ _ _ _ _ _ H) as (x0 & r & s1 & B & E & H1 & N1 & N2).
      destruct (IH _ _ _ _ _ _ H1) as (xs & x0' & r' & (S1 & S2 & S3) & B' & E' & D' & O'). exists xs, x0', r'. split; [|split; [exact B'|split; [exact E'|split; [exact D'|]]]].
      2:{ intros Q TA FP. destruct (Exists_dec (fun b => ty b = op) pre (fun b => list_eq_dec ascii_dec (ty b) op)) as [Y|N]; [exact (O' Y TA FP)|].
        inversion Q as [? ? T|? ? T]; subst; [|destruct (N T)]. destruct (N2 T) as (ri & _ & X1). apply Forall_Exists_neg in N. rewrite (S2 N), X1.
        assert (FF : Forall (fun b => ty b <> op) (pre ++ a :: post)) by (apply Forall_app; split; [exact N|constructor; assumption]).
        rewrite (main_keeps _ _ _ _ _ _ _ H1 FF). rewrite !(dget_dset streqb PropsSubckt.streqb_spec), T. destruct (PropsSubckt.streqb_spec op opic) as [Z|_]; [discriminate Z|]. reflexivity. }
      split; [|split].
      + intros k K1 K2. rewrite (S1 k K1 K2). destruct (PropsSubckt.streqb_spec (ty b) op) as [T|T]; [|rewrite (N1 T); reflexivity].
        destruct (N2 T) as (ri & _ & ->). rewrite !(dget_dset streqb PropsSubckt.streqb_spec).
        destruct (PropsSubckt.streqb_spec k opic); [congruence|]. destruct (PropsSubckt.streqb_spec k op); congruence.
      + intros F. rewrite (S2 (Forall_inv_tail F)). apply N1. exact (Forall_inv F).
      + intros pre1 b' pre2 Q T F. destruct pre1 as [|b1 pre1].
        * injection Q as -> ->. destruct (N2 T) as (ri & IC & X1). exists x0, r, ri. rewrite T in E. split; [exact E|]. split; [exact IC|]. rewrite (S2 F), X1.
          rewrite !(dget_dset streqb PropsSubckt.streqb_spec). destruct (PropsSubckt.streqb_spec op opic) as [Q|_]; [discriminate Q|].
          destruct (PropsSubckt.streqb_spec op op); [|congruence]. destruct (PropsSubckt.streqb_spec opic opic); [|congruence]. split; reflexivity.
        * injection Q as -> ->. exact (S3 pre1 b' pre2 eq_refl T F).
  Qed.
End Loop.

(** * The directives *)

(** The directives of a file and of those it includes, in order. *)
Definition directives (fs : str -> option (list str)) (files : nat) (filename : str) (dirs : list str) : Prop :=
  exists title fp bs ps rest, fs filename = Some (title :: fp) /\ holds fs (path_dir filename) fp bs ps /\ visits fs (path_dir filename) ps rest /\
    (List.length rest < files)%nat /\ dirs = of_kind KDir (texts (bs ++ concat rest)).
(** A line [.ty words]. *)
Definition asks (ty : string) (line : str) (words : list str) : Prop := split line = (lit "." ++ lit ty) :: words.
(** The type of the analysis that a line asks for. *)
Definition of_type (ty : string) (line : str) : Prop := exists w words, split line = w :: words /\ directive_type w = lit ty.
(** Among the words, before a comment, is [label=v], or [v] at the place [pos]. *)
Definition parameter (label : string) (pos : option nat) (words : list str) (v : str) : Prop :=
  no_equals v /\ exists i, nth_error (live words) i = Some (setting_of label v) \/ (pos = Some i /\ nth_error (live words) i = Some v).
(** A number with an optional suffix (C26). *)
Definition quantity (label : string) (pos : option nat) (words : list str) (q : R) : Prop :=
  exists v d, parameter label pos words v /\ convert_units v = Ok d /\ q = dR d.
(** There is no such word. *)
Definition absent (label : string) (pos : option nat) (words : list str) : Prop :=
  forall i w, nth_error (live words) i = Some w -> (forall v, w <> setting_of label v) /\ pos <> Some i.

Lemma no_eq_label : forall v, no_equals v -> label_value v = (None, v).
Proof. intros v N. unfold label_value, is_valid_value_param_string. rewrite (filter_no_eq v N). reflexivity. Qed.
Lemma is_eq_c : forall c, is_eq c = true -> c = c_eq.
Proof. intros c. unfold is_eq. destruct (ascii_dec c c_eq); [auto|discriminate]. Qed.
Lemma span_eq : forall s l v, span (fun c => negb (is_eq c)) s = (l, v) -> s = l ++ v /\ match v with [] => True | c :: _ => c = c_eq end.
Proof.
  induction s as [|c s IH]; intros l v H; cbn [span] in H; [injection H as <- <-; split; [reflexivity|exact Logic.I]|].
  destruct (is_eq c) eqn:E; cbn [negb] in H.
  - injection H as <- <-. split; [reflexivity|apply is_eq_c, E].
  - destruct (span (fun c => negb (is_eq c)) s) as [l' v'] eqn:Q. injection H as <- <-. destruct (IH l' v' eq_refl) as [-> V]. split; [reflexivity|exact V].
Qed.
Lemma label_setting : forall w l, fst (label_value w) = Some l -> exists v, w = l ++ c_eq :: v.
Proof.
  intros w l H. unfold label_value in H. destruct (is_valid_value_param_string w) eqn:V; [|discriminate]. destruct (span (fun c => negb (is_eq c)) w) as [l' v] eqn:S.
  cbn [fst] in H. injection H as ->. destruct (span_eq _ _ _ S) as [-> Q]. destruct v as [|c v]; [|subst c; exists v; reflexivity]. rewrite app_nil_r in *. exfalso.
  unfold is_valid_value_param_string in V. assert (F : filter is_eq l = []); [|rewrite F in V; discriminate V]. clear - S. revert S.
  induction l as [|c l IH]; intros S; [reflexivity|]. cbn [span filter] in *. destruct (is_eq c); cbn [negb] in S; [discriminate S|].
  destruct (span (fun c => negb (is_eq c)) l) as [l' v'] eqn:Q. injection S as -> ->. apply IH. reflexivity.
Qed.

Lemma parameter_value : forall ty tbl an0 words an label pos v t, In (ty, tbl) specs -> parse_params tbl an0 words = Ok an ->
  parameter label pos words v -> no_equals (lit label) -> In t tbl -> s_label t = Some (lit label) -> s_pos t = pos ->
  exists x, convert v (s_type t) = Ok x /\ dget streqb an (s_dest t) = Some x.
Proof.
  intros ty tbl an0 words an label pos v t IT P (NE & i & H) NL T L S.
  assert (CL : clear tbl) by (apply (C45_tables ty); left; exact IT). destruct (C45_values tbl an0 words an CL P) as (A & _). destruct H as [H|(E & H)].
  - pose proof (setting_label label v NL NE) as SL. destruct (A i _ t H) as (x & X & D); [split; [exact T|rewrite SL; exact L]|]. rewrite SL in X. exists x. split; assumption.
  - pose proof (no_eq_label v NE) as SL. destruct (A i _ t H) as (x & X & D); [split; [exact T|rewrite SL; left; congruence]|]. rewrite SL in X. exists x. split; assumption.
Qed.
Lemma quantity_value : forall ty tbl an0 words an label pos q t, In (ty, tbl) specs -> parse_params tbl an0 words = Ok an ->
  quantity label pos words q -> no_equals (lit label) -> In t tbl -> s_label t = Some (lit label) -> s_pos t = pos -> s_type t = TFloat ->
  exists d, dget streqb an (s_dest t) = Some (VNum d) /\ q = dR d.
Proof.
  intros ty tbl an0 words an label pos q t IT P (v & d & PV & CU & ->) NL T L S F.
  destruct (parameter_value _ _ _ _ _ _ _ _ _ IT P PV NL T L S) as (x & X & D). rewrite F in X. cbn [convert] in X. rewrite CU in X. injection X as <-. exists d. split; [exact D|reflexivity].
Qed.
Lemma absent_value : forall ty tbl an0 words an label pos t, In (ty, tbl) specs -> parse_params tbl an0 words = Ok an ->
  absent label pos words -> In t tbl -> s_label t = Some (lit label) -> s_pos t = pos -> dget streqb an (s_dest t) = Some (s_default t).
Proof.
  intros ty tbl an0 words an label pos t IT P AB T L S.
  assert (CL : clear tbl) by (apply (C45_tables ty); left; exact IT). destruct (C45_values tbl an0 words an CL P) as (_ & A & _). apply (A t T).
  intros i w W (_ & Q). destruct (AB i w W) as [N1 N2]. destruct (fst (label_value w)) as [l|] eqn:E.
  - rewrite L in Q. injection Q as <-. destruct (label_setting w _ E) as (v & V). exact (N1 v V).
  - destruct Q as [Q|Q]; congruence.
Qed.

(** ** One line *)
Lemma dget_ddel_ne : forall (d : list (str * Directive.val)) k k', k' <> k -> dget streqb (ddel streqb d k) k' = dget streqb d k'.
Proof.
  induction d as [|[k0 v0] d IH]; intros k k' N; [reflexivity|]. cbn [ddel dget]. destruct (PropsSubckt.streqb_spec k k0) as [->|]; cbn [dget].
  - destruct (PropsSubckt.streqb_spec k' k0); [congruence|reflexivity].
  - rewrite IH by exact N. reflexivity.
Qed.
Lemma dget_dset_ne : forall (d : list (str * Directive.val)) k k' v, k' <> k -> dget streqb (dset streqb d k v) k' = dget streqb d k'.
Proof. intros d k k' v N. rewrite (dget_dset streqb PropsSubckt.streqb_spec). destruct (PropsSubckt.streqb_spec k' k); [congruence|reflexivity]. Qed.
Lemma dget_dset_eq : forall (d : list (str * Directive.val)) k v, dget streqb (dset streqb d k v) k = Some v.
Proof. intros d k v. rewrite (dget_dset streqb PropsSubckt.streqb_spec). destruct (PropsSubckt.streqb_spec k k); congruence. Qed.
Lemma single_line : forall line ty words an, asks ty line words -> parse_single_analysis line = Ok an -> ~ In c_dot (lit ty) -> slower (lit ty) = lit ty ->
  exists tbl an1, In (lit ty, tbl) specs /\ parse_params tbl [(lit "type", VStr (lit ty))] words = Ok an1 /\
    (forall d, d <> lit "x0" -> d <> lit "uic" -> dget streqb an d = dget streqb an1 d) /\
    (lit ty <> lit "tran" -> lit ty <> lit "pz" -> an = an1) /\ (lit ty = lit "tran" -> tran_uic an1 = Ok an).
Proof.
  intros line ty words an A H ND LO. unfold asks in A. unfold parse_single_analysis in H. rewrite A in H.
  assert (D : directive_type (lit "." ++ lit ty) = lit ty).
  { unfold directive_type. cbn [app filter lit list_ascii_of_string]. change (is_dot ".") with true. cbn [negb]. rewrite <- LO at 2. f_equal. clear - ND. fold (lit ty).
    induction (lit ty) as [|c s IH]; [reflexivity|]. cbn [filter]. unfold is_dot at 1. destruct (ascii_dec c c_dot) as [->|]; [exfalso; apply ND; left; reflexivity|].
    cbn [negb]. rewrite IH; [reflexivity|]. intros K. apply ND. right. exact K. }
  cbv zeta in H. rewrite D in H. destruct (dget streqb specs (lit ty)) as [tbl|] eqn:G; [|discriminate]. apply bindr_Ok in H. destruct H as (an1 & P & H).
  exists tbl, an1. assert (IT : In (lit ty, tbl) specs).
  { clear - G. revert G. generalize specs. intros l. induction l as [|[k v] l IH]; cbn [dget]; intros G; [discriminate|]. destruct (PropsSubckt.streqb_spec (lit ty) k) as [->|]; [left; congruence|right; auto]. }
  split; [exact IT|]. split; [exact P|]. destruct (PropsSubckt.streqb_spec (lit ty) (lit "tran")) as [T|T].
  - split; [|split; [congruence|intros _; exact H]]. intros d D1 D2. unfold tran_uic in H. destruct (dget streqb an1 (lit "uic")) as [v|]; [|discriminate]. destruct v as [| |dd|sv|bv]; try discriminate H.
    cbv zeta in H.
    repeat match type of H with (if ?b then _ else _) = _ => destruct b end; try discriminate H; injection H as <-;
      first [rewrite dget_dset_ne by exact D1; apply dget_ddel_ne; exact D2|apply dget_ddel_ne; exact D2].
  - split; [|split; [|congruence]].
    + intros d D1 D2. destruct (streqb (lit ty) (lit "pz")); injection H as <-; [|reflexivity]. apply dget_dset_ne. exact D1.
    + intros _ NP. destruct (PropsSubckt.streqb_spec (lit ty) (lit "pz")); [congruence|]. congruence.
Qed.
Lemma single_type : forall line an, parse_single_analysis line = Ok an -> exists w words, split line = w :: words /\ a_type _ _ (as_an an) = directive_type w.
Proof.
  intros line an H. unfold parse_single_analysis in H. destruct (split line) as [|w words]; [discriminate|]. exists w, words. split; [reflexivity|]. cbv zeta in H.
  destruct (dget streqb specs (directive_type w)) as [tbl|] eqn:G; [|discriminate]. apply bindr_Ok in H. destruct H as (an1 & P & H).
  assert (IT : In (directive_type w, tbl) specs).
  { clear - G. revert G. generalize specs. intros l. induction l as [|[k v] l IH]; cbn [dget]; intros G; [discriminate|]. destruct (PropsSubckt.streqb_spec (directive_type w) k) as [->|]; [left; congruence|right; auto]. }
  assert (CL : clear tbl) by (apply (C45_tables (directive_type w)); left; exact IT). destruct (C45_values tbl _ words an1 CL P) as (_ & _ & A).
  assert (K : dget streqb an (lit "type") = Some (VStr (directive_type w))).
  { assert (K1 : dget streqb an1 (lit "type") = Some (VStr (directive_type w))).
    { rewrite A; [reflexivity|]. intros t T Q. clear - IT T Q. cbn in IT. repeat (destruct IT as [IT|IT]; [injection IT as _ <-; cbn in T; repeat (destruct T as [T|T]; [subst t; discriminate Q|]); exact T|]). exact IT. }
    rewrite <- K1. destruct (streqb (directive_type w) (lit "tran")).
    - unfold tran_uic in H. destruct (dget streqb an1 (lit "uic")) as [v|]; [|discriminate]. destruct v as [| |dd|sv|bv]; try discriminate H. cbv zeta in H.
      repeat match type of H with (if ?b then _ else _) = _ => destruct b end; try discriminate H; injection H as <-; 
        first [rewrite dget_dset_ne by discriminate; apply dget_ddel_ne; discriminate|apply dget_ddel_ne; discriminate].
    - destruct (streqb (directive_type w) (lit "pz")); injection H as <-; [|reflexivity]. apply dget_dset_ne. discriminate. }
  unfold as_an. cbn [a_type]. rewrite K. reflexivity.
Qed.
Lemma split_head : forall s w, w <> [] -> exists x r, split_aux w s = (w ++ x) :: r.
Proof.
  induction s as [|c s IH]; intros w W; cbn [split_aux].
  - destruct w; [congruence|]. exists [], []. rewrite app_nil_r. reflexivity.
  - destruct (is_ws c); [destruct w; [congruence|]; exists [], (split_aux [] s); rewrite app_nil_r; reflexivity|].
    destruct (IH (w ++ [c])) as (x & r & ->); [destruct w; discriminate|]. exists (c :: x), r. rewrite <- app_assoc. reflexivity.
Qed.
Lemma ic_word : forall line, is_ic line = true -> exists x r, split line = (lit ".ic" ++ x) :: r.
Proof.
  intros line H. unfold is_ic in H. destruct (PropsSubckt.streqb_spec (firstn 3 line) (lit ".ic")) as [E|]; [|discriminate].
  rewrite <- (firstn_skipn 3 line), E. unfold split. cbn [lit list_ascii_of_string app split_aux is_ws]. exact (split_head _ (lit ".ic") ltac:(discriminate)).
Qed.
Lemma asks_ic : forall ty line words, asks ty line words -> (forall x, lit ty <> lit "ic" ++ x) -> is_ic line = false.
Proof.
  intros ty line words A N. destruct (is_ic line) eqn:E; [|reflexivity]. exfalso. destruct (ic_word line E) as (x & r & Q). unfold asks in A. rewrite A in Q. injection Q as Q _. exact (N x Q).
Qed.
Lemma mapr_app : forall A B (f : A -> res B) l1 l2 r, mapr f (l1 ++ l2) = Ok r -> exists r1 r2, mapr f l1 = Ok r1 /\ mapr f l2 = Ok r2 /\ r = r1 ++ r2.
Proof.
  intros A B f l1. induction l1 as [|a l1 IH]; intros l2 r H; [exists [], r; auto|]. cbn [app mapr] in *. apply bindr_Ok in H. destruct H as (b & F & H). apply bindr_Ok in H.
  destruct H as (r' & H & E). destruct (IH l2 r' H) as (r1 & r2 & M1 & M2 & ->). injection E as <-. exists (b :: r1), r2. rewrite F. cbn [bindr]. rewrite M1. auto.
Qed.
Lemma mapr_in : forall A B (f : A -> res B) l r b, mapr f l = Ok r -> In b r -> exists a, In a l /\ f a = Ok b.
Proof.
  intros A B f l. induction l as [|a l IH]; intros r b H I; cbn [mapr] in H; [injection H as <-; destruct I|]. apply bindr_Ok in H. destruct H as (b' & F & H). apply bindr_Ok in H.
  destruct H as (r' & H & E). injection E as <-. destruct I as [<-|I]; [exists a; split; [left; reflexivity|exact F]|]. destruct (IH r' b H I) as (a' & A1 & A2). exists a'. split; [right; exact A1|exact A2].
Qed.

Definition op_an : list (str * Directive.val) := [(lit "type", VStr (lit "op")); (lit "guess", VBool true); (lit "x0", VNone)].
Lemma one_op : forall (C : Type) (c : C) ex ic (r ri : result), ex c (lit "op") op_an None = Ok r -> ic c r = Ok ri ->
  fst (RunQueue.main C _ _ (fun ty => mem ty known_types) ex ic c [] (map as_an [op_an]) (mkSt C _ _ [] [] [])) = Ok [(lit "op", r)].
Proof.
  intros C c ex ic r ri H HI. unfold RunQueue.main. cbn [map RunQueue.main_loop]. change (as_an op_an) with (mkAn (list (str * Directive.val)) result (lit "op") (Some (XNone result)) op_an).
  unfold RunQueue.handle. cbn [map resolve_one a_x0 unresolved existsb]. unfold RunQueue.run. cbn -[lit op_an known_types mem]. change (mem (lit "op") known_types) with true. cbn -[lit op_an known_types mem].
  rewrite H. cbn -[lit op_an known_types mem]. rewrite HI. reflexivity.
Qed.
Lemma op_tran : forall (C : Type) (c : C) ex ic (par : list (str * Directive.val)) (r ri r2 : result), ex c (lit "op") op_an None = Ok r -> ic c r = Ok ri -> 
  ex c (lit "tran") par (Some r) = Ok r2 ->
  fst (RunQueue.main C _ _ (fun ty => mem ty known_types) ex ic c [] [mkAn _ _ (lit "op") (Some (XNone result)) op_an; mkAn _ _ (lit "tran") (Some (XText result (lit "op"))) par] (mkSt C _ _ [] [] []))
    = Ok [(lit "op", r); (lit "tran", r2)].
Proof.
  intros C c ex ic par r ri r2 H HI H2. cbv in H, H2. cbv. rewrite H, HI, H2. reflexivity.
Qed.

(** * The whole program *)
Section Program.
  Variable solve : nat -> mat -> vec -> option vec.
  Variable csolve : cmat -> cvec -> option cvec.
  Variable JT : vec -> mat * vec.
  Variable check : vec -> vec -> vec -> bool.
  Variable locked : list lelem -> list (nat * nat).
  Variables (o : dopts) (tdo : tdopts) (damp_first : bool) (maxit acit trit fuel : nat) (topt : topts) (cmin gmin : R).
  Variable at_time : str -> R -> R.
  Variable guess : list lelem -> vec.
  Variable skip : bool.
  Variable inv : mat -> mat.
  Variable modules : string -> dfm.
  Variable has_module : string -> bool.
  Variable rounds : nat.
  Variable settings : Session.opts.
  Variable rest : list pelem * ntab * list lelem -> str -> list (str * Directive.val) -> option result -> res result.
  Variable icmod : list pelem * ntab * list lelem -> result -> res result.
  Local Notation main_ := (main_file solve csolve JT check locked o tdo damp_first maxit acit trit fuel topt cmin gmin at_time guess skip inv modules has_module rounds settings rest icmod).
  Local Notation exec_ := (exec solve csolve JT check locked o tdo damp_first maxit acit trit fuel topt cmin gmin at_time guess skip inv modules has_module rounds settings rest).
  Local Notation dget_ := (dget streqb).

  Lemma main_line : forall fs user depth files filename c rs dirs before line after, main_ fs user depth files filename = Ok (c, rs) -> directives fs files filename dirs ->
    dirs = before ++ line :: after -> is_ic line = false ->
    load_all fs user depth files filename = Ok c /\
    exists ics xs0 pre an post xs x0 r, parse_ics dirs = Ok ics /\ ic_vectors (snd (fst c)) (snd c) ics = Ok xs0 /\
      parse_analysis before = Ok pre /\ parse_single_analysis line = Ok an /\ parse_analysis after = Ok post /\
      stored _ _ _ exec_ icmod c (fold_left (fun acc kv => dset streqb acc (fst kv) (snd kv)) xs0 []) (map as_an pre) xs /\
      begins_at _ _ xs (as_an an) x0 /\ exec_ c (a_type _ _ (as_an an)) an x0 = Ok r /\
      (Forall (fun l => forall w words, split l = w :: words -> directive_type w <> a_type _ _ (as_an an)) after -> dget_ rs (a_type _ _ (as_an an)) = Some r) /\
      (Exists (fun b => a_type _ _ b = lit "op") (map as_an pre) -> a_type _ _ (as_an an) <> lit "op" -> Forall (fun l => ~ of_type "op" l) after -> dget_ rs (lit "op") = dget_ xs (lit "op")).
  Proof.
    intros fs user depth files filename c rs dirs before line after M (title & fp & bs & ps & more & F & HO & VI & LF & DI) BLA IC. unfold main_file in M.
    apply bindr_Ok in M. destruct M as (c' & LD & M). destruct (C113_groups fs filename title fp bs ps more files F HO VI LF) as (s & RD & _ & DR & _). rewrite RD in M. cbn [bindr] in M. cbv zeta in M.
    rewrite DR, <- DI in M. apply bindr_Ok in M. destruct M as (ics & PI_ & M). apply bindr_Ok in M. destruct M as (xs0 & XS & M). apply bindr_Ok in M. destruct M as (ans & PA & M).
    apply bindr_Ok in M. destruct M as (rs' & MM & E). injection E as -> ->. split; [exact LD|]. unfold parse_analysis in PA. rewrite BLA, filter_app in PA. cbn [filter] in PA. rewrite IC in PA. cbn [negb] in PA.
    destruct (mapr_app _ _ _ _ _ _ PA) as (pre & r2 & P1 & P2 & ->). cbn [mapr] in P2. apply bindr_Ok in P2. destruct P2 as (an & P2 & P3). apply bindr_Ok in P3. destruct P3 as (post & P3 & E).
    injection E as <-. unfold RunQueue.main in MM. cbn [x0s queue_ log] in MM. rewrite map_app in MM. cbn [map] in MM.
    destruct (RunQueue.main_loop _ _ _ _ _ _ _ _ _ _) as [q s'] eqn:ML in MM. cbn [fst] in MM. subst q.
    destruct (main_runs _ _ _ _ _ _ _ _ _ _ _ _ _ _ ML) as (xs & x0 & r & ST & BE & EX & DG & OG). cbn [x0s] in ST.
    exists ics, xs0, pre, an, post, xs, x0, r. split; [exact PI_|]. split; [exact XS|]. split; [exact P1|]. split; [exact P2|]. split; [exact P3|]. split; [exact ST|]. split; [exact BE|]. split; [exact EX|]. split.
    2:{ intros EX1 TA FA. apply OG; [exact EX1|exact TA|]. apply Forall_map. rewrite Forall_forall in FA |- *. intros b B T. destruct (mapr_in _ _ _ _ _ _ P3 B) as (lb & LB & PB). apply filter_In in LB. destruct LB as [LB _].
      destruct (single_type lb b PB) as (w & words & SP & TY). apply (FA lb LB). exists w, words. split; [exact SP|]. rewrite <- TY. exact T. }
    intros FA. apply DG. apply Forall_map. rewrite Forall_forall in FA |- *. intros b B T. destruct (mapr_in _ _ _ _ _ _ P3 B) as (lb & LB & PB). apply filter_In in LB. destruct LB as [LB _].
    destruct (single_type lb b PB) as (w & words & SP & TY). apply (FA lb LB w words SP). congruence.
  Qed.

  Lemma not_of : forall ty l, ~ of_type ty l -> forall w words, split l = w :: words -> directive_type w <> lit ty.
  Proof. intros ty l N w words S D. apply N. exists w, words. split; assumption. Qed.
  Lemma type_of : forall ty line words an, asks ty line words -> ~ In c_dot (lit ty) -> slower (lit ty) = lit ty -> parse_single_analysis line = Ok an -> a_type _ _ (as_an an) = lit ty.
  Proof.
    intros ty line words an A ND LO P. destruct (single_type line an P) as (w & ws & SP & ->). unfold asks in A. rewrite A in SP. injection SP as <- _.
    unfold directive_type. cbn [app filter lit list_ascii_of_string]. change (is_dot ".") with true. cbn [negb]. fold (lit ty). rewrite <- LO at 2. f_equal.
    clear - ND. induction (lit ty) as [|c s IH]; [reflexivity|]. cbn [filter]. unfold is_dot at 1. destruct (ascii_dec c c_dot) as [->|]; [exfalso; apply ND; left; reflexivity|].
    cbn [negb]. rewrite IH; [reflexivity|]. intros K. apply ND. right. exact K.
  Qed.

  (** ** C212: the analyses that the lines ask for *)
  Theorem C212_op : forall fs user depth files filename parts t es rs dirs before line after words,
    main_ fs user depth files filename = Ok (parts, t, es, rs) -> directives fs files filename dirs -> dirs = before ++ line :: after ->
    asks "op" line words -> Forall (fun l => ~ of_type "op" l) after ->
    load_all fs user depth files filename = Ok (parts, t, es) /\
    exists x r, op_run solve JT check locked o tdo maxit fuel gmin (fun id => at_time id 0) t es x = Ok r /\ dget_ rs (lit "op") = Some (ROp r) /\
      (absent "guess" None words -> absent "ic_label" None words -> x = if op_guess settings true then guess es else vzero).
  Proof.
    intros fs user depth files filename parts t es rs dirs before line after words M DI BLA A LAST.
    assert (IC : is_ic line = false) by (apply (asks_ic "op" line words A); intros x Q; discriminate Q).
    destruct (main_line _ _ _ _ _ _ _ _ _ _ _ M DI BLA IC) as (LD & ics & xs0 & pre & an & post & xs & x0 & r & _ & _ & _ & PL_ & _ & ST & BE & EX & DG & OG). split; [exact LD|].
    assert (ND : ~ In c_dot (lit "op")) by (cbn; intuition discriminate). assert (LO : slower (lit "op") = lit "op") by reflexivity.
    pose proof (type_of "op" line words an A ND LO PL_) as TY. rewrite TY in EX, DG.
    destruct (single_line line "op" words an A PL_ ND LO) as (tbl & an1 & IT & P & _ & SAME & _). specialize (SAME ltac:(discriminate) ltac:(discriminate)). subst an1.
    assert (TB : tbl = Directive.op_table) by (cbn in IT; repeat (destruct IT as [IT|IT]; [try discriminate IT; congruence|]); destruct IT).
    unfold exec in EX. cbn [streqb] in EX. change (streqb (lit "op") (lit "op")) with true in EX. cbv iota in EX.
    apply bindr_Ok in EX. destruct EX as (x & SX & EX). apply bindr_Ok in EX. destruct EX as (g & G & EX). apply bindr_Ok in EX. destruct EX as (r' & OR & E). injection E as <-.
    eexists. exists r'. split; [exact OR|]. split.
    - apply DG. rewrite Forall_forall in LAST |- *. intros l L. exact (not_of "op" l (LAST l L)).
    - intros AG AX. rewrite TB in IT, P.
      pose proof (absent_value _ _ _ _ _ "guess" None _ IT P AG ltac:(left; reflexivity) eq_refl eq_refl) as D1. cbn [s_dest s_default sp] in D1.
      pose proof (absent_value _ _ _ _ _ "ic_label" None _ IT P AX ltac:(right; left; reflexivity) eq_refl eq_refl) as D2. cbn [s_dest s_default sp] in D2.
      rewrite D1 in G. injection G as <-. unfold begins_at, as_an in BE. cbn [a_x0] in BE. rewrite D2 in BE. subst x0. injection SX as <-. reflexivity.
  Qed.

  Theorem C212_dc : forall fs user depth files filename parts t es rs dirs before line after words source a b s,
    main_ fs user depth files filename = Ok (parts, t, es, rs) -> directives fs files filename dirs -> dirs = before ++ line :: after ->
    asks "dc" line words -> Forall (fun l => ~ of_type "dc" l) after ->
    parameter "source" (Some 0)%nat words source -> quantity "start" (Some 1)%nat words a -> quantity "stop" (Some 2)%nat words b -> quantity "step" (Some 3)%nat words s ->
    absent "type" None words \/ (exists v, parameter "type" None words v /\ stype3 (ss v) = "LIN"%string) ->
    load_all fs user depth files filename = Ok (parts, t, es) /\
    exists r es', dc_run solve JT check locked o tdo maxit fuel gmin (fun id => at_time id 0) guess skip t es a b s source None = (Ok r, es') /\ dget_ rs (lit "dc") = Some (RDc r).
  Proof.
    intros fs user depth files filename parts t es rs dirs before line after words source a b s M DI BLA A LAST PS QA QB QS TYPE.
    assert (IC : is_ic line = false) by (apply (asks_ic "dc" line words A); intros x Q; discriminate Q).
    destruct (main_line _ _ _ _ _ _ _ _ _ _ _ M DI BLA IC) as (LD & ics & xs0 & pre & an & post & xs & x0 & r & _ & _ & _ & PL_ & _ & ST & BE & EX & DG & OG). split; [exact LD|].
    assert (ND : ~ In c_dot (lit "dc")) by (cbn; intuition discriminate). assert (LO : slower (lit "dc") = lit "dc") by reflexivity.
    pose proof (type_of "dc" line words an A ND LO PL_) as TY. rewrite TY in EX, DG.
    destruct (single_line line "dc" words an A PL_ ND LO) as (tbl & an1 & IT & P & _ & SAME & _). specialize (SAME ltac:(discriminate) ltac:(discriminate)). subst an1.
    assert (TB : tbl = Directive.dc_table) by (cbn in IT; repeat (destruct IT as [IT|IT]; [try discriminate IT; congruence|]); destruct IT). rewrite TB in IT, P.
    destruct (parameter_value _ _ _ _ _ "source" _ source _ IT P PS ltac:(unfold no_equals; cbn; intuition discriminate) ltac:(left; reflexivity) eq_refl eq_refl) as (x1 & X1 & D1). assert (X1' : Ok (VStr source) = Ok x1) by exact X1. injection X1' as <-.
    destruct (quantity_value _ _ _ _ _ "start" _ a _ IT P QA ltac:(unfold no_equals; cbn; intuition discriminate) ltac:(right; left; reflexivity) eq_refl eq_refl eq_refl) as (d2 & D2 & E2).
    destruct (quantity_value _ _ _ _ _ "stop" _ b _ IT P QB ltac:(unfold no_equals; cbn; intuition discriminate) ltac:(right; right; left; reflexivity) eq_refl eq_refl eq_refl) as (d3 & D3 & E3).
    destruct (quantity_value _ _ _ _ _ "step" _ s _ IT P QS ltac:(unfold no_equals; cbn; intuition discriminate) ltac:(right; right; right; left; reflexivity) eq_refl eq_refl eq_refl) as (d4 & D4 & E4).
    assert (D5 : exists v, dget_ an (lit "sweep_type") = Some (VStr v) /\ stype3 (ss v) = "LIN"%string).
    { destruct TYPE as [AT|(v & PT & SV)].
      - exists (lit "LIN"). split; [|reflexivity]. exact (absent_value _ _ _ _ _ "type" None _ IT P AT ltac:(right; right; right; right; left; reflexivity) eq_refl eq_refl).
      - exists v. split; [|exact SV]. destruct (parameter_value _ _ _ _ _ "type" _ v _ IT P PT ltac:(unfold no_equals; cbn; intuition discriminate) ltac:(right; right; right; right; left; reflexivity) eq_refl eq_refl) as (x5 & X5 & D5). match type of X5 with convert ?w _ = _ => assert (X5' : Ok (VStr w) = Ok x5) by exact X5 end. injection X5' as <-. exact D5. }
    destruct D5 as (v & D5 & SV). cbn [s_dest sp] in D1, D2, D3, D4.
    unfold exec, num, txt in EX. change (streqb (lit "dc") (lit "op")) with false in EX. change (streqb (lit "dc") (lit "dc")) with true in EX. cbv iota in EX.
    rewrite D1, D2, D3, D4, D5 in EX. cbn [bindr] in EX. rewrite SV in EX. cbn [String.eqb Ascii.eqb Bool.eqb] in EX.
    apply bindr_Ok in EX. destruct EX as (r' & OR & E). injection E as <-. rewrite <- E2, <- E3, <- E4 in OR.
    destruct (dc_run _ _ _ _ _ _ _ _ _ _ _ _ _ _ _ _ _ _ _) as [q es'] eqn:DR in OR. cbn [fst] in OR. subst q. exists r', es'. split; [exact DR|].
    apply DG. rewrite Forall_forall in LAST |- *. intros l L. exact (not_of "dc" l (LAST l L)).
  Qed.

  Theorem C212_ac : forall fs user depth files filename parts t es rs dirs before line after words n a b sweep,
    main_ fs user depth files filename = Ok (parts, t, es, rs) -> directives fs files filename dirs -> dirs = before ++ line :: after ->
    asks "ac" line words -> Forall (fun l => ~ of_type "ac" l) after ->
    quantity "nsteps" (Some 1)%nat words n -> quantity "start" (Some 2)%nat words a -> quantity "stop" (Some 3)%nat words b ->
    parameter "type" (Some 0)%nat words sweep \/ (absent "type" (Some 0)%nat words /\ sweep = lit "LOG") -> nonlinear es = false ->
    load_all fs user depth files filename = Ok (parts, t, es) /\
    exists r, ac_run csolve o damp_first acit fuel cmin gmin parts t es a b n (Some (ss sweep)) None = Ok r /\ dget_ rs (lit "ac") = Some (RAc r).
  Proof.
    intros fs user depth files filename parts t es rs dirs before line after words n a b sweep M DI BLA A LAST QN QA QB TYPE NL.
    assert (IC : is_ic line = false) by (apply (asks_ic "ac" line words A); intros x Q; discriminate Q).
    destruct (main_line _ _ _ _ _ _ _ _ _ _ _ M DI BLA IC) as (LD & ics & xs0 & pre & an & post & xs & x0 & r & _ & _ & _ & PL_ & _ & ST & BE & EX & DG & OG). split; [exact LD|].
    assert (ND : ~ In c_dot (lit "ac")) by (cbn; intuition discriminate). assert (LO : slower (lit "ac") = lit "ac") by reflexivity.
    pose proof (type_of "ac" line words an A ND LO PL_) as TY. rewrite TY in EX, DG.
    destruct (single_line line "ac" words an A PL_ ND LO) as (tbl & an1 & IT & P & _ & SAME & _). specialize (SAME ltac:(discriminate) ltac:(discriminate)). subst an1.
    assert (TB : tbl = Directive.ac_table) by (cbn in IT; repeat (destruct IT as [IT|IT]; [try discriminate IT; congruence|]); destruct IT). rewrite TB in IT, P.
    destruct (quantity_value _ _ _ _ _ "nsteps" _ n _ IT P QN ltac:(unfold no_equals; cbn; intuition discriminate) ltac:(right; left; reflexivity) eq_refl eq_refl eq_refl) as (d2 & D2 & E2).
    destruct (quantity_value _ _ _ _ _ "start" _ a _ IT P QA ltac:(unfold no_equals; cbn; intuition discriminate) ltac:(right; right; left; reflexivity) eq_refl eq_refl eq_refl) as (d3 & D3 & E3).
    destruct (quantity_value _ _ _ _ _ "stop" _ b _ IT P QB ltac:(unfold no_equals; cbn; intuition discriminate) ltac:(right; right; right; left; reflexivity) eq_refl eq_refl eq_refl) as (d4 & D4 & E4).
    assert (D5 : dget_ an (lit "sweep_type") = Some (VStr sweep)).
    { destruct TYPE as [PT|(AT & ->)].
      - destruct (parameter_value _ _ _ _ _ "type" _ sweep _ IT P PT ltac:(unfold no_equals; cbn; intuition discriminate) ltac:(left; reflexivity) eq_refl eq_refl) as (x5 & X5 & D5). match type of X5 with convert ?w _ = _ => assert (X5' : Ok (VStr w) = Ok x5) by exact X5 end. injection X5' as <-. exact D5.
      - exact (absent_value _ _ _ _ _ "type" _ _ IT P AT ltac:(left; reflexivity) eq_refl eq_refl). }
    cbn [s_dest sp] in D2, D3, D4. unfold exec, num, txt in EX. change (streqb (lit "ac") (lit "op")) with false in EX. change (streqb (lit "ac") (lit "dc")) with false in EX.
    change (streqb (lit "ac") (lit "ac")) with true in EX. cbv iota in EX. rewrite D2, D3, D4, D5 in EX. cbn [bindr] in EX. rewrite NL in EX.
    apply bindr_Ok in EX. destruct EX as (r' & OR & E). injection E as <-. rewrite <- E2, <- E3, <- E4 in OR. exists r'. split; [exact OR|].
    apply DG. rewrite Forall_forall in LAST |- *. intros l L. exact (not_of "ac" l (LAST l L)).
  Qed.

  (** The initial conditions that a transient analysis uses (none: 0). *)
  Definition uses_ic (words : list str) (k : Z) : Prop :=
    (absent "uic" (Some 2)%nat words /\ k = 0%Z) \/ exists v d, parameter "uic" (Some 2)%nat words v /\ convert_units v = Ok d /\ dtrunc d = k.

  Lemma tran_from : forall fs user depth files filename parts t es rs dirs before line after words a s b m k,
    main_ fs user depth files filename = Ok (parts, t, es, rs) -> directives fs files filename dirs -> dirs = before ++ line :: after ->
    asks "tran" line words -> Forall (fun l => ~ of_type "tran" l) after ->
    quantity "tstep" (Some 0)%nat words s -> quantity "tstop" (Some 1)%nat words b -> quantity "tstart" None words a \/ (absent "tstart" None words /\ a = 0) ->
    (exists v, parameter "method" None words v /\ m = Some (ss v)) \/ (absent "method" None words /\ m = None) -> uses_ic words k ->
    load_all fs user depth files filename = Ok (parts, t, es) /\
    exists x r, tran_run solve JT check locked o tdo trit fuel topt cmin gmin at_time inv modules has_module (tran_method settings m) (step_control settings true) t es a s b x rounds = Ok r /\
      dget_ rs (lit "tran") = Some (RTran r) /\ (k = 0 \/ k = 1 \/ k = 2 \/ k = 3)%Z /\
      (* from zero, or from the last operating point before *)
      (k = 0%Z -> x = None) /\
      (k = 1%Z -> forall before1 opline before2 owords, before = before1 ++ opline :: before2 -> asks "op" opline owords -> Forall (fun l => ~ of_type "op" l) before2 ->
        exists y q, op_run solve JT check locked o tdo maxit fuel gmin (fun id => at_time id 0) t es y = Ok q /\ x = option_map fst q /\
          (Forall (fun l => ~ of_type "op" l) after -> dget_ rs (lit "op") = Some (ROp q))) /\
      (* from the last operating point before, with the initial conditions of the elements put in it *)
      (k = 2%Z -> forall before1 opline before2 owords, before = before1 ++ opline :: before2 -> asks "op" opline owords -> Forall (fun l => ~ of_type "op" l) before2 ->
        exists y q ri, op_run solve JT check locked o tdo maxit fuel gmin (fun id => at_time id 0) t es y = Ok q /\ icmod (parts, t, es) (ROp q) = Ok ri /\ start_of (Some ri) = Ok x /\
          (Forall (fun l => ~ of_type "op" l) after -> dget_ rs (lit "op") = Some (ROp q))) /\
      (k = 3%Z -> forall name, parameter "ic_label" None words name -> name <> lit "op" -> name <> lit "op+ic" ->
        exists ics xs0 v, parse_ics dirs = Ok ics /\ ic_vectors t es ics = Ok xs0 /\ dget_ (fold_left (fun acc kv => dset streqb acc (fst kv) (snd kv)) xs0 []) name = Some v /\ start_of (Some v) = Ok x).
  Proof.
    intros fs user depth files filename parts t es rs dirs before line after words a s b m k M DI BLA A LAST QS QB QA QM UIC.
    assert (IC : is_ic line = false) by (apply (asks_ic "tran" line words A); intros x Q; discriminate Q).
    destruct (main_line _ _ _ _ _ _ _ _ _ _ _ M DI BLA IC) as (LD & ics & xs0 & pre & an & post & xs & x0 & r & PI_ & IV & PPRE & PL_ & _ & ST & BE & EX & DG & OG). split; [exact LD|].
    assert (ND : ~ In c_dot (lit "tran")) by (cbn; intuition discriminate). assert (LO : slower (lit "tran") = lit "tran") by reflexivity.
    pose proof (type_of "tran" line words an A ND LO PL_) as TY. rewrite TY in EX, DG, OG.
    destruct (single_line line "tran" words an A PL_ ND LO) as (tbl & an1 & IT & P & SAME & _ & TU). specialize (TU eq_refl).
    assert (TB : tbl = Directive.tran_table) by (cbn in IT; repeat (destruct IT as [IT|IT]; [try discriminate IT; congruence|]); destruct IT). rewrite TB in IT, P.
    destruct (quantity_value _ _ _ _ _ "tstep" _ s _ IT P QS ltac:(unfold no_equals; cbn; intuition discriminate) ltac:(left; reflexivity) eq_refl eq_refl eq_refl) as (d2 & D2 & E2).
    destruct (quantity_value _ _ _ _ _ "tstop" _ b _ IT P QB ltac:(unfold no_equals; cbn; intuition discriminate) ltac:(right; left; reflexivity) eq_refl eq_refl eq_refl) as (d3 & D3 & E3).
    assert (D4 : exists d, dget_ an1 (lit "tstart") = Some (VNum d) /\ a = dR d).
    { destruct QA as [QA|(QA & ->)].
      - exact (quantity_value _ _ _ _ _ "tstart" _ a _ IT P QA ltac:(unfold no_equals; cbn; intuition discriminate) ltac:(right; right; left; reflexivity) eq_refl eq_refl eq_refl).
      - exists (0, 0)%Z. split; [|unfold dR; cbn; lra]. exact (absent_value _ _ _ _ _ "tstart" _ _ IT P QA ltac:(right; right; left; reflexivity) eq_refl eq_refl). }
    destruct D4 as (d4 & D4 & E4).
    assert (D5 : match dget_ an1 (lit "method") with Some (VStr m) => Ok (Some (ss m)) | Some VNone => Ok None | _ => Err TypeError end = Ok m).
    { destruct QM as [(v & PM & ->)|(AM & ->)].
      - destruct (parameter_value _ _ _ _ _ "method" _ v _ IT P PM ltac:(unfold no_equals; cbn; intuition discriminate) ltac:(do 5 right; left; reflexivity) eq_refl eq_refl) as (x5 & X5 & D5). match type of X5 with convert ?w _ = _ => assert (X5' : Ok (VStr w) = Ok x5) by exact X5 end. injection X5' as <-.
        cbn [s_dest sp] in D5. rewrite D5. reflexivity.
      - pose proof (absent_value _ _ _ _ _ "method" _ _ IT P AM ltac:(do 5 right; left; reflexivity) eq_refl eq_refl) as D5. cbn [s_dest sp] in D5. rewrite D5. reflexivity. }
    assert (D6 : exists d, dget_ an1 (lit "uic") = Some (VNum d) /\ dtrunc d = k).
    { destruct UIC as [(AU & ->)|(v & d & PU & CU & TR)].
      - exists (0, 0)%Z. split; [|reflexivity]. exact (absent_value _ _ _ _ _ "uic" _ _ IT P AU ltac:(right; right; right; left; reflexivity) eq_refl eq_refl).
      - destruct (quantity_value _ _ _ _ _ "uic" _ (dR d) _ IT P (ex_intro _ v (ex_intro _ d (conj PU (conj CU eq_refl)))) ltac:(unfold no_equals; cbn; intuition discriminate) ltac:(right; right; right; left; reflexivity) eq_refl eq_refl eq_refl) as (d6 & _ & _).
        destruct (parameter_value _ _ _ _ _ "uic" _ v _ IT P PU ltac:(unfold no_equals; cbn; intuition discriminate) ltac:(right; right; right; left; reflexivity) eq_refl eq_refl) as (x6 & X6 & D6).
        cbn [s_type sp convert] in X6. rewrite CU in X6. injection X6 as <-. exists d. split; [exact D6|exact TR]. }
    destruct D6 as (d6 & D6 & K). cbn [s_dest sp] in D2, D3.
    unfold exec, num, txt in EX. change (streqb (lit "tran") (lit "op")) with false in EX. change (streqb (lit "tran") (lit "dc")) with false in EX.
    change (streqb (lit "tran") (lit "ac")) with false in EX. change (streqb (lit "tran") (lit "tran")) with true in EX. cbv iota in EX.
    rewrite !SAME in EX by discriminate. rewrite D2, D3, D4, D5 in EX. cbn [bindr] in EX.
    apply bindr_Ok in EX. destruct EX as (x & SX & EX). apply bindr_Ok in EX. destruct EX as (r' & OR & E). injection E as <-. rewrite <- E2, <- E3, <- E4 in OR. exists x, r'.
    split; [exact OR|]. split; [apply DG; rewrite Forall_forall in LAST |- *; intros l L; exact (not_of "tran" l (LAST l L))|].
    unfold tran_uic in TU. rewrite D6 in TU. cbv zeta in TU. rewrite K in TU.
    split; [destruct (Z.eqb_spec k 0); [auto|]; destruct (Z.eqb_spec k 1); [auto|]; destruct (Z.eqb_spec k 2); [auto|]; destruct (Z.eqb_spec k 3); [auto|discriminate TU]|].
    assert (OPK : forall before1 opline before2 owords, before = before1 ++ opline :: before2 -> asks "op" opline owords -> Forall (fun l => ~ of_type "op" l) before2 ->
      exists y q ri, op_run solve JT check locked o tdo maxit fuel gmin (fun id => at_time id 0) t es y = Ok q /\ icmod (parts, t, es) (ROp q) = Ok ri /\
        dget_ xs (lit "op") = Some (ROp q) /\ dget_ xs (lit "op+ic") = Some ri /\ (Forall (fun l => ~ of_type "op" l) after -> dget_ rs (lit "op") = Some (ROp q))).
    { intros before1 opline before2 owords BE2 AO LO2. destruct ST as (_ & _ & ST).
      assert (ICO : is_ic opline = false) by (apply (asks_ic "op" opline owords AO); intros y Q; discriminate Q).
      unfold parse_analysis in PPRE. rewrite BE2, filter_app in PPRE. cbn [filter] in PPRE. rewrite ICO in PPRE. cbn [negb] in PPRE.
      destruct (mapr_app _ _ _ _ _ _ PPRE) as (p1 & r2 & _ & P2 & ->). cbn [mapr] in P2. apply bindr_Ok in P2. destruct P2 as (ano & P2 & P3). apply bindr_Ok in P3. destruct P3 as (p2 & P3 & E).
      injection E as <-. rewrite map_app in ST. cbn [map] in ST.
      destruct (ST _ _ _ eq_refl) as (y & q & ri & EO & IC2 & DO & DO2).
      + apply (type_of "op" opline owords ano AO); [cbn; intuition discriminate|reflexivity|exact P2].
      + apply Forall_map. rewrite Forall_forall in LO2 |- *. intros bb B T. destruct (mapr_in _ _ _ _ _ _ P3 B) as (lb & LB & PB). apply filter_In in LB. destruct LB as [LB _].
        destruct (single_type lb bb PB) as (w & ws & SP & TYb). apply (LO2 lb LB). exists w, ws. split; [exact SP|]. rewrite <- TYb. exact T.
      + unfold RunQueue.op, exec in EO. change (streqb (lit "op") (lit "op")) with true in EO. cbv iota in EO.
        apply bindr_Ok in EO. destruct EO as (y' & _ & EO). apply bindr_Ok in EO. destruct EO as (g & _ & EO). apply bindr_Ok in EO. destruct EO as (q' & RO & E). injection E as <-.
        eexists. exists q', ri. split; [exact RO|]. split; [exact IC2|]. split; [exact DO|]. split; [exact DO2|].
        intros FA. rewrite OG; [exact DO| |discriminate|exact FA]. rewrite map_app. apply Exists_app. right. cbn [map]. constructor. apply (type_of "op" opline owords ano AO); [cbn; intuition discriminate|reflexivity|exact P2]. }
    split; [|split; [|split]].
    - intros ->. change ((0 =? 0)%Z) with true in TU. cbv iota in TU. injection TU as <-. unfold begins_at, as_an in BE. cbn [a_x0] in BE. rewrite dget_dset_eq in BE. subst x0. injection SX as <-. reflexivity.
    - intros -> before1 opline before2 owords BE2 AO LO2. change ((1 =? 0)%Z) with false in TU. change ((1 =? 1)%Z) with true in TU. cbv iota in TU. injection TU as <-.
      unfold begins_at, as_an in BE. cbn [a_x0] in BE. rewrite dget_dset_eq in BE. destruct BE as (v & DV & ->).
      destruct (OPK before1 opline before2 owords BE2 AO LO2) as (y & q & ri & RO & _ & DO & _ & DR). exists y, q. split; [exact RO|]. split; [|exact DR].
      assert (VQ : Some v = Some (ROp q)) by exact (eq_trans (eq_sym DV) DO). injection VQ as ->. destruct q as [[xv fl]|]; cbn [start_of] in SX; injection SX as <-; reflexivity.
    - intros -> before1 opline before2 owords BE2 AO LO2. change ((2 =? 0)%Z) with false in TU. change ((2 =? 1)%Z) with false in TU. change ((2 =? 2)%Z) with true in TU. cbv iota in TU. injection TU as <-.
      unfold begins_at, as_an in BE. cbn [a_x0] in BE. rewrite dget_dset_eq in BE. destruct BE as (v & DV & ->).
      destruct (OPK before1 opline before2 owords BE2 AO LO2) as (y & q & ri & RO & IM & _ & DO & DR). exists y, q, ri. split; [exact RO|]. split; [exact IM|]. split; [|exact DR].
      assert (VQ : Some v = Some ri) by exact (eq_trans (eq_sym DV) DO). injection VQ as ->. exact SX.
    - intros -> name PN N1 N2. change ((3 =? 0)%Z) with false in TU. change ((3 =? 1)%Z) with false in TU. change ((3 =? 2)%Z) with false in TU. change ((3 =? 3)%Z) with true in TU. cbv iota in TU. injection TU as <-.
      destruct (parameter_value _ _ _ _ _ "ic_label" _ name _ IT P PN ltac:(unfold no_equals; cbn; intuition discriminate) ltac:(do 4 right; left; reflexivity) eq_refl eq_refl) as (x7 & X7 & D7).
      match type of X7 with convert ?w _ = _ => assert (X7' : Ok (VStr w) = Ok x7) by exact X7 end. injection X7' as <-. cbn [s_dest sp] in D7.
      unfold begins_at, as_an in BE. cbn [a_x0] in BE. rewrite dget_ddel_ne in BE by discriminate. rewrite D7 in BE. destruct BE as (v & DV & ->).
      exists ics, xs0, v. split; [exact PI_|]. split; [exact IV|]. split; [|exact SX]. destruct ST as (ST & _). rewrite <- (ST name N1 N2). exact DV.
  Qed.
  Theorem C212_tran : forall fs user depth files filename parts t es rs dirs before line after words a s b m k,
    main_ fs user depth files filename = Ok (parts, t, es, rs) -> directives fs files filename dirs -> dirs = before ++ line :: after ->
    asks "tran" line words -> Forall (fun l => ~ of_type "tran" l) after ->
    quantity "tstep" (Some 0)%nat words s -> quantity "tstop" (Some 1)%nat words b -> quantity "tstart" None words a \/ (absent "tstart" None words /\ a = 0) ->
    (exists v, parameter "method" None words v /\ m = Some (ss v)) \/ (absent "method" None words /\ m = None) -> uses_ic words k ->
    load_all fs user depth files filename = Ok (parts, t, es) /\
    exists x r, tran_run solve JT check locked o tdo trit fuel topt cmin gmin at_time inv modules has_module (tran_method settings m) (step_control settings true) t es a s b x rounds = Ok r /\
      dget_ rs (lit "tran") = Some (RTran r) /\ (k = 0 \/ k = 1 \/ k = 2 \/ k = 3)%Z /\
      (* from zero, or from the last operating point before *)
      (k = 0%Z -> x = None) /\
      (k = 1%Z -> forall before1 opline before2 owords, before = before1 ++ opline :: before2 -> asks "op" opline owords -> Forall (fun l => ~ of_type "op" l) before2 ->
        exists y q, op_run solve JT check locked o tdo maxit fuel gmin (fun id => at_time id 0) t es y = Ok q /\ x = option_map fst q /\
          (Forall (fun l => ~ of_type "op" l) after -> dget_ rs (lit "op") = Some (ROp q))) /\
      (* from the last operating point before, with the initial conditions of the elements put in it *)
      (k = 2%Z -> forall before1 opline before2 owords, before = before1 ++ opline :: before2 -> asks "op" opline owords -> Forall (fun l => ~ of_type "op" l) before2 ->
        exists y q ri, op_run solve JT check locked o tdo maxit fuel gmin (fun id => at_time id 0) t es y = Ok q /\ icmod (parts, t, es) (ROp q) = Ok ri /\ start_of (Some ri) = Ok x /\
          (Forall (fun l => ~ of_type "op" l) after -> dget_ rs (lit "op") = Some (ROp q))).
  Proof.
    intros. destruct (tran_from fs user depth files filename parts t es rs dirs before line after words a s b m k) as (LD & x & r & RUN & DG & K & K0 & K1 & K2 & _); try assumption.
    split; [exact LD|]. exists x, r. split; [exact RUN|]. split; [exact DG|]. split; [exact K|]. split; [exact K0|]. split; [exact K1|exact K2].
  Qed.

  (** ** C213: the results obey the laws of the netlist *)
  (* the linear solver solves, and refuses singular matrices only *)
  Definition solver_ok (n : nat) : Prop :=
    (forall A b y, solve n A b = Some y -> forall i, (i < n)%nat -> row n A i y = b i) /\
    (forall A b, solve n A b = None -> exists z, (forall i, (i < n)%nat -> row n A i z = 0) /\ exists i, (i < n)%nat /\ z i <> 0).

  Theorem C213_op : forall fs user depth files filename parts t es rs dirs before line after words,
    main_ fs user depth files filename = Ok (parts, t, es, rs) -> directives fs files filename dirs -> dirs = before ++ line :: after ->
    asks "op" line words -> Forall (fun l => ~ of_type "op" l) after ->
    (* nothing is said of user-defined elements, except that names are words in lower case *)
    (forall line l, user line = Ok l -> Forall word_names l) ->
    Forall (sound parts) parts -> let src := dc_source (fun id => at_time id 0) in well_posed src parts ->
    solver_ok (op_size t es) -> d_first tdo = false -> (0 < maxit)%nat -> (0 < fuel)%nat -> o_std o = true ->
    exists r, dget_ rs (lit "op") = Some (ROp r) /\ forall x flag, r = Some (x, flag) -> flag = true /\
      forall V I, laws src V I parts ->
        (forall n name, In n (node_list parts) -> n <> lit "0" -> slower name = slower (lit "V" ++ n) -> op_report t es x name = Ok (V n)) /\
        (forall id name, In id (current_ids parts) -> slower name = slower (lit "I(" ++ id ++ lit ")") -> op_report t es x name = Ok (I id)).
  Proof.
    intros fs user depth files filename parts t es rs dirs before line after words M DI BLA A LAST US SO src WP (S1 & S2) DF MX FU OS.
    destruct (C212_op _ _ _ _ _ _ _ _ _ _ _ _ _ _ M DI BLA A LAST) as (LD & y & r & RUN & DG & _). destruct (C209_load _ _ _ _ _ _ US LD) as (other & OT & LD').
    exists r. split; [exact DG|]. intros x flag ->. destruct fuel as [|fuel']; [lia|].
    exact (C192_operating_point fs other files filename parts t es LD' (fun line l H => Forall_impl _ (fun e He => proj1 He) (OT line l H)) (fun id => at_time id 0) SO WP
      solve JT check locked o tdo maxit fuel' gmin y x flag S1 S2 DF MX OS RUN).
  Qed.

  (** A transient analysis with uic=1 starts from the operating point, and then obeys the laws. *)
  Theorem C213_tran : forall fs user depth files filename parts t es rs dirs before1 opline before2 line after owords words a s b m,
    main_ fs user depth files filename = Ok (parts, t, es, rs) -> directives fs files filename dirs -> dirs = before1 ++ opline :: before2 ++ line :: after ->
    asks "op" opline owords -> Forall (fun l => ~ of_type "op" l) before2 -> asks "tran" line words -> Forall (fun l => ~ of_type "tran" l) after -> Forall (fun l => ~ of_type "op" l) after ->
    quantity "tstep" (Some 0)%nat words s -> quantity "tstop" (Some 1)%nat words b -> quantity "tstart" None words a \/ (absent "tstart" None words /\ a = 0) ->
    (exists v, parameter "method" None words v /\ m = Some (ss v)) \/ (absent "method" None words /\ m = None) -> uses_ic words 1 -> 0 < s ->
    (forall line l, user line = Ok l -> Forall word_names l) ->
    Forall (ac_sound parts) parts -> (forall k, 0 < k -> tr_regular k gmin (Rmax 0 cmin) parts) ->
    solver_ok (op_size t es) -> d_first tdo = false -> (0 < maxit)%nat -> (0 < trit)%nat -> (0 < fuel)%nat -> o_std o = true ->
    exists q r, dget_ rs (lit "op") = Some (ROp q) /\ dget_ rs (lit "tran") = Some (RTran r) /\ forall x flag rows, q = Some (x, flag) -> r = Some rows ->
    let report := tran_report t es rows in
    let src time := driven (fun id => at_time id time) written_dc in
    exists d start points, choose_df has_module (tran_method settings m) = Ok d /\
      marches src gmin (Rmax 0 cmin) parts d (rev (start :: points)) /\ p_t start = a /\ points <> [] /\ b <= last_from a (map p_t points) /\
      (* the starting point is what is reported for the operating point: the solution of the DC laws *)
      (forall n name, In n (node_list parts) -> n <> lit "0" -> slower name = slower (lit "V" ++ n) -> op_report t es x name = Ok (p_V start n)) /\
      (forall id name, In id (current_ids parts) -> slower name = slower (lit "I(" ++ id ++ lit ")") -> op_report t es x name = Ok (p_I start id)) /\
      (let dc := dc_source (fun id => at_time id 0) in Forall (sound parts) parts -> well_posed dc parts -> forall V I, laws dc V I parts ->
        (forall n, In n (node_list parts) -> n <> lit "0" -> p_V start n = V n) /\ (forall id, In id (current_ids parts) -> p_I start id = I id)) /\
      (forall name, slower name = lit "t" -> report name = Ok (map p_t points)) /\
      (forall n name, In n (node_list parts) -> n <> lit "0" -> slower name = slower (lit "V" ++ n) -> report name = Ok (map (fun p => p_V p n) points)) /\
      (forall id name, In id (current_ids parts) -> slower name = slower (lit "I(" ++ id ++ lit ")") -> report name = Ok (map (fun p => p_I p id) points)).
  Proof.
    intros fs user depth files filename parts t es rs dirs before1 opline before2 line after owords words a s b m M DI BLA AO LO A LAST OLAST QS QB QA QM UIC SP US SO REG (S1 & S2) DF MX TX FU OS.
    destruct (C212_tran fs user depth files filename parts t es rs dirs (before1 ++ opline :: before2) line after words a s b m 1 M DI) as (LD & x & r & RUN & DG & _ & _ & START & _); try assumption.
    { rewrite BLA, <- app_assoc. reflexivity. }
    destruct (START eq_refl before1 opline before2 owords eq_refl AO LO) as (y & q & OR & -> & OG). destruct (C209_load _ _ _ _ _ _ US LD) as (other & OT & LD').
    exists q, r. split; [exact (OG OLAST)|]. split; [exact DG|]. intros x flag rows -> ->. destruct fuel as [|fuel'] eqn:EF; [lia|].
    destruct (C196_tran fs other files filename parts t es LD' OT SO solve JT check locked o tdo trit fuel' topt cmin gmin at_time inv modules has_module (tran_method settings m) (step_control settings true)
      a s b (Some x) rounds rows S1 S2 DF TX OS SP REG RUN) as (d & start & points & CD & MA & T0 & NE & LA & SV & SI & R1 & R2 & R3).
    exists d, start, points. split; [exact CD|]. split; [exact MA|]. split; [exact T0|]. split; [exact NE|]. split; [exact LA|].
    split; [exact SV|]. split; [exact SI|]. split; [|split; [exact R1|split; [exact R2|exact R3]]]. intros dc SD WP V I LW.
    destruct (C192_operating_point fs other files filename parts t es LD' (fun line l H => Forall_impl _ (fun e He => proj1 He) (OT line l H)) (fun id => at_time id 0) SD WP
      solve JT check locked o tdo maxit fuel' gmin y x flag S1 S2 DF MX OS OR) as (_ & RP). destruct (RP V I LW) as [RV RI]. split.
    - intros n IN N0. specialize (SV n (lit "V" ++ n) IN N0 eq_refl). rewrite (RV n (lit "V" ++ n) IN N0 eq_refl : op_report t es (SimulateTran.tran_start (Some x)) (lit "V" ++ n) = _) in SV. congruence.
    - intros id IN. specialize (SI id _ IN eq_refl). rewrite (RI id _ IN eq_refl : op_report t es (SimulateTran.tran_start (Some x)) _ = _) in SI. congruence.
  Qed.

  Theorem C213_dc : forall fs user depth files filename parts t es rs dirs before line after words source a b s,
    main_ fs user depth files filename = Ok (parts, t, es, rs) -> directives fs files filename dirs -> dirs = before ++ line :: after ->
    asks "dc" line words -> Forall (fun l => ~ of_type "dc" l) after ->
    parameter "source" (Some 0)%nat words source -> quantity "start" (Some 1)%nat words a -> quantity "stop" (Some 2)%nat words b -> quantity "step" (Some 3)%nat words s ->
    absent "type" None words \/ (exists v, parameter "type" None words v /\ stype3 (ss v) = "LIN"%string) ->
    (forall line l, user line = Ok l -> Forall word_names l) ->
    Forall (sound parts) parts -> solver_ok (op_size t es) -> d_first tdo = false -> (0 < maxit)%nat -> (0 < fuel)%nat -> o_std o = true ->
    exists r, dget_ rs (lit "dc") = Some (RDc r) /\ forall rows, r = Some rows ->
    let report := dc_report t es source rows in
    let at0 id := at_time id 0 in
    exists e x vals, In e parts /\ names_source source e /\ lin_axis a b ((b - a) / s + 1) = Ok x /\ collect lin_next (S (S (Z.to_nat (up ((b - a) / s + 1))))) x = Some vals /\
      SweepFacts.sub (map fst rows) vals /\ (skip = false -> map fst rows = vals) /\
      ((forall n, In n (node_list parts) -> slower source <> slower (lit "V" ++ n)) -> (forall id, In id (current_ids parts) -> slower source <> slower (lit "I(" ++ id ++ lit ")")) ->
       (forall name, slower name = slower source -> report name = Ok (map fst rows)) /\
       ((forall v, In v vals -> well_posed (swept at0 (pid e) v) parts) ->
        (forall n name, In n (node_list parts) -> n <> lit "0" -> slower name = slower (lit "V" ++ n) ->
           exists l, report name = Ok l /\ Forall2 (fun v z => forall V I, laws (swept at0 (pid e) v) V I parts -> z = V n) (map fst rows) l) /\
        (forall id name, In id (current_ids parts) -> slower name = slower (lit "I(" ++ id ++ lit ")") ->
           exists l, report name = Ok l /\ Forall2 (fun v z => forall V I, laws (swept at0 (pid e) v) V I parts -> z = I id) (map fst rows) l))).
  Proof.
    intros fs user depth files filename parts t es rs dirs before line after words source a b s M DI BLA A LAST PS QA QB QS TYPE US SO (S1 & S2) DF MX FU OS.
    destruct (C212_dc fs user depth files filename parts t es rs dirs before line after words source a b s M DI BLA A LAST PS QA QB QS TYPE) as (LD & r & es' & RUN & DG).
    exists r. split; [exact DG|]. intros rows ->. destruct (C209_load _ _ _ _ _ _ US LD) as (other & OT & LD'). destruct fuel as [|fuel'] eqn:EF; [lia|].
    destruct (C194_dc fs other files filename parts t es LD' OT SO (fun id => at_time id 0) solve JT check locked o tdo maxit fuel' gmin guess skip a b s source None rows es' S1 S2 DF MX OS RUN) as (_ & H). exact H.
  Qed.

  Theorem C213_ac : forall fs user depth files filename parts t es rs dirs before line after words n a b sweep angle,
    main_ fs user depth files filename = Ok (parts, t, es, rs) -> directives fs files filename dirs -> dirs = before ++ line :: after ->
    asks "ac" line words -> Forall (fun l => ~ of_type "ac" l) after ->
    quantity "nsteps" (Some 1)%nat words n -> quantity "start" (Some 2)%nat words a -> quantity "stop" (Some 3)%nat words b ->
    parameter "type" (Some 0)%nat words sweep \/ (absent "type" (Some 0)%nat words /\ sweep = lit "LOG") -> nonlinear es = false ->
    (forall line l, user line = Ok l -> Forall word_names l) ->
    Forall (ac_sound parts) parts -> csolver_ok (op_size t es) csolve -> is_angle angle -> damp_first = false -> o_std o = true ->
    exists r, dget_ rs (lit "ac") = Some (RAc r) /\ forall rows, r = Some rows ->
    let c := Rmax 0 cmin in
    let report := ac_report angle false t es rows in
    exists ws, omegas fuel a b n (Some (ss sweep)) = Ok ws /\
      (forall name, slower name = lit "f" -> report name = Ok (map (fun w => (w / (2 * Rtrigo1.PI), 0)) ws)) /\
      ((forall w, In w ws -> ac_well_posed w gmin c parts) ->
       (forall n name, In n (node_list parts) -> n <> lit "0" -> slower name = slower (lit "V" ++ n) ->
          exists l, report name = Ok l /\ Forall2 (fun w z => forall Vr Vi Ir Ii, ac_laws w gmin c true parts Vr Vi Ir Ii -> z = (Vr n, Vi n)) ws l) /\
       (forall id name, In id (current_ids parts) -> slower name = slower (lit "I(" ++ id ++ lit ")") ->
          exists l, report name = Ok l /\ Forall2 (fun w z => forall Vr Vi Ir Ii, ac_laws w gmin c true parts Vr Vi Ir Ii -> z = (Ir id, Ii id)) ws l)).
  Proof.
    intros fs user depth files filename parts t es rs dirs before line after words n a b sweep angle M DI BLA A LAST QN QA QB TYPE NL US SO CS AN DF OS.
    destruct (C212_ac fs user depth files filename parts t es rs dirs before line after words n a b sweep M DI BLA A LAST QN QA QB TYPE NL) as (LD & r & RUN & DG).
    exists r. split; [exact DG|]. intros rows ->. destruct (C209_load _ _ _ _ _ _ US LD) as (other & OT & LD'). rewrite DF in RUN.
    exact (C193_ac fs other files filename parts t es LD' OT SO csolve o acit fuel cmin gmin angle a b n (Some (ss sweep)) None rows CS AN OS RUN).
  Qed.

  (** ** C214: passive netlists always get their results *)
  Lemma read_lines : forall fs files filename dirs, directives fs files filename dirs -> exists s, read_netlist fs files filename = Ok s /\ map fst (r_dirs s) = dirs.
  Proof.
    intros fs files filename dirs (title & fp & bs & ps & more & F & HO & VI & LF & ->). destruct (C113_groups fs filename title fp bs ps more files F HO VI LF) as (s & RD & _ & DR & _).
    exists s. split; assumption.
  Qed.
  Lemma op_line : forall line, asks "op" line [] -> is_ic line = false /\ parse_single_analysis line = Ok op_an.
  Proof. intros line A. split; [apply (asks_ic "op" line [] A); intros x Q; discriminate Q|]. unfold parse_single_analysis. rewrite A. vm_compute. reflexivity. Qed.
  Definition tran_an (d1 d2 : Units.dec) : list (str * Directive.val) :=
    [(lit "type", VStr (lit "tran")); (lit "tstep", VNum d1); (lit "tstop", VNum d2); (lit "tstart", Directive.zero); (lit "x0", VStr (lit "op")); (lit "method", VNone)].
  Lemma tran_line : forall line v1 v2 d1 d2, asks "tran" line [v1; v2; lit "uic=1"] -> no_equals v1 -> no_equals v2 -> starred v1 = false -> starred v2 = false ->
    convert_units v1 = Ok d1 -> convert_units v2 = Ok d2 -> is_ic line = false /\ parse_single_analysis line = Ok (tran_an d1 d2).
  Proof.
    intros line v1 v2 d1 d2 A N1 N2 S1 S2 C1 C2. split; [apply (asks_ic "tran" line _ A); intros x Q; discriminate Q|]. unfold parse_single_analysis. rewrite A. cbv zeta.
    change (directive_type (lit "." ++ lit "tran")) with (lit "tran"). change (dget streqb specs (lit "tran")) with (Some Directive.tran_table). unfold parse_params. cbn [ploop]. rewrite S1, S2, (no_eq_label v1 N1), (no_eq_label v2 N2).
    change (take_first (matches 0 None) Directive.tran_table) with (Some (sp "tstep" (Some 0)%nat TFloat true "tstep" VNone, tl Directive.tran_table)). cbn [sp s_type convert]. rewrite C1. cbn [bindr].
    change (take_first (matches 1 None) (tl Directive.tran_table)) with (Some (sp "tstop" (Some 1)%nat TFloat true "tstop" VNone, tl (tl Directive.tran_table))). cbn [sp s_type convert]. rewrite C2. cbn [bindr].
    vm_compute. reflexivity.
  Qed.

  Section Found.
    Variables (fs : str -> option (list str)) (user : str -> res (list pelem)) (depth_ files : nat) (filename : str) (parts : list pelem) (t : ntab) (es : list lelem).
    Hypothesis LD : load_all fs user depth_ files filename = Ok (parts, t, es).
    (* nothing is said of user-defined elements, except that names are words in lower case *)
    Hypothesis US : forall line l, user line = Ok l -> Forall word_names l.
    Hypothesis SO : Forall (sound parts) parts.
    Hypothesis PA : Forall passive parts.
    Hypothesis WP : well_posed (dc_source (fun id => at_time id 0)) parts.
    Hypothesis SV : solver_ok (op_size t es).
    Hypotheses (DF : d_first tdo = false) (MX : (0 < maxit)%nat) (FU : (0 < fuel)%nat) (OS : o_std o = true) (GM : 0 <= gmin).
    (* [icmodified_x0] of an operating point *)
    Hypothesis IC : forall x, exists r, icmod (parts, t, es) (ROp (Some (x, true))) = Ok r.

    Lemma op_exec : exists x, exec_ (parts, t, es) (lit "op") op_an None = Ok (ROp (Some (x, true))) /\
      forall V I, laws (dc_source (fun id => at_time id 0)) V I parts ->
        (forall n name, In n (node_list parts) -> n <> lit "0" -> slower name = slower (lit "V" ++ n) -> op_report t es x name = Ok (V n)) /\
        (forall id name, In id (current_ids parts) -> slower name = slower (lit "I(" ++ id ++ lit ")") -> op_report t es x name = Ok (I id)).
    Proof.
      destruct (C209_load _ _ _ _ _ _ US LD) as (other & OT & LD'). destruct SV as [S1 S2]. destruct fuel as [|fuel'] eqn:EF; [lia|].
      destruct (C195_found fs other files filename parts t es LD' (fun line l H => Forall_impl _ (fun e He => proj1 He) (OT line l H)) (fun id => at_time id 0) SO PA WP
        solve JT check locked o tdo maxit fuel' gmin (if op_guess settings true then guess es else vzero) S1 S2 DF MX OS GM) as (x & RUN & RP).
      exists x. split; [|exact RP]. unfold exec. change (streqb (lit "op") (lit "op")) with true. cbv iota. cbn [start_of bindr]. change (dget streqb op_an (lit "guess")) with (Some (VBool true)). cbn [bindr].
      unfold at_dc. rewrite RUN. reflexivity.
    Qed.

    Theorem C214_op : forall line, directives fs files filename [line] -> asks "op" line [] ->
      exists x, main_ fs user depth_ files filename = Ok (parts, t, es, [(lit "op", ROp (Some (x, true)))]) /\
      forall V I, laws (dc_source (fun id => at_time id 0)) V I parts ->
        (forall n name, In n (node_list parts) -> n <> lit "0" -> slower name = slower (lit "V" ++ n) -> op_report t es x name = Ok (V n)) /\
        (forall id name, In id (current_ids parts) -> slower name = slower (lit "I(" ++ id ++ lit ")") -> op_report t es x name = Ok (I id)).
    Proof.
      intros line DI A. destruct (read_lines _ _ _ _ DI) as (s & RD & DR). destruct (op_line line A) as [II PP]. destruct op_exec as (x & EX & RP). exists x. split; [|exact RP].
      unfold main_file. rewrite LD. cbn [bindr]. rewrite RD. cbn [bindr]. cbv zeta. rewrite DR. unfold parse_ics, parse_analysis. cbn [filter]. rewrite II. cbn [negb mapr bindr].
      unfold ic_vectors. cbn [mapr bindr concat]. rewrite PP. cbn [bindr]. destruct (IC x) as (ri & RI). rewrite (one_op _ _ _ _ (ROp (Some (x, true))) ri EX RI). reflexivity.
    Qed.

    Theorem C214_tran : forall opline line v1 v2 d1 d2 k, directives fs files filename [opline; line] -> asks "op" opline [] ->
      asks "tran" line [v1; v2; lit "uic=1"] -> no_equals v1 -> no_equals v2 -> starred v1 = false -> starred v2 = false -> convert_units v1 = Ok d1 -> convert_units v2 = Ok d2 ->
      Forall (ac_sound parts) parts -> Forall dissipative parts -> no_source_loop parts -> (0 < trit)%nat -> 0 < gmin \/ 0 < cmin ->
      (* trapezoidal rule without step control *)
      t_maxiter topt = 0%nat -> tran_method settings None = "TRAP"%string -> step_control settings true = false -> rounds = S k ->
      0 < dR d1 -> INR k * dR d1 < dR d2 <= INR (S k) * dR d1 ->
      exists x rows, main_ fs user depth_ files filename = Ok (parts, t, es, [(lit "op", ROp (Some (x, true))); (lit "tran", RTran (Some rows))]) /\
        map fst rows = map (fun j => INR (S j) * dR d1) (seq 0 (S k)).
    Proof.
      intros opline line v1 v2 d1 d2 k DI AO A N1 N2 S1 S2 C1 C2 ASO DIS NSL TX GC TM ME SC RO DP DK. destruct (read_lines _ _ _ _ DI) as (s & RD & DR).
      destruct (op_line opline AO) as [II PP]. destruct (tran_line line v1 v2 d1 d2 A N1 N2 S1 S2 C1 C2) as [II2 PP2]. destruct op_exec as (x & EX & _).
      destruct (C209_load _ _ _ _ _ _ US LD) as (other & OT & LD'). pose proof SV as [Q1 Q2]. assert (EF : exists fuel', fuel = S fuel') by (exists (pred fuel); lia). destruct EF as (fuel' & EF).
      destruct (C196_found fs other files filename parts t es LD' OT ASO DIS NSL solve JT check locked o tdo trit fuel' topt cmin gmin at_time inv modules has_module 0 (dR d1) (dR d2) (Some x) k
        Q1 Q2 DF TX OS TM DP GM GC ltac:(rewrite !Rplus_0_l; exact DK)) as (rows & RUN & TI & _).
      exists x, rows. split.
      - unfold main_file. rewrite LD. cbn [bindr]. rewrite RD. cbn [bindr]. cbv zeta. rewrite DR. unfold parse_ics, parse_analysis. cbn [filter]. rewrite II, II2. cbn [negb mapr bindr].
        unfold ic_vectors. cbn [mapr bindr concat]. rewrite PP. cbn [bindr]. rewrite PP2. cbn [bindr]. destruct (IC x) as (ri & RI).
        change (map as_an [op_an; tran_an d1 d2]) with [mkAn (list (str * Directive.val)) result (lit "op") (Some (XNone result)) op_an; mkAn (list (str * Directive.val)) result (lit "tran") (Some (XText result (lit "op"))) (tran_an d1 d2)].
        rewrite (op_tran _ _ _ _ _ (ROp (Some (x, true))) ri (RTran (Some rows)) EX RI); [reflexivity|]. unfold exec, num.
        change (streqb (lit "tran") (lit "op")) with false. change (streqb (lit "tran") (lit "dc")) with false. change (streqb (lit "tran") (lit "ac")) with false. change (streqb (lit "tran") (lit "tran")) with true. cbv iota.
        change (dget streqb (tran_an d1 d2) (lit "tstart")) with (Some Directive.zero). change (dget streqb (tran_an d1 d2) (lit "tstep")) with (Some (VNum d1)).
        change (dget streqb (tran_an d1 d2) (lit "tstop")) with (Some (VNum d2)). change (dget streqb (tran_an d1 d2) (lit "method")) with (Some VNone). unfold Directive.zero. cbn [bindr start_of].
        rewrite ME, SC, RO, EF. replace (dR (0, 0)%Z) with 0 by (unfold dR; cbn; lra). rewrite RUN. reflexivity.
      - rewrite TI. apply map_ext. intros j. apply Rplus_0_l.
    Qed.
  End Found.
End Program.
Print Assumptions C212_op.
Print Assumptions C212_dc.
Print Assumptions C212_ac.
Print Assumptions C212_tran.
Print Assumptions C213_op.
Print Assumptions C213_tran.
Print Assumptions C213_dc.
Print Assumptions C213_ac.
Print Assumptions C214_op.
Print Assumptions C214_tran.

(** The netlist of C211 with its line .OP: the program reports the operating point, -6 V.  And
    a transient line: what it says. *)
Lemma boxed_dirs : exists s, read_netlist (fun _ => Some boxed) 1 (lit "f") = Ok s /\ map fst (r_dirs s) = [lit ".op"].
Proof. eexists. split; vm_compute; reflexivity. Qed.
Lemma m6 : forall z, dR (z, -6)%Z = IZR z * / 1000000.
Proof. intros z. unfold dR. cbn [fst snd]. f_equal. change (powerRZ 10 (-6)) with (/ (10 ^ 6)). f_equal. cbn [pow]. lra. Qed.
Example C212_example : forall mx csolve JT check locked acit trit topt cmin at_time skip inv modules has_module rounds settings rest,
  exists rs x, main_file (fun _ => solve1) csolve JT check locked PropsDc.default_opts (mkTd false true (1/10)) false (S mx) acit trit 30 topt cmin (1/1000000000000) at_time
      (fun _ => vzero) skip inv modules has_module rounds settings rest (fun _ r => Ok r) (fun _ => Some boxed) (fun _ => Err NetlistParseError) 1 1 (lit "f")
    = Ok (boxed_parts, shunt_t, boxed_es, rs) /\
  dget streqb rs (lit "op") = Some (ROp (Some (x, true))) /\ op_report shunt_t boxed_es x (lit "va") = Ok (-6) /\
  let line := lit ".tran 1u 10u uic=1 method=trap" in exists words, asks "tran" line words /\ of_type "tran" line /\
    quantity "tstep" (Some 0)%nat words (1 / 1000000) /\ quantity "tstop" (Some 1)%nat words (1 / 100000) /\ absent "tstart" None words /\ uses_ic words 1 /\ parameter "method" None words (lit "trap").
Proof.
  intros mx csolve JT check locked acit trit topt cmin at_time skip inv modules has_module rounds settings rest.
  destruct (boxed_run mx JT check locked (at_dc at_time)) as (x & RUN & Y). exists [(lit "op", ROp (Some (x, true)))], x.
  split; [|split; [reflexivity|split; [rewrite boxed_report, Y; reflexivity|]]].
  - unfold main_file. rewrite boxed_load. cbn [bindr]. destruct boxed_dirs as (s & -> & DR). cbn [bindr]. cbv zeta. rewrite DR.
    change (parse_ics [lit ".op"]) with (@Ok (list (Directive.val * list (str * Directive.val))) []). cbn [bindr ic_vectors mapr concat].
    assert (PA : parse_analysis [lit ".op"] = Ok [[(lit "type", VStr (lit "op")); (lit "guess", VBool true); (lit "x0", VNone)]]) by (vm_compute; reflexivity). rewrite PA. cbn [bindr map].
    fold op_an. change [as_an op_an] with (map as_an [op_an]).
    rewrite (one_op _ (flatten [] PropsSubckt.top boxed_hier, shunt_t, boxed_es) _ _ (ROp (Some (x, true))) (ROp (Some (x, true)))); [reflexivity| |reflexivity].
    unfold exec. change (streqb (lit "op") (lit "op")) with true. cbv iota. cbn [start_of bindr].
    change (dget streqb op_an (lit "guess")) with (Some (VBool true)). cbn [bindr]. replace (if op_guess settings true then vzero else vzero) with vzero by (destruct (op_guess settings true); reflexivity).
    rewrite RUN. reflexivity.
  - exists (map lit ["1u"; "10u"; "uic=1"; "method=trap"]%string). split; [vm_compute; reflexivity|]. split; [exists (lit ".tran"), (map lit ["1u"; "10u"; "uic=1"; "method=trap"]%string); split; vm_compute; reflexivity|].
    assert (NE : forall v, In v (map lit ["1u"; "10u"; "1"; "trap"]%string) -> no_equals v) by (intros v H; cbn in H; repeat (destruct H as [<-|H]; [unfold no_equals; cbn; intuition discriminate|]); destruct H).
    split; [exists (lit "1u"), (1, -6)%Z; split; [split; [apply NE; cbn; auto|exists 0%nat; right; split; reflexivity]|split; [vm_compute; reflexivity|rewrite m6; lra]]|].
    split; [exists (lit "10u"), (10, -6)%Z; split; [split; [apply NE; cbn; auto|exists 1%nat; right; split; reflexivity]|split; [vm_compute; reflexivity|rewrite m6; lra]]|].
    split; [intros i w W; split; [intros v ->|discriminate]; cbn in W; do 4 (destruct i as [|i]; [cbn in W; discriminate W|]); destruct i; discriminate W|].
    split; [right; exists (lit "1"), (1, 0)%Z; split; [split; [apply NE; cbn; auto|exists 2%nat; left; reflexivity]|split; vm_compute; reflexivity]|].
    split; [apply NE; cbn; auto 6|]. exists 3%nat. left. reflexivity.
Qed.
Example C214_premises : directives (fun _ => Some boxed) 1 (lit "f") [lit ".op"] /\ asks "op" (lit ".op") [].
Proof.
  assert (L1 : forall l fp L, (if list_eq_dec ascii_dec (strip l) [] then false else true) = true -> PropsParse.starts_new fp -> forall x, x = PropsReader.joined l [] -> logical fp L -> logical (l :: fp) (x :: L)).
  { intros l fp L H SN x -> LG. apply (logical_line l [] fp L); auto. unfold PropsReader.blank. destruct (list_eq_dec ascii_dec (strip l) []); [discriminate|assumption]. }
  assert (IN : forall l, match kind_of l with KSub | KEnds | KEnd => false | _ => true end = true -> PropsReader.inner l).
  { intros l H. unfold PropsReader.inner. destruct (kind_of l); try discriminate H; repeat split; discriminate. }
  split; [|reflexivity].
  exists (lit "boxed"), (tl boxed), [BLine (lit "x1 name=load p=a"); BLine (lit "i1 a 0 type=idc idc=3"); BSub (lit ".subckt load p") [lit "r1 p 0 2"] (lit ".ends"); BLine (lit ".op")], [], [].
  split; [reflexivity|]. split; [|split; [constructor|split; [cbn; lia|reflexivity]]].
  exists []. split; [|split; [exact Logic.I|]].
  - repeat (apply L1; [reflexivity|vm_compute; discriminate || exact Logic.I|reflexivity|]). apply logical_eof.
  - split; [|constructor]. repeat (apply Forall_cons; [first [apply IN; reflexivity
      | split; [reflexivity|]; split; [repeat (apply Forall_cons; [apply IN; reflexivity|]); apply Forall_nil|reflexivity]]|]). apply Forall_nil.
Qed.
