(** From the text of a netlist to the results of a DC sweep (C194). *)
From Coq Require Import Ascii String Reals List Bool Arith ZArith Lia Lra.
From Verif Require Import Base BaseFacts Str Units Directive Lines Reader Netlist ModelLines Nodes NodesFacts Circuit CircuitFacts Rsum Mna MnaSpec DcSolve Newton
  NewtonFacts DynFacts Sweep SweepFacts Csv PropsCsv Results PropsReader PropsNetlist PropsResults PropsMna PropsDc PropsSweep Session Simulate PropsSimulate
  PropsSimulateAc SimulateDc.
Import ListNotations.
Open Scope R_scope.

(** The sources of the netlist, except that the one called [id] has the value [v]. *)
Definition swept (at0 : str -> R) (id : str) (v : R) (e : pelem) : R := if streqb (pid e) id then v else dc_source at0 e.

(** [e] is an independent source of the kind of the first letter of [source], and has
    that name. *)
Definition names_source (source : str) (e : pelem) : Prop :=
  slower source = pid e /\
  match e with
  | PV _ _ _ _ _ _ => exists r, slower source = "v"%char :: r
  | PI _ _ _ _ _ _ => exists r, slower source = "i"%char :: r
  | _ => False
  end.

(** * Lemmas *)
Lemma laws_ext : forall src src' V I parts, (forall e, src e = src' e) -> laws src V I parts -> laws src' V I parts.
Proof.
  intros src src' V I parts E (A & B & C).
  assert (T : forall e, through src V I e = through src' V I e) by (intros e; destruct e; cbn [through]; auto).
  split; [exact A|]. split.
  - intros n. rewrite <- (B n). clear B C. induction parts as [|e parts IH]; [reflexivity|]. cbn [leaving]. rewrite IH. f_equal. unfold leaving1. rewrite (T e). reflexivity.
  - eapply Forall_impl; [|exact C]. intros e H. destruct e; cbn [law] in *; try exact H. rewrite <- E. exact H.
Qed.
Lemma well_posed_ext : forall src src' parts, (forall e, src e = src' e) -> well_posed src parts -> well_posed src' parts.
Proof.
  intros src src' parts E (V & I & L & U). exists V, I. split; [eapply laws_ext; eassumption|]. intros V' I' L'. apply U. eapply laws_ext; [|exact L']. intros e. symmetry. apply E.
Qed.
Lemma placed_val : forall val val' t e l, val e = val' e -> placed val t e l -> placed val' t e l.
Proof. intros val val' t e l E P. destruct e; cbn [placed] in *; try exact P; rewrite <- E; exact P. Qed.

Definition with_value (id : str) (v : R) (e : pelem) : R := if streqb (pid e) id then v else written_dc e.
Lemma streqb_refl : forall s, streqb s s = true.
Proof. intros s. unfold streqb. destruct (list_eq_dec ascii_dec s s); congruence. Qed.
Lemma streqb_ne : forall s s', s <> s' -> streqb s s' = false.
Proof. intros s s' H. unfold streqb. destruct (list_eq_dec ascii_dec s s'); congruence. Qed.

Lemma set_dc_cons : forall e es k v, set_dc (e :: es) (S k) v = e :: set_dc es k v.
Proof. reflexivity. Qed.
Lemma set_dc_placed : forall t v parts es, Forall2 (placed written_dc t) parts es -> NoDup (map pid parts) ->
  forall k e l d, nth_error parts k = Some e -> nth_error es k = Some l -> dc_of l = Some d ->
  Forall2 (placed (with_value (pid e) v) t) parts (set_dc es k v).
Proof.
  intros t v parts es F. induction F as [|e0 l0 parts es P F IH]; intros ND k e l d E L D; [destruct k; discriminate|].
  cbn [map] in ND. inversion ND as [|? ? NI ND']; subst. destruct k as [|k]; cbn [nth_error] in E, L.
  - injection E as ->. injection L as ->. unfold set_dc. cbn [firstn nth_error app skipn].
    assert (T : Forall2 (placed (with_value (pid e) v) t) parts es).
    { assert (K : forall q, In q parts -> with_value (pid e) v q = written_dc q).
      { intros q Q. unfold with_value. rewrite streqb_ne; [reflexivity|]. intros EQ. apply NI. rewrite <- EQ. apply in_map. exact Q. }
      clear - F K. induction F as [|q l parts es P F IH]; constructor; [|apply IH; intros; apply K; right; assumption].
      eapply placed_val; [|exact P]. symmetry. apply K. left. reflexivity. }
    assert (VE : with_value (pid e) v e = v) by (unfold with_value; rewrite streqb_refl; reflexivity).
    destruct e; cbn [placed] in P.
    4: destruct P as (m & -> & _); discriminate D.
    all: try (destruct P as (i & j & -> & A); discriminate D).
    all: try (destruct P as (i & j & i2 & j2 & -> & A); discriminate D).
    all: try (destruct P as (i & j & ->); discriminate D).
    all: destruct P as (i & j & -> & A); cbn [app]; constructor; [|exact T]; cbn [placed]; rewrite VE; exists i, j; split; [reflexivity|exact A].
  - rewrite set_dc_cons. constructor; [|eapply IH; eassumption]. eapply placed_val; [|exact P]. unfold with_value. rewrite streqb_ne; [reflexivity|].
    intros EQ. apply NI. rewrite EQ. apply in_map. eapply nth_error_In. exact E.
Qed.
Lemma find_source_kind : forall es isv name k r, find_source es isv name k = Some r ->
  exists e, nth_error es (r - k) = Some e /\ (k <= r)%nat /\ lower (lid e) = lower name /\
    match e with EV _ _ _ _ _ => isv = true | EI _ _ _ _ _ => isv = false | _ => False end.
Proof.
  induction es as [|e es IH]; intros isv name k r H; cbn [find_source] in H; [discriminate|].
  match type of H with (if ?b then _ else _) = _ => destruct b eqn:E end.
  - injection H as <-. rewrite Nat.sub_diag. exists e. apply andb_prop in E. destruct E as (E1 & E2). apply String.eqb_eq in E1.
    split; [reflexivity|]. split; [lia|]. split; [exact E1|]. destruct e; try discriminate E2; destruct isv; try discriminate E2; reflexivity.
  - destruct (IH _ _ _ _ H) as (q & A & B & C). exists q. split; [|split; [lia|exact C]]. replace (r - k)%nat with (S (r - S k)) by lia. exact A.
Qed.
Lemma find_source_set : forall es isv name v j k, find_source (set_dc es j v) isv name k = find_source es isv name k.
Proof.
  induction es as [|e es IH]; intros isv name v j k; [destruct j; reflexivity|]. destruct j as [|j].
  - unfold set_dc. cbn [firstn nth_error skipn app]. destruct e; reflexivity.
  - rewrite set_dc_cons. cbn [find_source]. rewrite IH. reflexivity.
Qed.
Lemma nth_set_dc : forall es k v e d, nth_error es k = Some e -> dc_of e = Some d ->
  exists e', nth_error (set_dc es k v) k = Some e' /\ lid e' = lid e /\ dc_of e' = Some v.
Proof.
  induction es as [|e0 es IH]; intros k v e d E D; destruct k as [|k]; try discriminate E; cbn [nth_error] in E.
  - injection E as ->. unfold set_dc. cbn [firstn nth_error skipn app]. destruct e; try discriminate D; eexists; (split; [reflexivity|split; reflexivity]).
  - rewrite set_dc_cons. cbn [nth_error]. eapply IH; eassumption.
Qed.
Lemma n_vde_set_dc : forall es k v, n_vde (set_dc es k v) = n_vde es.
Proof.
  induction es as [|e es IH]; intros k v; [destruct k; reflexivity|]. destruct k as [|k].
  - unfold set_dc, n_vde, vdes. cbn [firstn nth_error skipn app]. destruct e; reflexivity.
  - rewrite set_dc_cons. specialize (IH k v). unfold n_vde, vdes in *. cbn [filter]. destruct (is_vde e); cbn [List.length]; rewrite ?IH; reflexivity.
Qed.
Lemma placed_nth : forall val t parts es, Forall2 (placed val t) parts es -> forall k l, nth_error es k = Some l ->
  exists e, nth_error parts k = Some e /\ placed val t e l.
Proof.
  intros val t parts es F. induction F as [|e0 l0 parts es P F IH]; intros k l E; [destruct k; discriminate|].
  destruct k as [|k]; cbn [nth_error] in E; [injection E as <-; exists e0; auto|]. exact (IH k l E).
Qed.

(** No point is left out unless skipping is allowed. *)
Lemma sweep_all : forall (X : Type) (op : list lelem -> option X -> res (option X)) vals k es x solved rows rows' es',
  solved <> Some false ->
  sweep_loop op false vals k es x solved rows = (Ok (Some true, rows'), es') -> map fst rows' = (map fst rows ++ vals)%list.
Proof.
  intros X op vals. induction vals as [|v vals IH]; intros k es x solved rows rows' es' NS H; cbn [sweep_loop] in H; cbv zeta in H.
  - injection H as _ <- _. symmetry. apply app_nil_r.
  - destruct (op (set_dc es k v) x) as [[y|]|]; try discriminate H. apply IH in H; [|discriminate].
    rewrite H, map_app, <- app_assoc. reflexivity.
Qed.

Lemma dc_file_written : forall headers size r rows, dc_file headers size (r :: rows) = written 0 headers (dc_line size r) (map (dc_line size) rows).
Proof.
  intros headers size r rows. unfold dc_file, written. cbn [fold_left fst snd].
  generalize (write_csv 0 [] (fst (dc_line size r)) (snd (dc_line size r)) headers false).
  induction rows as [|q rows IH]; intros f; [reflexivity|]. cbn [fold_left map fst snd]. apply IH.
Qed.
Lemma dc_samples : forall size rows k, (k < size)%nat -> samples (map (dc_line size) rows) (S k) = map (fun r => snd r k) rows.
Proof.
  intros size rows k K. unfold samples. induction rows as [|r rows IH]; [reflexivity|]. cbn [map concat]. rewrite IH. clear IH.
  unfold dc_line. cbn [snd nth]. rewrite (nth_indep _ [] [snd r 0%nat]) by (rewrite map_length, seq_length; exact K).
  rewrite (map_nth (fun i => [snd r i])), seq_nth by exact K. reflexivity.
Qed.
Lemma dc_table : forall t es source nodes ids rows,
  names_of t (seq 1 (get_nodes_number t - 1)) = Ok nodes -> map (fun e => list_ascii_of_string (lid e)) (filter is_vde es) = ids ->
  distinct nodes -> distinct ids -> Forall PropsResults.plain nodes -> Forall PropsResults.plain ids -> op_size t es = (List.length nodes + List.length ids)%nat ->
  PropsResults.plain source -> source <> [] ->
  (forall n, In n nodes -> slower source <> slower (lit "V" ++ n)) -> (forall id, In id ids -> slower source <> slower (lit "I(" ++ id ++ lit ")")) ->
  rows <> [] ->
  (forall name, slower name = slower source -> dc_report t es source rows name = Ok (map fst rows)) /\
  (forall k n name, nth_error nodes k = Some n -> slower name = slower (lit "V" ++ n) -> dc_report t es source rows name = Ok (map (fun r => snd r k) rows)) /\
  (forall j id name, nth_error ids j = Some id -> slower name = slower (lit "I(" ++ id ++ lit ")") ->
     dc_report t es source rows name = Ok (map (fun r => snd r (List.length nodes + j)%nat) rows)).
Proof.
  intros t es source nodes ids rows NS IDS DN DI PN PI_ SZ PS NE NV NI RN. destruct rows as [|r rows]; [congruence|].
  assert (LOW : slower (sweep_label source) = slower source).
  { destruct source as [|c s]; [congruence|]. cbn [sweep_label slower map]. f_equal; [|apply slower_idem].
    destruct c as [[] [] [] [] [] [] [] []]; reflexivity. }
  assert (BL : Forall (PropsCsv.block (dc_vars (sweep_label source) nodes ids)) (dc_line (op_size t es) r :: map (dc_line (op_size t es)) rows)).
  { assert (K : forall q, PropsCsv.block (dc_vars (sweep_label source) nodes ids) (dc_line (op_size t es) q)).
    { intros q. split; unfold dc_line, dc_vars; cbn [fst snd List.length].
      - rewrite app_length, !map_length, seq_length. f_equal. exact SZ.
      - constructor; [reflexivity|]. apply Forall_map. apply Forall_forall. reflexivity. }
    constructor; [apply K|]. apply Forall_map. apply Forall_forall. intros q _. apply K. }
  assert (PL : PropsResults.plain (sweep_label source)).
  { destruct source as [|c s]; [congruence|]. inversion PS as [|? ? P1 P2]; subst. cbn [sweep_label]. constructor.
    - destruct c as [[] [] [] [] [] [] [] []]; first [reflexivity|discriminate P1].
    - apply Forall_map. eapply Forall_impl; [|exact P2]. intros a A. destruct a as [[] [] [] [] [] [] [] []]; first [reflexivity|discriminate A]. }
  assert (NL : sweep_label source <> []) by (destruct source; [congruence|discriminate]).
  assert (NV' : forall n, In n nodes -> slower (sweep_label source) <> slower (lit "V" ++ n)) by (intros n H; rewrite LOW; apply NV; exact H).
  assert (NI' : forall id, In id ids -> slower (sweep_label source) <> slower (lit "I(" ++ id ++ lit ")")) by (intros n H; rewrite LOW; apply NI; exact H).
  destruct (C36_dc R 0 (sweep_label source) nodes ids _ _ DN DI PL NL PN PI_ NV' NI' BL) as ((F1 & F2 & _) & F0).
  cbv zeta in F1, F2, F0.
  change (dc_line (op_size t es) r :: map (dc_line (op_size t es)) rows) with (map (dc_line (op_size t es)) (r :: rows)) in *.
  unfold dc_report. rewrite NS, IDS. cbn [bindr]. rewrite dc_file_written. split; [|split].
  - intros name E. rewrite F0 by (rewrite LOW; exact E). f_equal. generalize (r :: rows). intros l. unfold samples.
    induction l as [|q l IH]; [reflexivity|]. cbn [map concat dc_line snd nth app]. rewrite IH. reflexivity.
  - intros k n name H E. rewrite (F1 k n name H E). f_equal. apply dc_samples. rewrite SZ. apply Nat.lt_lt_add_r. apply nth_error_Some. congruence.
  - intros j id name H E. rewrite (F2 j id name H E). f_equal. apply dc_samples. rewrite SZ. apply Nat.add_lt_mono_l. apply nth_error_Some. congruence.
Qed.

(** * C194 *)
Theorem C194_dc : forall fs other fuel filename parts t es, load fs other fuel filename = Ok (parts, t, es) ->
  (* nothing is said of subcircuits and user-defined elements, except that names are words in lower case *)
  (forall line l, other line = Ok l -> Forall word_names l) ->
  Forall (sound parts) parts ->
  forall at0 solve JT check locked o tdo maxit fuel' gmin guess skip start stop step source x0 rows es',
  let n := op_size t es in
  (* the linear solver solves, and refuses singular matrices only *)
  (forall A b y, solve n A b = Some y -> forall i, (i < n)%nat -> row n A i y = b i) ->
  (forall A b, solve n A b = None -> exists z, (forall i, (i < n)%nat -> row n A i z = 0) /\ exists i, (i < n)%nat /\ z i <> 0) ->
  d_first tdo = false -> (0 < maxit)%nat -> o_std o = true ->
  dc_run solve JT check locked o tdo maxit (S fuel') gmin at0 guess skip t es start stop step source x0 = (Ok (Some rows), es') ->
  let report := dc_report t es source rows in
  (* the circuit is left as it was *)
  es' = es /\
  exists e a vals, In e parts /\ names_source source e /\
    lin_axis start stop ((stop - start) / step + 1) = Ok a /\
    collect lin_next (S (S (Z.to_nat (up ((stop - start) / step + 1))))) a = Some vals /\
    sub (map fst rows) vals /\ (skip = false -> map fst rows = vals) /\
    (* the swept source is not called like the voltage of a node or the current of an element *)
    ((forall n, In n (node_list parts) -> slower source <> slower (lit "V" ++ n)) ->
     (forall id, In id (current_ids parts) -> slower source <> slower (lit "I(" ++ id ++ lit ")")) ->
     (forall name, slower name = slower source -> report name = Ok (map fst rows)) /\
     ((forall v, In v vals -> well_posed (swept at0 (pid e) v) parts) ->
      (forall n name, In n (node_list parts) -> n <> lit "0" -> slower name = slower (lit "V" ++ n) ->
         exists l, report name = Ok l /\
           Forall2 (fun v z => forall V I, laws (swept at0 (pid e) v) V I parts -> z = V n) (map fst rows) l) /\
      (forall id name, In id (current_ids parts) -> slower name = slower (lit "I(" ++ id ++ lit ")") ->
         exists l, report name = Ok l /\
           Forall2 (fun v z => forall V I, laws (swept at0 (pid e) v) V I parts -> z = I id) (map fst rows) l))).
Proof.
  intros fs other fuel filename parts t es LD OT SC at0 solve JT check locked o tdo maxit fuel' gmin guess skip start stop step source x0 rows es' n_ SS SN DF MX OS RUN report.
  unfold n_ in *. clear n_.
  assert (OL : forall line l, other line = Ok l -> Forall lower_case l) by (intros line l H; eapply Forall_impl; [|exact (OT line l H)]; intros e He; apply He).
  assert (OP : forall line l, other line = Ok l -> Forall plain_names l) by (intros line l H; eapply Forall_impl; [|exact (OT line l H)]; intros e He; apply He).
  assert (SO : Forall (proper parts) parts).
  { pose proof (load_lower _ _ _ _ _ _ _ OL LD) as LC. apply Forall_forall. rewrite Forall_forall in SC, LC. intros e H. split; [auto|apply SC; exact H]. }
  pose proof (load_plain _ _ _ _ _ _ _ OP LD) as PN.
  destruct (load_facts _ _ _ _ _ _ _ LD) as (G & NV & PL & ND & MEN).
  destruct (result_names t parts es G PL SO PN ND MEN) as (ns & NS & LN & DN & PNS & IDS & DI & PIS & LEN & REGD & IDX).
  pose proof (grounded_number t G) as NZ. set (nv := get_nodes_number t) in *.
  assert (SZ : op_size t es = (List.length ns + List.length (current_ids parts))%nat) by (unfold op_size; fold nv; lia).
  (* the sweep *)
  assert (RUN' : exists isv c, slower source = c :: tl (slower source) /\ (isv = true -> c = "v"%char) /\ (isv = false -> c = "i"%char) /\
    dc_analysis (dc_point solve JT check locked o tdo maxit (S fuel') gmin at0 guess isv source t) skip es start stop step isv (ss source) x0 = (Ok (Some rows), es')).
  { unfold dc_run in RUN. destruct (slower source) as [|c r]; [discriminate RUN|]. destruct (ascii_dec c "v") as [->|NC].
    - exists true, "v"%char. repeat split; [discriminate|exact RUN].
    - destruct (ascii_dec c "i") as [->|NC']; [|discriminate RUN]. exists false, "i"%char. repeat split; [discriminate|exact RUN]. }
  clear RUN. destruct RUN' as (isv & c & SRC & CV & CI & RUN).
  pose proof (C13_source_restored _ _ _ _ _ _ _ _ _ _ _ _ RUN) as RES. split; [exact RES|].
  destruct (C13_rows_paired _ _ _ _ _ _ _ _ _ _ _ _ RUN) as (k & a & vals & FS & LA & CO & SUB & ROWS).
  destruct (find_source_kind _ _ _ _ _ FS) as (l & NL & _ & LOW & KIND). rewrite Nat.sub_0_r in NL.
  destruct (placed_nth _ _ _ _ PL k l NL) as (e & NE & P).
  assert (DC : exists d, dc_of l = Some d) by (destruct l; try destruct KIND; eexists; reflexivity).
  destruct DC as (d & DC).
  assert (LID : lid l = ss (pid e)) by (apply (placed_lid written_dc t e l P)).
  assert (IE : In e parts) by (eapply nth_error_In; exact NE).
  assert (PE : slower (pid e) = pid e) by (rewrite Forall_forall in SO; apply (SO e IE)).
  assert (SP : slower source = pid e) by (apply ss_inj; rewrite <- slower_lower, <- LOW, LID, slower_lower, PE; reflexivity).
  assert (NSRC : names_source source e).
  { split; [exact SP|]. destruct e; cbn [placed] in P.
    4: destruct P as (m & -> & _); destruct KIND.
    all: try (destruct P as (i & j & -> & A); destruct KIND; fail).
    all: try (destruct P as (i & j & i2 & j2 & -> & A); destruct KIND; fail).
    all: try (destruct P as (i & j & ->); destruct KIND; fail).
    all: destruct P as (i & j & -> & A); exists (tl (slower source)); rewrite SRC at 1; f_equal; auto. }
  exists e, a, vals. split; [exact IE|]. split; [exact NSRC|]. split; [exact LA|]. split; [exact CO|]. split; [exact SUB|]. split.
  { intros ->. destruct (dc_analysis_inv _ _ _ _ _ _ _ _ _ _ _ RUN) as (a' & k' & vals' & solved & rows' & e' & v' & es1 & LA' & FS' & _ & _ & CO' & SL & R & _).
    rewrite LA in LA'. injection LA' as <-. rewrite CO in CO'. injection CO' as <-. destruct solved; [|discriminate R]. injection R as <-.
    apply sweep_all in SL; [|discriminate]. exact SL. }
  intros CLASH CLASH'.
  assert (NR : rows <> []).
  { destruct (dc_analysis_inv _ _ _ _ _ _ _ _ _ _ _ RUN) as (a' & k' & vals' & solved & rows' & e' & v' & es1 & LA' & FS' & _ & _ & CO' & SL & R & _).
    destruct solved; [|discriminate R]. injection R as <-.
    assert (K : forall vals k es x s rows rows' es', sweep_loop (dc_point solve JT check locked o tdo maxit (S fuel') gmin at0 guess isv source t) skip vals k es x s rows = (Ok (Some true, rows'), es') ->
       (s = Some true -> rows <> []) -> rows' <> []).
    { clear. induction vals as [|v vals IH]; intros k es x s rows rows' es' H N; cbn [sweep_loop] in H; cbv zeta in H.
      - injection H as -> <- _. apply N. reflexivity.
      - match type of H with context [dc_point ?a ?b ?c ?d ?e ?f ?g ?h ?i ?j ?k ?l ?m ?n ?o ?p] => destruct (dc_point a b c d e f g h i j k l m n o p) as [[y|]|] end; [| |discriminate H].
        + eapply IH; [exact H|]. intros _ E. apply app_eq_nil in E. destruct E. discriminate.
        + destruct skip; [eapply IH; [exact H|exact N]|discriminate H]. }
    eapply K; [exact SL|discriminate]. }
  assert (PS : PropsResults.plain source).
  { assert (Q : PropsResults.plain (slower source)) by (rewrite SP; rewrite Forall_forall in PN; apply (PN e IE)).
    clear - Q. induction source as [|x s IH]; [constructor|]. cbn [slower map] in Q. inversion Q as [|? ? Q1 Q2]; subst. constructor; [|apply IH; exact Q2].
    destruct x as [[] [] [] [] [] [] [] []]; first [reflexivity|discriminate Q1]. }
  assert (NN : source <> []) by (intros ->; discriminate SRC).
  assert (NSN : forall n, In n ns -> In n (node_list parts)).
  { intros n H. apply In_nth_error in H. destruct H as (i & H).
    destruct (names_of_ok t (seq 1 (nv - 1)) (proj1 G)) as (ns' & NS2 & _ & NSK).
    { intros q Q. apply in_seq in Q. apply (grounded_range t q G). fold nv. lia. }
    rewrite NS in NS2. injection NS2 as <-.
    assert (K : (i < nv - 1)%nat) by (rewrite <- LN; apply nth_error_Some; congruence).
    destruct (NSK i (S i)) as (n' & E & A).
    { rewrite (nth_error_nth' (seq 1 (nv - 1)) 0%nat) by (rewrite seq_length; exact K). rewrite seq_nth by exact K. reflexivity. }
    rewrite H in E. injection E as <-. eapply MEN. exact A. }
  destruct (dc_table t es source ns (current_ids parts) rows NS IDS DN DI PNS PIS SZ PS NN) as (T0 & T1 & T2).
  { intros n H. apply CLASH. apply NSN. exact H. }
  { exact CLASH'. }
  { exact NR. }
  split; [exact T0|]. intros WP.
  assert (PT : forall r, In r rows -> forall V I, laws (swept at0 (pid e) (fst r)) V I parts ->
    (forall n i, In n (node_list parts) -> at_node t n (S i) -> snd r i = V n) /\
    (forall q id, nth_error (current_ids parts) q = Some id -> snd r (nv - 1 + q)%nat = I id)).
  { intros r IR V I L. rewrite Forall_forall in ROWS. destruct (ROWS r IR) as (x & OPX).
    assert (IV : In (fst r) vals).
    { apply (in_map fst) in IR. revert IR. generalize (fst r). clear - SUB. induction SUB as [|q m m' S IH|q m m' S IH]; intros z Z; [destruct Z| |right; auto].
      destruct Z as [->|Z]; [left; reflexivity|right; auto]. }
    unfold dc_point in OPX.
    match type of OPX with bindr ?m _ = _ => destruct m as [[[y fl]|]|] eqn:OPR end; try discriminate OPX. cbn [bindr] in OPX. injection OPX as ->.
    set (v := fst r) in *.
    set (at' := at_swept at0 isv source (set_dc es k v)) in *.
    assert (ATE : forall id, at' id = if streqb id (pid e) then v else at0 id).
    { intros id. unfold at', at_swept. rewrite find_source_set, FS. destruct (nth_set_dc es k v l d NL DC) as (l' & N' & I' & D'). rewrite N', I', LID, D'.
      destruct (String.eqb_spec (ss (pid e)) (ss id)) as [E|E].
      - apply ss_inj in E. subst id. rewrite streqb_refl. reflexivity.
      - rewrite streqb_ne; [reflexivity|]. intros ->. apply E. reflexivity. }
    assert (SRCE : forall q, swept at0 (pid e) v q = driven at' (with_value (pid e) v) q).
    { intros q. unfold swept, dc_source, with_value. destruct q; cbn [driven pid]; try reflexivity; destruct f; try reflexivity; rewrite ATE; reflexivity. }
    assert (PL' : Forall2 (placed (with_value (pid e) v) t) parts (set_dc es k v)) by (eapply set_dc_placed; eassumption).
    assert (SZ2 : op_size t (set_dc es k v) = op_size t es) by (unfold op_size; rewrite n_vde_set_dc; reflexivity).
    pose proof (fun A B => op_core at' (with_value (pid e) v) t parts (set_dc es k v) G PL' SO ND MEN (well_posed_ext _ _ _ SRCE (WP v IV))
      solve JT check locked o tdo maxit fuel' gmin _ _ _ A B DF MX OS OPR) as CORE. cbv zeta in CORE. rewrite SZ2 in CORE.
    apply (proj2 (CORE SS SN)). eapply laws_ext; [exact SRCE|exact L]. }
  assert (F2 : forall (Q : R -> R -> Prop) (f : R * vec -> R), (forall r, In r rows -> Q (fst r) (f r)) -> Forall2 Q (map fst rows) (map f rows)).
  { intros Q f. clear. induction rows as [|r rows IH]; intros H; [constructor|]. constructor; [apply H; left; reflexivity|]. apply IH. intros; apply H; right; assumption. }
  split.
  - intros n name H NG E. destruct (IDX n H NG) as (i & NI & A). eexists. split; [apply (T1 i n name NI E)|].
    apply F2. intros r IR V I L. destruct (PT r IR V I L) as (Q & _). apply Q; assumption.
  - intros id name H E. apply In_nth_error in H. destruct H as (q & H). eexists. split; [apply (T2 q id name H E)|].
    apply F2. intros r IR V I L. destruct (PT r IR V I L) as (_ & Q). rewrite LN. apply Q. exact H.
Qed.
Print Assumptions C194_dc.

(** The source of the divider of C192 is swept: at each value the laws have one solution,
    the output is three quarters of the value. *)
Example C194_divider : forall at0 v,
  (exists t es, load (fun _ => Some divider) (fun _ => Err NetlistParseError) 1 (lit "f") = Ok (divider_parts, t, es)) /\
  Forall (sound divider_parts) divider_parts /\
  names_source (lit "V1") (PV (lit "v1") (lit "in") (lit "0") (Some (10, 0)%Z) None None) /\
  (forall n, In n (node_list divider_parts) -> slower (lit "V1") <> slower (lit "V" ++ n)) /\
  (forall id, In id (current_ids divider_parts) -> slower (lit "V1") <> slower (lit "I(" ++ id ++ lit ")")) /\
  well_posed (swept at0 (lit "v1") v) divider_parts /\
  laws (swept at0 (lit "v1") v) (fun n => if streqb n (lit "in") then v else if streqb n (lit "out") then v * 3/4 else 0) (fun _ => - v / 4000) divider_parts.
Proof.
  intros at0 v. destruct (C192_divider at0) as (LD & SO & _). split; [exact LD|]. split; [exact SO|]. split; [split; [reflexivity|eexists; reflexivity]|].
  split; [intros n H; cbn in H; repeat (destruct H as [<-|H]; [discriminate|]); destruct H|].
  split; [intros n H; cbn in H; repeat (destruct H as [<-|H]; [discriminate|]); destruct H|].
  assert (L : laws (swept at0 (lit "v1") v) (fun n => if streqb n (lit "in") then v else if streqb n (lit "out") then v * 3/4 else 0) (fun _ => - v / 4000) divider_parts).
  { split; [reflexivity|]. split.
    - intros n. unfold divider_parts. cbn [leaving]. unfold leaving1. cbn [first_end second_end through]. at_names. rewrite ?dR_1k, ?dR_3k.
      destruct (streqb n (lit "in")) eqn:E1, (streqb n (lit "0")) eqn:E2, (streqb n (lit "out")) eqn:E3; cbv iota; try lra;
        unfold streqb in *; destruct (list_eq_dec ascii_dec n (lit "in")), (list_eq_dec ascii_dec n (lit "0")), (list_eq_dec ascii_dec n (lit "out")); subst; try discriminate.
    - repeat constructor. cbn [law]. unfold swept. cbn [pid]. at_names. lra. }
  split; [|exact L]. do 2 eexists. split; [exact L|]. intros V I (A & B & C).
  pose proof (B (lit "in")) as K1. pose proof (B (lit "out")) as K2. unfold divider_parts in K1, K2, C. cbn [leaving] in K1, K2. unfold leaving1 in K1, K2.
  cbn [first_end second_end through] in K1, K2. at_names_in K1. at_names_in K2. rewrite ?dR_1k, ?dR_3k in K1; rewrite ?dR_1k, ?dR_3k in K2.
  pose proof (Forall_inv C) as C1. cbn [law] in C1. unfold swept in C1. cbn [pid] in C1. at_names_in C1. cbv iota in C1. rewrite A in C1.
  assert (VI : V (lit "in") = v) by lra. rewrite VI, A in *.
  assert (VO : V (lit "out") = v * 3/4) by lra. rewrite VO in *.
  assert (IV : I (lit "v1") = - v / 4000) by lra.
  split; [intros n H|intros id H]; cbn in H.
  + repeat (destruct H as [<-|H]; [at_names; first [exact VI | exact VO | exact A]|]). destruct H.
  + destruct H as [<-|[]]. exact IV.
Qed.
