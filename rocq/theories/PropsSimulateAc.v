(** From the text of a netlist to the results of an AC analysis (C193). *)
From Coq Require Import Ascii String Reals List Bool Arith ZArith Lia Lra.
From Verif Require Import Base BaseFacts Str Units Directive Lines Reader Netlist ModelLines Nodes NodesFacts Circuit CircuitFacts Rsum Mna MnaSpec DcSolve Newton
  NewtonFacts DynFacts Ac AcFacts Csv PropsCsv Results PropsReader PropsNetlist PropsResults PropsMna PropsAc Session Simulate PropsSimulate SimulateAc.
Import ListNotations.
Open Scope R_scope.

(** * What a netlist of linear elements says about phasors *)

(** [Vr n + j Vi n] is the voltage of the node called [n], [Ir id + j Ii id] the current
    that enters the element called [id] at its first terminal, at the angular frequency
    [w].  The sources are [on] or off.  From each node to ground there are a conductance
    [g] and a capacitance [c] besides (options.gmin and options.cmin). *)
Section AcLaws.
  Variables (w g c : R) (on : bool) (parts : list pelem) (Vr Vi Ir Ii : str -> R).

  Definition amplitude (ac : option Units.dec) : R := match ac with Some d => if on then dR d else 0 | None => 0 end.

  (** The current through the element, from the first to the second node. *)
  Definition ac_through (e : pelem) : R * R :=
    match e with
    | PR _ a b r => ((Vr a - Vr b) / dR r, (Vi a - Vi b) / dR r)
    | PC _ a b v _ => (- (w * dR v * (Vi a - Vi b)), w * dR v * (Vr a - Vr b))
    | PI _ _ _ _ ac _ => (amplitude ac, 0)
    | PG _ _ _ p q k => (dR k * (Vr p - Vr q), dR k * (Vi p - Vi q))
    | PF _ _ _ src k => (dR k * Ir src, dR k * Ii src)
    | PV id _ _ _ _ _ | PL id _ _ _ _ | PE id _ _ _ _ _ | PH id _ _ _ _ => (Ir id, Ii id)
    | _ => (0, 0)
    end.
  (** The sums of the currents that leave the node called [n]. *)
  Definition ac_leaving1 (part : R * R -> R) (n : str) (e : pelem) : R :=
    (if streqb n (first_end e) then part (ac_through e) else 0) - (if streqb n (second_end e) then part (ac_through e) else 0).
  Fixpoint ac_leaving (part : R * R -> R) (n : str) (l : list pelem) : R :=
    match l with [] => 0 | e :: l' => ac_leaving1 part n e + ac_leaving part n l' end.

  (** The flux that the other windings send through the inductor called [id]. *)
  Fixpoint linked (I : str -> R) (id : str) (l : list pelem) : R :=
    match l with
    | [] => 0
    | PK _ l1 l2 k v1 v2 :: l' =>
        (if streqb l1 id then sqrt (dR v1 * dR v2) * dR k * I l2 else if streqb l2 id then sqrt (dR v1 * dR v2) * dR k * I l1 else 0) + linked I id l'
    | _ :: l' => linked I id l'
    end.

  Definition ac_law (e : pelem) : Prop :=
    match e with
    | PV _ a b _ ac _ => Vr a - Vr b = amplitude ac /\ Vi a - Vi b = 0
    | PL id a b v _ => Vr a - Vr b = - w * (dR v * Ii id + linked Ii id parts) /\ Vi a - Vi b = w * (dR v * Ir id + linked Ir id parts)
    | PE _ a b p q k => Vr a - Vr b = dR k * (Vr p - Vr q) /\ Vi a - Vi b = dR k * (Vi p - Vi q)
    | PH _ a b src k => Vr a - Vr b = dR k * Ir src /\ Vi a - Vi b = dR k * Ii src
    | _ => True
    end.

  Definition ac_laws : Prop :=
    Vr (lit "0") = 0 /\ Vi (lit "0") = 0 /\
    (forall n, In n (node_list parts) -> n <> lit "0" ->
       ac_leaving fst n parts + g * Vr n - w * c * Vi n = 0 /\ ac_leaving snd n parts + g * Vi n + w * c * Vr n = 0) /\
    Forall ac_law parts.
End AcLaws.

(** The laws have one solution and only one. *)
Definition ac_well_posed (w g c : R) (parts : list pelem) : Prop :=
  exists Vr Vi Ir Ii, ac_laws w g c true parts Vr Vi Ir Ii /\
    forall Vr' Vi' Ir' Ii', ac_laws w g c true parts Vr' Vi' Ir' Ii' ->
      (forall n, In n (node_list parts) -> Vr' n = Vr n /\ Vi' n = Vi n) /\ (forall id, In id (current_ids parts) -> Ir' id = Ir id /\ Ii' id = Ii id).

(** Besides, a coupling is between two different inductors of the netlist. *)
Definition ac_sound (parts : list pelem) (e : pelem) : Prop :=
  sound parts e /\
  match e with
  | PK _ l1 l2 _ _ _ =>
      l1 <> l2 /\ (exists a b v ic, In (PL l1 a b v ic) parts) /\ (exists a b v ic, In (PL l2 a b v ic) parts)
  | _ => True
  end.

(** The names are words. *)
Definition word_names (e : pelem) : Prop := lower_case e /\ PropsResults.plain (pid e) /\ Forall PropsResults.plain (nodes_in e).

(** * Lemmas *)

Lemma plain_split : forall s, Forall PropsResults.plain (split s).
Proof.
  intros s. unfold split. assert (G : forall w, PropsResults.plain w -> Forall PropsResults.plain (split_aux w s)); [|apply G; constructor].
  induction s as [|c s IH]; intros w W; cbn [split_aux].
  - destruct w; constructor; [exact W|constructor].
  - destruct (is_ws c) eqn:E.
    + destruct w; [apply IH; constructor|]. constructor; [exact W|apply IH; constructor].
    + apply IH. apply Forall_app. split; [exact W|repeat constructor; exact E].
Qed.
Definition plain_names (e : pelem) : Prop := PropsResults.plain (pid e) /\ Forall PropsResults.plain (nodes_in e).
Lemma plain_line : forall models other line prev l, (forall x l, other x = Ok l -> Forall plain_names l) ->
  parse_line models other line prev = Ok l -> Forall plain_names l.
Proof.
  intros models other line prev l OT H. destruct line as [|c r]; [discriminate H|].
  destruct (in_dec ascii_dec c (list_ascii_of_string "xy")) as [X|X].
  - unfold parse_line, parse_letter in H. cbv zeta in H. simpl in X. destruct X as [<-|[<-|[]]]; cbn in H; eapply OT; exact H.
  - destruct (C129_words models other (c :: r) prev c l) as (e & rest & -> & _ & SP & _); [exists r; reflexivity|exact X|exact H|].
    pose proof (plain_split (c :: r)) as K. rewrite SP in K. apply Forall_app in K. destruct K as [K _].
    repeat constructor; destruct e; cbn [words pid nodes_in] in *;
      repeat match goal with K : Forall _ (_ :: _) |- _ => inversion K; clear K; subst end; repeat constructor; assumption.
Qed.
Lemma plain_parts : forall models other, (forall x l, other x = Ok l -> Forall plain_names l) ->
  forall lines acc parts, Forall plain_names acc -> main_netlist_parser models other lines acc = Ok parts -> Forall plain_names parts.
Proof.
  intros models other OT lines. induction lines as [|line lines IH]; intros acc parts A H.
  - injection H as <-. exact A.
  - cbn [main_netlist_parser] in H. destruct (parse_line models other line acc) as [l|] eqn:P; [|discriminate H]. cbn [bindr] in H.
    eapply IH; [|exact H]. apply Forall_app. split; [exact A|]. eapply plain_line; [exact OT|exact P].
Qed.
Lemma load_plain : forall fs other fuel f parts t es, (forall x l, other x = Ok l -> Forall plain_names l) ->
  load fs other fuel f = Ok (parts, t, es) -> Forall plain_names parts.
Proof.
  intros fs other fuel f parts t es OT H. unfold load in H. destruct (read_netlist fs fuel f) as [s|] eqn:R; [|discriminate H]. cbn [bindr] in H.
  destruct (parse_models (map fst (r_models s)) []) as [models|]; [|discriminate H]. cbn [bindr] in H.
  match type of H with bindr ?m _ = _ => destruct m as [ps|] eqn:M; [|discriminate H] end. cbn [bindr] in H.
  destruct (place_all empty_ntab ps) as [[t' es']|]; [|discriminate H]. cbn [bindr] in H.
  match type of H with (if ?b then _ else _) = _ => destruct b; [|discriminate H] end. injection H as <- _ _.
  eapply plain_parts; [exact OT|constructor|exact M].
Qed.

(** The names of the columns. *)
Lemma result_names : forall t parts es, grounded t -> Forall2 (placed written_dc t) parts es -> Forall (proper parts) parts -> Forall plain_names parts ->
  NoDup (map pid parts) -> (forall n i, at_node t n i -> In n (node_list parts)) ->
  let nv := get_nodes_number t in
  exists ns, names_of t (seq 1 (nv - 1)) = Ok ns /\ List.length ns = (nv - 1)%nat /\ distinct ns /\ Forall PropsResults.plain ns /\
    map (fun e => list_ascii_of_string (lid e)) (filter is_vde es) = current_ids parts /\ distinct (current_ids parts) /\
    Forall PropsResults.plain (current_ids parts) /\ List.length (current_ids parts) = n_vde es /\
    (forall n, In n (node_list parts) -> exists i, at_node t n i) /\
    (forall n, In n (node_list parts) -> n <> lit "0" -> exists k, nth_error ns k = Some n /\ at_node t n (S k)).
Proof.
  intros t parts es G PL SO PN ND MEN nv. pose proof (grounded_number t G) as NZ. fold nv in NZ.
  destruct (names_of_ok t (seq 1 (nv - 1)) (proj1 G)) as (ns & NS & NL1 & NS').
  { intros i H. apply in_seq in H. apply (grounded_range t i G). fold nv. lia. }
  rewrite seq_length in NL1. exists ns. split; [exact NS|]. split; [exact NL1|].
  assert (NSK : forall k n, nth_error ns k = Some n -> at_node t n (S k)).
  { intros k n H. assert (K : (k < nv - 1)%nat) by (rewrite <- NL1; apply nth_error_Some; congruence).
    destruct (NS' k (S k)) as (n' & E & A); [|congruence]. rewrite (nth_error_nth' (seq 1 (nv - 1)) 0%nat) by (rewrite seq_length; exact K). rewrite seq_nth by exact K. reflexivity. }
  assert (MINE : forall n, In n ns -> exists e, In e parts /\ In n (nodes_in e)).
  { intros n H. apply In_nth_error in H. destruct H as (k & H). apply NSK in H. apply MEN in H. unfold node_list in H. apply in_flat_map in H. exact H. }
  assert (REGD : forall n, In n (node_list parts) -> exists i, at_node t n i).
  { intros n H. unfold node_list in H. apply in_flat_map in H. destruct H as (e & IE & H).
    assert (PE : exists l, placed written_dc t e l).
    { clear - PL IE. induction PL as [|e0 l0 p0 e1 P F IH]; [destruct IE|]. destruct IE as [->|IE]; [eauto|auto]. }
    destruct PE as (l & P). rewrite Forall_forall in SO. specialize (SO e IE). destruct SO as (_ & S).
    destruct e; cbn [placed] in P; cbn [nodes_in] in H; try (destruct S; fail); try (destruct H; fail).
    all: try (destruct P as (i & j & _ & A & B); destruct H as [<-|[<-|[]]]; eauto; fail).
    all: destruct P as (i & j & ii & jj & _ & A & B & A2 & B2); destruct H as [<-|[<-|[<-|[<-|[]]]]]; eauto. }
  split; [|split; [|split; [|split; [|split; [|split; [|split; [exact REGD|]]]]]]].
  - unfold distinct. replace (map slower ns) with ns.
    + apply NoDup_nth_error. intros a b Ha E. destruct (nth_error ns a) as [n|] eqn:EA; [|apply nth_error_None in EA; lia].
      symmetry in E. apply NSK in EA. apply NSK in E. pose proof (at_node_fun _ _ _ _ EA E). lia.
    + symmetry. rewrite <- (map_id ns) at 2. apply map_ext_in. intros n H. destruct (MINE n H) as (e & IE & H').
      rewrite Forall_forall in SO. destruct (SO e IE) as ((_ & F) & _). rewrite Forall_forall in F. apply F. exact H'.
  - apply Forall_forall. intros n H. destruct (MINE n H) as (e & IE & H'). rewrite Forall_forall in PN. destruct (PN e IE) as (_ & F).
    rewrite Forall_forall in F. apply F. exact H'.
  - rewrite <- (map_map lid list_ascii_of_string). fold (vdes es). rewrite (placed_ids written_dc t parts es PL), map_map. rewrite <- (map_id (current_ids parts)) at 2.
    apply map_ext. intros s. apply list_ascii_of_string_of_list_ascii.
  - unfold distinct. replace (map slower (current_ids parts)) with (current_ids parts); [apply (current_nodup parts ND)|].
    symmetry. rewrite <- (map_id (current_ids parts)) at 2. apply map_ext_in. pose proof (current_lower parts SO) as F. rewrite Forall_forall in F. exact F.
  - apply Forall_forall. intros s H. apply in_map_iff in H. destruct H as (e & <- & H). apply filter_In in H. rewrite Forall_forall in PN. apply PN. apply H.
  - pose proof (placed_ids written_dc t parts es PL) as E. apply (f_equal (@List.length string)) in E. rewrite !map_length in E. symmetry. exact E.
  - intros n H NG. destruct (REGD n H) as ([|i] & A); [exfalso; apply NG; apply (grounded_zero t n G); exact A|].
    assert (Hi : (S i < nv)%nat) by (apply (grounded_range t (S i) G); eauto). exists i. split; [|exact A].
    destruct (nth_error ns i) as [n'|] eqn:E'; [|apply nth_error_None in E'; lia]. f_equal. apply NSK in E'. eapply at_node_inj; [apply G|exact E'|exact A].
Qed.

(** The elements with other values of the sources. *)
Definition exc (v : option Units.dec -> option Units.dec) (e : pelem) : pelem :=
  match e with
  | PV id a b _ ac _ => PV id a b (v ac) None None
  | PI id a b _ ac _ => PI id a b (v ac) None None
  | e => e
  end.
Lemma exc_pid : forall v e, pid (exc v e) = pid e.
Proof. intros v e. destruct e; reflexivity. Qed.
Lemma exc_current : forall v e, has_current (exc v e) = has_current e.
Proof. intros v e. destruct e; reflexivity. Qed.
Lemma exc_currents : forall v parts, current_ids (map (exc v) parts) = current_ids parts.
Proof.
  intros v parts. unfold current_ids. induction parts as [|e parts IH]; [reflexivity|]. cbn [map filter]. rewrite exc_current.
  destruct (has_current e); [|exact IH]. cbn [map]. rewrite exc_pid, IH. reflexivity.
Qed.
Lemma exc_pids : forall v parts, map pid (map (exc v) parts) = map pid parts.
Proof. intros v parts. rewrite map_map. apply map_ext. apply exc_pid. Qed.
Lemma exc_proper : forall v parts e, proper parts e -> proper (map (exc v) parts) (exc v e).
Proof.
  intros v parts e (L & S). split.
  - destruct e; exact L.
  - destruct e; cbn [exc sound] in *; try exact S. rewrite exc_currents. exact S.
Qed.

Lemma ac_ph_ok : forall parts e l, NoDup (map pid parts) -> In e parts -> lid l = ss (pid e) -> ac_ph parts l = ac_field e.
Proof.
  intros parts e l ND H E. unfold ac_ph. rewrite E. clear E. induction parts as [|q parts IH]; [destruct H|]. cbn [find map] in *. inversion ND as [|? ? NI ND']; subst.
  destruct (String.eqb_spec (ss (pid q)) (ss (pid e))) as [K|K].
  - apply ss_inj in K. destruct H as [->|H]; [reflexivity|]. exfalso. apply NI. rewrite K. apply in_map. exact H.
  - destruct H as [->|H]; [congruence|]. apply IH; assumption.
Qed.
Lemma polar_re : forall a, re_part (polar a) = a.
Proof.
  intros a. unfold re_part, polar. cbn [fst snd]. destruct (Rlt_dec a 0).
  - rewrite Rabs_left, cos_PI by assumption. lra.
  - rewrite Rabs_right, cos_0 by lra. lra.
Qed.
Lemma polar_im : forall a, im_part (polar a) = 0.
Proof. intros a. unfold im_part, polar. cbn [fst snd]. destruct (Rlt_dec a 0); rewrite ?sin_PI, ?sin_0; lra. Qed.

Definition vre (on : bool) (ac : option Units.dec) : option Units.dec := if on then ac else None.
Definition vim (ac : option Units.dec) : option Units.dec := None.
Lemma vre_part : forall on ac, match vre on ac with Some d => dR d | None => 0 end = amplitude on ac.
Proof. intros on ac. unfold vre, amplitude. destruct on, ac; reflexivity. Qed.

Section AcCorr.
  Variables (t : ntab) (parts : list pelem) (es : list lelem) (on : bool) (phs : phasors).
  Hypothesis GR : grounded t.
  Hypothesis PL_ : Forall2 (placed written_dc t) parts es.
  Hypothesis SO : Forall (proper parts) parts.
  Hypothesis SC : Forall (ac_sound parts) parts.
  Hypothesis ND : NoDup (map pid parts).
  Hypothesis PH_ : forall e l, In e parts -> placed written_dc t e l -> phs l = if on then ac_field e else None.
  Let nv := get_nodes_number t.

  Lemma excite_placed : forall e l, In e parts -> placed written_dc t e l ->
    placed written_dc t (exc (vre on) e) (excite re_part phs l) /\ placed written_dc t (exc vim e) (excite im_part phs l).
  Proof.
    intros e l H P. pose proof (PH_ e l H P) as F. destruct e; cbn [placed] in P; cbn [exc placed ac_field] in *.
    all: try (destruct P as (i & j & E & P); subst l; split; exists i, j; (split; [reflexivity|exact P]); fail).
    all: try (destruct P as (i & j & i2 & j2 & E & P); subst l; split; exists i, j, i2, j2; (split; [reflexivity|exact P]); fail).
    all: try (destruct P as (i & j & E); subst l; split; exists i, j; reflexivity).
    - destruct P as (m & E & P); subst l; split; exists m; (split; [reflexivity|exact P]).
    - destruct P as (i & j & E & P). split; exists i, j; (split; [|exact P]); unfold excite; rewrite F, E; unfold vre, vim; destruct on, ac; cbn [written_dc]; rewrite ?polar_re, ?polar_im; reflexivity.
    - destruct P as (i & j & E & P). split; exists i, j; (split; [|exact P]); unfold excite; rewrite F, E; unfold vre, vim; destruct on, ac; cbn [written_dc]; rewrite ?polar_re, ?polar_im; reflexivity.
  Qed.
  Lemma excite_all : Forall2 (placed written_dc t) (map (exc (vre on)) parts) (map (excite re_part phs) es) /\ Forall2 (placed written_dc t) (map (exc vim) parts) (map (excite im_part phs) es).
  Proof.
    assert (K : forall l les, Forall2 (placed written_dc t) l les -> incl l parts ->
      Forall2 (placed written_dc t) (map (exc (vre on)) l) (map (excite re_part phs) les) /\ Forall2 (placed written_dc t) (map (exc vim) l) (map (excite im_part phs) les)).
    { induction 1 as [|e q l les P F IH]; intros IN; [split; constructor|]. destruct IH as (A & B); [intros z Z; apply IN; right; exact Z|].
      destruct (excite_placed e q (IN e (or_introl eq_refl)) P). split; constructor; assumption. }
    apply K; [exact PL_|apply incl_refl].
  Qed.
  Lemma excite_frozen : forall f tv l, map (freeze tv) (map (excite f phs) l) = map (excite f phs) l.
  Proof. intros f tv l. rewrite map_map. apply map_ext. intros e. destruct e as [| | | | | | | | | |]; reflexivity. Qed.
  Lemma excite_index : forall f s, vde_index (map (excite f phs) es) s = vde_index es s.
  Proof.
    intros f s. unfold vde_index. f_equal. rewrite map_map. apply map_ext. intros e. destruct e; reflexivity.
  Qed.

  Variables (V I : str -> R) (x : vec).
  Hypothesis XV : forall n i, at_node t n i -> x i = V n.
  Hypothesis XI : forall k id, nth_error (current_ids parts) k = Some id -> x (nv + k)%nat = I id.

  Lemma ac_kcl : forall n i, at_node t n i ->
    kcl nv (map (excite re_part phs) es) (map (excite re_part phs) es) 0 i x = leaving (dc_source (fun _ => 0)) V I n (map (exc (vre on)) parts) /\
    kcl nv (map (excite im_part phs) es) (map (excite im_part phs) es) 0 i x = leaving (dc_source (fun _ => 0)) V I n (map (exc vim) parts).
  Proof.
    intros n i A. destruct excite_all as (F1 & F2).
    assert (PR1 : forall v, Forall (proper (map (exc v) parts)) (map (exc v) parts)).
    { intros v. apply Forall_map. eapply Forall_impl; [|exact SO]. intros e. apply exc_proper. }
    assert (ND1 : forall v, NoDup (map pid (map (exc v) parts))) by (intros v; rewrite exc_pids; exact ND).
    assert (XI1 : forall v k id, nth_error (current_ids (map (exc v) parts)) k = Some id -> x (get_nodes_number t + k)%nat = I id).
    { intros v k id H. rewrite exc_currents in H. apply XI. exact H. }
    split.
    - pose proof (kcl_named (fun _ => 0) written_dc t (map (exc (vre on)) parts) (map (excite re_part phs) es) GR F1 (PR1 (vre on)) (ND1 (vre on)) V I x XV (XI1 (vre on)) _ _ [] F1 eq_refl n i A) as K.
      rewrite !excite_frozen in K. exact K.
    - pose proof (kcl_named (fun _ => 0) written_dc t (map (exc vim) parts) (map (excite im_part phs) es) GR F2 (PR1 vim) (ND1 vim) V I x XV (XI1 vim) _ _ [] F2 eq_refl n i A) as K.
      rewrite !excite_frozen in K. exact K.
  Qed.

End AcCorr.

Section AcDyn.
  Context {val : pelem -> R}.
  Variables (t : ntab) (parts : list pelem) (es : list lelem).
  Hypothesis GR : grounded t.
  Hypothesis PL_ : Forall2 (placed val t) parts es.
  Hypothesis SO : Forall (proper parts) parts.
  Hypothesis SC : Forall (ac_sound parts) parts.
  Hypothesis ND : NoDup (map pid parts).
  Let nv := get_nodes_number t.
  Variables (V I : str -> R) (x : vec).
  Hypothesis XV : forall n i, at_node t n i -> x i = V n.
  Hypothesis XI : forall k id, nth_error (current_ids parts) k = Some id -> x (nv + k)%nat = I id.

  (** Capacitive currents. *)
  Definition cap1 (n : str) (e : pelem) : R :=
    match e with PC _ a b v _ => ((if streqb n a then 1 else 0) - (if streqb n b then 1 else 0)) * (dR v * (V a - V b)) | _ => 0 end.
  Fixpoint caps (n : str) (l : list pelem) : R := match l with [] => 0 | e :: l' => cap1 n e + caps n l' end.
  Lemma node_test : forall n m i j, at_node t n i -> at_node t m j -> dlt i j = if streqb n m then 1 else 0.
  Proof.
    intros n m i j A B. unfold dlt. destruct (Nat.eqb_spec i j) as [->|NE].
    - rewrite (at_node_inj t n m j (proj1 GR) A B). unfold streqb. destruct (list_eq_dec ascii_dec m m); congruence.
    - unfold streqb. destruct (list_eq_dec ascii_dec n m) as [->|]; [|reflexivity]. exfalso. apply NE. eapply at_node_fun; eassumption.
  Qed.
  Lemma caps_numbered : forall n i, at_node t n i -> dyn_kcl es i x = caps n parts.
  Proof.
    intros n i A. unfold dyn_kcl. clear SO SC ND XI. induction PL_ as [|e l p q P F IH]; [reflexivity|]. cbn [lsum caps]. rewrite (IH F). f_equal.
    destruct e; cbn [placed] in P; cbn [cap1].
    4: destruct P as (m & -> & _); cbn [term1 term2 cap_current]; ring.
    all: try (destruct P as (i1 & j1 & -> & A1 & B1); cbn [term1 term2 cap_current]).
    all: try (destruct P as (i1 & j1 & i2 & j2 & -> & A1 & B1 & _); cbn [term1 term2 cap_current]).
    all: try (destruct P as (i1 & j1 & ->); cbn [term1 term2 cap_current]).
    all: try ring.
    rewrite (node_test n n1 i i1 A A1), (node_test n n2 i j1 A B1), (XV _ _ A1), (XV _ _ B1). reflexivity.
  Qed.


  (** Linked fluxes. *)
  Lemma cur_named : forall id, In id (current_ids parts) -> cur nv es x (ss id) = I id.
  Proof.
    intros id H. apply In_nth_error in H. destruct H as (k & H). unfold cur.
    pose proof (es_index (fun _ => 0) val t parts es PL_ SO ND k id H) as E. rewrite freeze_vde_index in E. rewrite E. apply XI. exact H.
  Qed.
  Lemma flux_named : forall id, flux nv es x (ss id) = linked I id parts.
  Proof.
    intros id. unfold flux.
    assert (CU : forall id l1 l2 k v1 v2, In (PK id l1 l2 k v1 v2) parts -> cur nv es x (ss l1) = I l1 /\ cur nv es x (ss l2) = I l2).
    { intros id' l1 l2 k v1 v2 H. rewrite Forall_forall in SC. destruct (SC _ H) as (_ & _ & (a1 & b1 & u1 & c1 & H1) & (a2 & b2 & u2 & c2 & H2)).
      split; apply cur_named; unfold current_ids.
      - change l1 with (pid (PL l1 a1 b1 u1 c1)). apply in_map. apply filter_In. split; [exact H1|reflexivity].
      - change l2 with (pid (PL l2 a2 b2 u2 c2)). apply in_map. apply filter_In. split; [exact H2|reflexivity]. }
    assert (K : forall l les, Forall2 (placed val t) l les -> incl l parts ->
      lsum (fun e => match e with EK _ l1 l2 _ m => if String.eqb l1 (ss id) then m * cur nv es x l2 else if String.eqb l2 (ss id) then m * cur nv es x l1 else 0 | _ => 0 end) les
      = linked I id l).
    { induction 1 as [|e q l les P F IH]; intros IN; [reflexivity|]. cbn [lsum]. rewrite IH by (intros z Z; apply IN; right; exact Z).
      assert (IE : In e parts) by (apply IN; left; reflexivity). destruct e; cbn [placed] in P.
      4: { destruct P as (m & -> & ->). destruct (CU _ _ _ _ _ _ IE) as (C1 & C2). rewrite C1, C2. cbn [linked]. unfold mutual. f_equal.
           assert (SE : forall a, String.eqb (ss a) (ss id) = streqb a id).
           { intros a. unfold streqb. destruct (String.eqb_spec (ss a) (ss id)) as [Q|Q]; destruct (list_eq_dec ascii_dec a id) as [Q'|Q']; try reflexivity;
               [apply ss_inj in Q; congruence|subst; congruence]. }
           rewrite !SE. reflexivity. }
      all: first [destruct P as (i1 & j1 & -> & _) | destruct P as (i1 & j1 & i2 & j2 & -> & _) | destruct P as (i1 & j1 & ->)]; cbn [linked]; ring. }
    apply K; [exact PL_|apply incl_refl].
  Qed.
End AcDyn.

Lemma ac_leaving_split : forall w on Vr Vi Ir Ii n l,
  ac_leaving w on Vr Vi Ir Ii fst n l = leaving (dc_source (fun _ => 0)) Vr Ir n (map (exc (vre on)) l) - w * caps Vi n l /\
  ac_leaving w on Vr Vi Ir Ii snd n l = leaving (dc_source (fun _ => 0)) Vi Ii n (map (exc vim) l) + w * caps Vr n l.
Proof.
  intros w on Vr Vi Ir Ii n l. induction l as [|e l (IH1 & IH2)]; [cbn; lra|]. cbn [ac_leaving leaving map caps]. rewrite IH1, IH2.
  assert (K : ac_leaving1 w on Vr Vi Ir Ii fst n e = leaving1 (dc_source (fun _ => 0)) Vr Ir n (exc (vre on) e) - w * cap1 Vi n e /\
              ac_leaving1 w on Vr Vi Ir Ii snd n e = leaving1 (dc_source (fun _ => 0)) Vi Ii n (exc vim e) + w * cap1 Vr n e); [|destruct K; lra].
  unfold ac_leaving1, leaving1, vre, vim. destruct e; cbn [exc ac_through through first_end second_end cap1 fst snd dc_source driven written_dc].
  all: try (split; ring).
  - repeat match goal with |- context [if ?b then _ else _] => destruct b end; split; ring.
  - unfold amplitude. destruct on, ac; repeat match goal with |- context [if ?b then _ else _] => destruct b end; split; ring.
Qed.

Lemma Forall2_split_l : forall A B (P : A -> B -> Prop) pre e post es, Forall2 P (pre ++ e :: post) es ->
  exists pre' l post', es = (pre' ++ l :: post')%list /\ Forall2 P pre pre' /\ P e l.
Proof.
  intros A B P pre. induction pre as [|a pre IH]; intros e post es F.
  - inversion F as [|? l ? post' H F']; subst. exists [], l, post'. split; [reflexivity|]. split; [constructor|exact H].
  - cbn [app] in F. inversion F as [|? b ? es' H F']; subst. destruct (IH _ _ _ F') as (pre' & l & post' & -> & F2 & K).
    exists (b :: pre'), l, post'. split; [reflexivity|]. split; [constructor; assumption|exact K].
Qed.

Lemma ac_named_ports : forall t parts es (on : bool) (phs : phasors), grounded t -> Forall2 (placed written_dc t) parts es -> Forall (proper parts) parts -> Forall (ac_sound parts) parts ->
  NoDup (map pid parts) -> (forall e l, In e parts -> placed written_dc t e l -> phs l = if on then ac_field e else None) ->
  let nv := get_nodes_number t in
  forall ports xop g c w xr xi Vr Vi Ir Ii,
  (forall n i, at_node t n i -> xr i = Vr n) -> (forall n i, at_node t n i -> xi i = Vi n) ->
  (forall k id, nth_error (current_ids parts) k = Some id -> xr (nv + k)%nat = Ir id) ->
  (forall k id, nth_error (current_ids parts) k = Some id -> xi (nv + k)%nat = Ii id) ->
  ac_solution nv es ports phs xop g c w xr xi ->
  (forall n i, at_node t n (S i) ->
     ac_leaving w on Vr Vi Ir Ii fst n parts + small_signal ports xop (S i) xr + g * Vr n - w * c * Vi n = 0 /\
     ac_leaving w on Vr Vi Ir Ii snd n parts + small_signal ports xop (S i) xi + g * Vi n + w * c * Vr n = 0) /\
  Forall (ac_law w on parts Vr Vi Ir Ii) parts.
Proof.
  intros t parts es on phs GR PL SO SC ND PHS nv ports xop g c w xr xi Vr Vi Ir Ii XVr XVi XIr XIi (K & B).
  split.
  - intros n i A.
    assert (Hi : (S i < nv)%nat) by (apply (grounded_range t (S i) GR); eauto).
    destruct (K (S i)) as (K1 & K2); [lia|]. cbv zeta in K1, K2.
    destruct (ac_kcl t parts es on phs GR PL SO ND PHS Vr Ir xr XVr XIr n (S i) A) as (E1 & _).
    destruct (ac_kcl t parts es on phs GR PL SO ND PHS Vi Ii xi XVi XIi n (S i) A) as (_ & E2).
    fold nv in E1, E2. rewrite E1 in K1. rewrite E2 in K2.
    rewrite (caps_numbered t parts es GR PL Vi xi XVi n (S i) A) in K1. rewrite (caps_numbered t parts es GR PL Vr xr XVr n (S i) A) in K2.
    rewrite (XVr _ _ A), (XVi _ _ A) in *.
    destruct (ac_leaving_split w on Vr Vi Ir Ii n parts) as (L1 & L2). rewrite L1, L2. lra.
  - apply Forall_forall. intros e H. destruct (has_current e) eqn:HC; [|destruct e; try discriminate HC; exact Logic.I].
    pose proof H as IE. apply in_split in H. destruct H as (pre & post & E).
    assert (NK : nth_error (current_ids parts) (List.length (filter has_current pre)) = Some (pid e)).
    { rewrite E. unfold current_ids. rewrite filter_app, map_app. rewrite nth_error_app2; rewrite map_length; [|lia].
      rewrite Nat.sub_diag. cbn [filter]. rewrite HC. reflexivity. }
    pose proof PL as PL2. rewrite E in PL2. destruct (Forall2_split_l _ _ _ _ _ _ _ PL2) as (pre' & l & post' & Ees & Fpre & P).
    assert (NV : n_vde pre' = List.length (filter has_current pre)).
    { pose proof (placed_ids written_dc t pre pre' Fpre) as Q. apply (f_equal (@List.length string)) in Q. unfold current_ids in Q. rewrite !map_length in Q. exact Q. }
    rewrite Forall_forall in SO. destruct (SO e IE) as (_ & S).
    destruct (proper_wf written_dc t parts es GR PL (proj2 (Forall_forall _ _) SO)) as (_ & SA & NH & _).
    assert (IL : In l es) by (rewrite Ees; apply in_or_app; right; left; reflexivity).
    destruct (B pre' l post' Ees) as (B1 & B2).
    { rewrite (proj2 (placed_lid written_dc t e l P)). exact HC. }
    { rewrite Forall_forall in SA. apply SA. exact IL. }
    { intros id n1 n2 src a Q. apply (NH id n1 n2 src a). rewrite <- Q. exact IL. }
    cbv zeta in B1, B2. rewrite NV in B1, B2.
    destruct (excite_placed t parts on phs PHS e l IE P) as (P1 & P2).
    apply Forall_forall in SO.
    assert (FL : forall I x, (forall k id, nth_error (current_ids parts) k = Some id -> x (nv + k)%nat = I id) -> forall id, flux nv es x (ss id) = linked I id parts).
    { intros I x XI id. apply (flux_named t parts es PL SO SC ND I x XI). }
    destruct e; try discriminate HC; cbn [ac_law pid] in *.
    + destruct P as (i & j & -> & A1 & A2). cbn [excite branch_law own_flux] in B1, B2.
      rewrite (XVr _ _ A1), (XVr _ _ A2), (XIi _ _ NK), (FL Ii xi XIi) in B1. rewrite (XVi _ _ A1), (XVi _ _ A2), (XIr _ _ NK), (FL Ir xr XIr) in B2. lra.
    + destruct P as (i & j & -> & A1 & A2). cbn [exc placed] in P1, P2. destruct P1 as (i1 & j1 & Q1 & _). destruct P2 as (i2 & j2 & Q2 & _).
      rewrite Q1 in B1. rewrite Q2 in B2. cbn [excite] in Q1, Q2. injection Q1 as <- <- _. injection Q2 as <- <- _.
      cbn [branch_law own_flux timed] in B1, B2. cbn [vim written_dc] in B1, B2. rewrite vre_part in B1.
      rewrite (XVr _ _ A1), (XVr _ _ A2) in B1. rewrite (XVi _ _ A1), (XVi _ _ A2) in B2. lra.
    + destruct P as (i & j & i2 & j2 & -> & A1 & A2 & A3 & A4). cbn [excite branch_law own_flux] in B1, B2.
      rewrite (XVr _ _ A1), (XVr _ _ A2), (XVr _ _ A3), (XVr _ _ A4) in B1. rewrite (XVi _ _ A1), (XVi _ _ A2), (XVi _ _ A3), (XVi _ _ A4) in B2. lra.
    + destruct S.
Qed.

Lemma ac_named : forall t parts es (on : bool) (phs : phasors), grounded t -> Forall2 (placed written_dc t) parts es -> Forall (proper parts) parts -> Forall (ac_sound parts) parts ->
  NoDup (map pid parts) -> (forall e l, In e parts -> placed written_dc t e l -> phs l = if on then ac_field e else None) ->
  (forall n, In n (node_list parts) -> exists i, at_node t n i) ->
  let nv := get_nodes_number t in
  forall xop g c w xr xi Vr Vi Ir Ii, Vr (lit "0") = 0 -> Vi (lit "0") = 0 ->
  (forall n i, at_node t n i -> xr i = Vr n) -> (forall n i, at_node t n i -> xi i = Vi n) ->
  (forall k id, nth_error (current_ids parts) k = Some id -> xr (nv + k)%nat = Ir id) ->
  (forall k id, nth_error (current_ids parts) k = Some id -> xi (nv + k)%nat = Ii id) ->
  ac_solution nv es [] phs xop g c w xr xi -> ac_laws w g c on parts Vr Vi Ir Ii.
Proof.
  intros t parts es on phs GR PL SO SC ND PHS REGD nv xop g c w xr xi Vr Vi Ir Ii Z1 Z2 XVr XVi XIr XIi SL.
  destruct (ac_named_ports t parts es on phs GR PL SO SC ND PHS _ _ _ _ _ _ _ Vr Vi Ir Ii XVr XVi XIr XIi SL) as (K & B).
  split; [exact Z1|]. split; [exact Z2|]. split; [|exact B].
  intros n H NG. destruct (REGD n H) as ([|i] & A); [exfalso; apply NG; apply (grounded_zero t n GR); exact A|].
  destruct (K n i A) as (K1 & K2). unfold small_signal in K1, K2. cbn [lsum] in K1, K2. lra.
Qed.

(** A solution with the sources off can be added to a solution. *)
Lemma ac_leaving_add : forall w Vr Vi Ir Ii Zr Zi Yr Yi n l,
  ac_leaving w true (fun n => Vr n + Zr n) (fun n => Vi n + Zi n) (fun n => Ir n + Yr n) (fun n => Ii n + Yi n) fst n l
      = ac_leaving w true Vr Vi Ir Ii fst n l + ac_leaving w false Zr Zi Yr Yi fst n l /\
  ac_leaving w true (fun n => Vr n + Zr n) (fun n => Vi n + Zi n) (fun n => Ir n + Yr n) (fun n => Ii n + Yi n) snd n l
      = ac_leaving w true Vr Vi Ir Ii snd n l + ac_leaving w false Zr Zi Yr Yi snd n l.
Proof.
  intros w Vr Vi Ir Ii Zr Zi Yr Yi n l. induction l as [|e l (IH1 & IH2)]; [cbn; lra|]. cbn [ac_leaving]. rewrite IH1, IH2.
  assert (T1 : ac_through w true (fun n => Vr n + Zr n) (fun n => Vi n + Zi n) (fun n => Ir n + Yr n) (fun n => Ii n + Yi n) e =
     (fst (ac_through w true Vr Vi Ir Ii e) + fst (ac_through w false Zr Zi Yr Yi e), snd (ac_through w true Vr Vi Ir Ii e) + snd (ac_through w false Zr Zi Yr Yi e))).
  { destruct e; cbn [ac_through fst snd]; f_equal; unfold Rdiv; try ring. unfold amplitude. destruct ac; ring. }
  unfold ac_leaving1. rewrite T1. cbn [fst snd]. repeat match goal with |- context [if ?b then _ else _] => destruct b end; lra.
Qed.
Lemma ac_law_add : forall w parts Vr Vi Ir Ii Zr Zi Yr Yi e, ac_law w true parts Vr Vi Ir Ii e -> ac_law w false parts Zr Zi Yr Yi e ->
  ac_law w true parts (fun n => Vr n + Zr n) (fun n => Vi n + Zi n) (fun n => Ir n + Yr n) (fun n => Ii n + Yi n) e.
Proof.
  intros w parts Vr Vi Ir Ii Zr Zi Yr Yi e A4 B4.
  assert (LK : forall I J id l, linked (fun n => I n + J n) id l = linked I id l + linked J id l).
  { intros I J id l. induction l as [|q l IH]; [cbn; lra|]. destruct q; cbn [linked]; rewrite IH; try reflexivity.
    repeat match goal with |- context [if ?b then _ else _] => destruct b end; ring. }
  destruct e; cbn [ac_law] in *; try exact Logic.I; rewrite ?LK.
  - destruct A4, B4. lra.
  - unfold amplitude in *. destruct ac; lra.
  - lra.
  - lra.
Qed.
Lemma ac_add : forall w g c parts Vr Vi Ir Ii Zr Zi Yr Yi, ac_laws w g c true parts Vr Vi Ir Ii -> ac_laws w g c false parts Zr Zi Yr Yi ->
  ac_laws w g c true parts (fun n => Vr n + Zr n) (fun n => Vi n + Zi n) (fun n => Ir n + Yr n) (fun n => Ii n + Yi n).
Proof.
  intros w g c parts Vr Vi Ir Ii Zr Zi Yr Yi (A1 & A2 & A3 & A4) (B1 & B2 & B3 & B4).
  split; [lra|]. split; [lra|]. split.
  - intros n H NG. destruct (A3 n H NG), (B3 n H NG). destruct (ac_leaving_add w Vr Vi Ir Ii Zr Zi Yr Yi n parts) as (T1 & T2). rewrite T1, T2. lra.
  - rewrite Forall_forall in *. intros e H. apply ac_law_add; auto.
Qed.

(** The table. *)
Lemma ac_file_written : forall angle deg headers size r rows,
  ac_file angle deg headers size (r :: rows) = written 0 headers (ac_line angle deg size r) (map (ac_line angle deg size) rows).
Proof.
  intros angle deg headers size r rows. unfold ac_file, written. cbn [fold_left fst snd].
  generalize (write_csv 0 [] (fst (ac_line angle deg size r)) (snd (ac_line angle deg size r)) headers false).
  induction rows as [|q rows IH]; intros f; [reflexivity|]. cbn [fold_left map fst snd]. apply IH.
Qed.
Lemma ac_line_nth : forall angle deg size r k, (k < size)%nat ->
  let s := ac_store angle deg (fst (snd r) k, snd (snd r) k) in
  nth (2 * k + 1) (snd (ac_line angle deg size r)) [] = [fst s] /\ nth (2 * k + 2) (snd (ac_line angle deg size r)) [] = [snd s].
Proof.
  intros angle deg size r k K s. unfold ac_line. cbn [snd].
  destruct (nth_pairs nat (list R) (fun i => [fst (ac_store angle deg (fst (snd r) i, snd (snd r) i))]) (fun i => [snd (ac_store angle deg (fst (snd r) i, snd (snd r) i))])
              (seq 0 size) k k) as (E1 & E2).
  { rewrite (nth_error_nth' (seq 0 size) 0%nat) by (rewrite seq_length; exact K). rewrite seq_nth by exact K. reflexivity. }
  replace (2 * k + 1)%nat with (S (2 * k)) by lia. replace (2 * k + 2)%nat with (S (2 * k + 1)) by lia. cbn [nth].
  split; apply nth_error_nth; assumption.
Qed.
Lemma ac_line_block : forall angle deg nodes ids size r, (size = List.length nodes + List.length ids)%nat -> PropsCsv.block (ac_headers nodes ids) (ac_line angle deg size r).
Proof.
  intros angle deg nodes ids size r E.
  assert (L : forall A B (f : A -> list B) l, (forall a, List.length (f a) = 2%nat) -> List.length (flat_map f l) = (2 * List.length l)%nat).
  { intros A B f l F. induction l as [|a l IH]; [reflexivity|]. cbn [flat_map]. rewrite app_length, IH, F. cbn [List.length]. lia. }
  split; unfold ac_line, ac_headers; cbn [snd fst List.length].
  - rewrite !L by reflexivity. rewrite seq_length, app_length, !map_length. lia.
  - constructor; [reflexivity|]. apply Forall_forall. intros v H. apply in_flat_map in H. destruct H as (i & _ & H). destruct H as [<-|[<-|[]]]; reflexivity.
Qed.
Lemma ac_samples : forall angle deg size rows k, (k < size)%nat ->
  samples (map (ac_line angle deg size) rows) (2 * k + 1) = map (fun r => fst (ac_store angle deg (fst (snd r) k, snd (snd r) k))) rows /\
  samples (map (ac_line angle deg size) rows) (2 * k + 2) = map (fun r => snd (ac_store angle deg (fst (snd r) k, snd (snd r) k))) rows.
Proof.
  intros angle deg size rows k K. unfold samples. induction rows as [|r rows (IH1 & IH2)]; [split; reflexivity|].
  cbn [map concat]. destruct (ac_line_nth angle deg size r k K) as (E1 & E2). rewrite E1, E2, IH1, IH2. split; reflexivity.
Qed.
Lemma ac_table : forall angle t es nodes ids rows, is_angle angle ->
  names_of t (seq 1 (get_nodes_number t - 1)) = Ok nodes -> map (fun e => list_ascii_of_string (lid e)) (filter is_vde es) = ids ->
  distinct nodes -> distinct ids -> Forall PropsResults.plain nodes -> Forall PropsResults.plain ids -> op_size t es = (List.length nodes + List.length ids)%nat ->
  rows <> [] ->
  (forall name, slower name = lit "f" -> ac_report angle false t es rows name = Ok (map (fun r => (fst r, 0)) rows)) /\
  (forall k n name, nth_error nodes k = Some n -> slower name = slower (lit "V" ++ n) -> ac_report angle false t es rows name = Ok (map (fun r => (fst (snd r) k, snd (snd r) k)) rows)) /\
  (forall j id name, nth_error ids j = Some id -> slower name = slower (lit "I(" ++ id ++ lit ")") ->
     ac_report angle false t es rows name = Ok (map (fun r => (fst (snd r) (List.length nodes + j)%nat, snd (snd r) (List.length nodes + j)%nat)) rows)).
Proof.
  intros angle t es nodes ids rows AN NS IDS DN DI PN PI_ SZ NE. destruct rows as [|r rows]; [congruence|].
  assert (BL : Forall (PropsCsv.block (ac_headers nodes ids)) (ac_line angle false (op_size t es) r :: map (ac_line angle false (op_size t es)) rows)).
  { constructor; [apply ac_line_block; exact SZ|]. apply Forall_map. apply Forall_forall. intros q _. apply ac_line_block. exact SZ. }
  destruct (C36_ac R 0 nodes ids _ _ DN DI PN PI_ BL) as ((F1 & F2 & _) & F0). cbv zeta in F1, F2, F0.
  change (ac_line angle false (op_size t es) r :: map (ac_line angle false (op_size t es)) rows) with (map (ac_line angle false (op_size t es)) (r :: rows)) in *.
  assert (VAL : forall k, (k < op_size t es)%nat ->
    ac_value_of (AcPolar (samples (map (ac_line angle false (op_size t es)) (r :: rows)) (2 * k + 1)) (samples (map (ac_line angle false (op_size t es)) (r :: rows)) (2 * k + 2)))
    = map (fun q => (fst (snd q) k, snd (snd q) k)) (r :: rows)).
  { intros k K. destruct (ac_samples angle false (op_size t es) (r :: rows) k K) as (E1 & E2). rewrite E1, E2. cbn [ac_value_of].
    generalize (r :: rows). intros l. induction l as [|q l IH]; [reflexivity|]. cbn [map combine]. rewrite IH. f_equal.
    pose proof (C85_round_trip angle (fst (snd q) k, snd (snd q) k) AN) as C. unfold ac_read in *. exact C. }
  unfold ac_report. rewrite NS, IDS. cbn [bindr]. rewrite ac_file_written. split; [|split].
  - intros name E. rewrite (F0 name E). cbn [bindr ac_value_of]. f_equal.
    generalize (r :: rows). intros l. unfold samples. induction l as [|q l IH]; [reflexivity|]. cbn [map concat ac_line snd nth app]. rewrite IH. reflexivity.
  - intros k n name H E. rewrite (F1 k n name H E). cbn [bindr]. rewrite VAL; [reflexivity|].
    assert (k < List.length nodes)%nat by (apply nth_error_Some; congruence). lia.
  - intros j id name H E. rewrite (F2 j id name H E). cbn [bindr]. rewrite VAL; [reflexivity|].
    assert (j < List.length ids)%nat by (apply nth_error_Some; congruence). lia.
Qed.

(** * C193 *)
Theorem C193_ac : forall fs other fuel filename parts t es, load fs other fuel filename = Ok (parts, t, es) ->
  (* nothing is said of subcircuits and user-defined elements, except that names are words in lower case *)
  (forall line l, other line = Ok l -> Forall word_names l) ->
  Forall (ac_sound parts) parts ->
  forall csolve o maxit fuel' cmin gmin angle start stop points stype x0 rows,
  csolver_ok (op_size t es) csolve -> is_angle angle -> o_std o = true ->
  ac_run csolve o false maxit fuel' cmin gmin parts t es start stop points stype x0 = Ok (Some rows) ->
  let c := Rmax 0 cmin in
  let report := ac_report angle false t es rows in
  exists ws, omegas fuel' start stop points stype = Ok ws /\
    (forall name, slower name = lit "f" -> report name = Ok (map (fun w => (w / (2 * Rtrigo1.PI), 0)) ws)) /\
    ((forall w, In w ws -> ac_well_posed w gmin c parts) ->
     (forall n name, In n (node_list parts) -> n <> lit "0" -> slower name = slower (lit "V" ++ n) ->
        exists l, report name = Ok l /\
          Forall2 (fun w z => forall Vr Vi Ir Ii, ac_laws w gmin c true parts Vr Vi Ir Ii -> z = (Vr n, Vi n)) ws l) /\
     (forall id name, In id (current_ids parts) -> slower name = slower (lit "I(" ++ id ++ lit ")") ->
        exists l, report name = Ok l /\
          Forall2 (fun w z => forall Vr Vi Ir Ii, ac_laws w gmin c true parts Vr Vi Ir Ii -> z = (Ir id, Ii id)) ws l)).
Proof.
  intros fs other fuel filename parts t es LD OT SC csolve o maxit fuel' cmin gmin angle start stop points stype x0 rows CS AN OS RUN c report.
  assert (OL : forall line l, other line = Ok l -> Forall lower_case l) by (intros line l H; eapply Forall_impl; [|exact (OT line l H)]; intros e He; apply He).
  assert (OP : forall line l, other line = Ok l -> Forall plain_names l) by (intros line l H; eapply Forall_impl; [|exact (OT line l H)]; intros e He; apply He).
  assert (SO : Forall (proper parts) parts).
  { pose proof (load_lower _ _ _ _ _ _ _ OL LD) as LC. apply Forall_forall. rewrite Forall_forall in SC, LC. intros e H. split; [auto|apply SC; exact H]. }
  pose proof (load_plain _ _ _ _ _ _ _ OP LD) as PN.
  destruct (load_facts _ _ _ _ _ _ _ LD) as (G & NV & PL & ND & MEN).
  destruct (proper_wf written_dc t parts es G PL SO) as (W & SA & NH & NL).
  destruct (result_names t parts es G PL SO PN ND MEN) as (ns & NS & LN & DN & PNS & IDS & DI & PIS & LEN & REGD & IDX).
  pose proof (grounded_number t G) as NZ. set (nv := get_nodes_number t) in *.
  assert (SZ : op_size t es = (List.length ns + List.length (current_ids parts))%nat) by (unfold op_size; fold nv; lia).
  assert (NDV : NoDup (map (fun e => upper (lid e)) (vdes es))).
  { rewrite (es_vdes written_dc t parts es PL). apply upper_nodup; [apply current_lower; exact SO|apply current_nodup; exact ND]. }
  assert (PAIR : forall e, In e parts -> exists l, In l es /\ placed written_dc t e l).
  { clear - PL. induction PL as [|e0 l0 p0 e1 P F IH]; intros e H; [destruct H|]. destruct H as [->|H]; [exists l0; split; [left|]; auto|].
    destruct (IH e H) as (l & A & C). exists l. split; [right|]; auto. }
  assert (PAIR' : forall l, In l es -> exists e, In e parts /\ placed written_dc t e l).
  { clear - PL. induction PL as [|e0 l0 p0 e1 P F IH]; intros l H; [destruct H|]. destruct H as [->|H]; [exists e0; split; [left|]; auto|].
    destruct (IH l H) as (e & A & C). exists e. split; [right|]; auto. }
  assert (WK : Forall (wf_coupling es) es).
  { apply Forall_forall. intros l H. destruct (PAIR' l H) as (e & IE & P). destruct l; try exact Logic.I.
    destruct e; cbn [placed] in P.
    4: { destruct P as (m' & E & _). injection E as -> -> -> _ _. rewrite Forall_forall in SC. destruct (SC _ IE) as (_ & NEQ & (a1 & b1 & u1 & c1 & H1) & (a2 & b2 & u2 & c2 & H2)).
         cbn [wf_coupling].
         assert (IND : forall id a b u ic, In (Netlist.PL id a b u ic) parts -> (exists e1, In e1 es /\ is_inductor e1 = true /\ lid e1 = ss id) /\ slower id = id).
         { intros id' a b u ic H'. destruct (PAIR _ H') as (q & IQ & i & j & -> & _). split; [eexists; split; [exact IQ|split; reflexivity]|].
           rewrite Forall_forall in SO. destruct (SO _ H') as ((K & _) & _). exact K. }
         destruct (IND _ _ _ _ _ H1) as (I1 & L1). destruct (IND _ _ _ _ _ H2) as (I2 & L2). split; [exact I1|]. split; [exact I2|].
         intros E. apply NEQ. apply lower_names; assumption. }
    all: first [destruct P as (i1 & j1 & E & _); discriminate E | destruct P as (i1 & j1 & i2 & j2 & E & _); discriminate E | destruct P as (i1 & j1 & E); discriminate E]. }
  unfold ac_run in RUN.
  assert (SZC : (nv + n_vde es - 1)%nat = op_size t es) by reflexivity.
  pose proof (C133_points_solve_circuit o maxit fuel' csolve cmin gmin nv es [] (ac_ph parts) (Ok None) start stop points stype x0 rows OS) as C133.
  rewrite SZC in C133. specialize (C133 CS NZ W NDV WK (Forall_nil _) (Forall_nil _) RUN).
  destruct C133 as (ws & xop & OM & MF & _ & PT). cbv zeta in PT. exists ws. split; [exact OM|].
  assert (NE : rows <> []).
  { intros E. subst rows. destruct ws; [|discriminate MF]. unfold ac_analysis in RUN. rewrite OM in RUN. cbn [bindr] in RUN.
    destruct (generate_mna_and_N (get_nodes_number t) es) as [mn|]; [|discriminate RUN]. cbn [bindr] in RUN.
    destruct (generate_AC cmin (get_nodes_number t) es) as [AC|]; [|discriminate RUN]. cbn [bindr] in RUN. cbv zeta in RUN. destruct x0; discriminate RUN. }
  destruct (ac_table angle t es ns (current_ids parts) rows AN NS IDS DN DI PNS PIS SZ NE) as (T0 & T1 & T2).
  assert (FW : Forall2 (fun w (r : R * cvec) => 2 * Rtrigo1.PI * fst r = w /\ fst r = w / (2 * Rtrigo1.PI) /\ In r rows) ws rows).
  { assert (K : forall l l', map fst l' = map (fun w => w / Rtrigo1.PI / 2) l -> incl l' rows ->
        Forall2 (fun w (r : R * cvec) => 2 * Rtrigo1.PI * fst r = w /\ fst r = w / (2 * Rtrigo1.PI) /\ In r rows) l l').
    { induction l as [|w l IH]; intros [|r l'] E IN; try discriminate E; constructor.
      - cbn [map] in E. injection E as E _. rewrite E. split; [field; apply PI_neq0|]. split; [field; apply PI_neq0|apply IN; left; reflexivity].
      - cbn [map] in E. injection E as _ E. apply IH; [exact E|]. intros z Z. apply IN. right. exact Z. }
    apply K; [exact MF|apply incl_refl]. }
  split.
  { intros name E. unfold report. rewrite (T0 name E). f_equal. clear - FW. induction FW as [|w r ws' rows' (_ & E & _) F IH]; [reflexivity|]. cbn [map]. rewrite IH, E. reflexivity. }
  intros WP.
  assert (CM : (if Rlt_dec 0 cmin then cmin else 0) = c).
  { unfold c, Rmax. destruct (Rlt_dec 0 cmin), (Rle_dec 0 cmin); lra. }
  rewrite CM in PT.
  assert (PHon : forall e l, In e parts -> placed written_dc t e l -> ac_ph parts l = if true then ac_field e else None).
  { intros e l IE P. apply ac_ph_ok; [exact ND|exact IE|]. apply (placed_lid written_dc t e l P). }
  assert (PHoff : forall (e : pelem) (l : lelem), In e parts -> placed written_dc t e l -> (fun _ => None) l = if false then ac_field e else None) by reflexivity.
  set (V := fun (x : vec) n => volt t (with_ground x) n). set (A := fun (x : vec) id => amp nv es (with_ground x) id).
  assert (XV : forall x n i, at_node t n i -> with_ground x i = V x n) by (intros x n i H; unfold V, volt; unfold at_node in H; rewrite H; reflexivity).
  assert (XI : forall x k id, nth_error (current_ids parts) k = Some id -> with_ground x (nv + k)%nat = A x id).
  { intros x k id H. unfold A, amp. pose proof (es_index (fun _ => 0) written_dc t parts es PL SO ND k id H) as E. rewrite freeze_vde_index in E. rewrite E. reflexivity. }
  assert (V0 : forall x, V x (lit "0") = 0) by (intros x; unfold V, volt; destruct G as (_ & GZ); unfold at_node in GZ; rewrite GZ; reflexivity).
  assert (MAIN : forall f x, In (f, x) rows -> ac_well_posed (2 * Rtrigo1.PI * f) gmin c parts ->
    forall Vr Vi Ir Ii, ac_laws (2 * Rtrigo1.PI * f) gmin c true parts Vr Vi Ir Ii ->
      (forall n, In n (node_list parts) -> V (fst x) n = Vr n /\ V (snd x) n = Vi n) /\ (forall id, In id (current_ids parts) -> A (fst x) id = Ir id /\ A (snd x) id = Ii id)).
  { intros f x IN (V1 & V2 & I1 & I2 & L & UN) Vr Vi Ir Ii L'. destruct (UN _ _ _ _ L') as (U1 & U2).
    destruct (PT f x IN) as [SL|(_ & z & i & SL & Hi & NZ')].
    - pose proof (ac_named t parts es true (ac_ph parts) G PL SO SC ND PHon REGD _ _ _ _ _ _ (V (fst x)) (V (snd x)) (A (fst x)) (A (snd x)) (V0 _) (V0 _)
        (XV _) (XV _) (XI _) (XI _) SL) as K. destruct (UN _ _ _ _ K) as (U3 & U4).
      split; [intros n H; destruct (U1 n H), (U3 n H)|intros id H; destruct (U2 id H), (U4 id H)]; split; congruence.
    - exfalso.
      pose proof (ac_named t parts es false (fun _ => None) G PL SO SC ND PHoff REGD _ _ _ _ _ _ (V (fst z)) (V (snd z)) (A (fst z)) (A (snd z)) (V0 _) (V0 _)
        (XV _) (XV _) (XI _) (XI _) SL) as K. pose proof (ac_add _ _ _ _ _ _ _ _ _ _ _ _ L K) as K2. destruct (UN _ _ _ _ K2) as (U3 & U4).
      assert (fst z i = 0 /\ snd z i = 0) as (Q1 & Q2); [|destruct NZ'; congruence].
      destruct (lt_dec (S i) nv) as [IN'|OUT].
      + pose proof (proj1 (grounded_range t (S i) G) IN') as (n & At). destruct (U3 n (MEN n _ At)) as (U5 & U6). cbv beta in U5, U6.
        rewrite <- (XV (fst z) _ _ At) in U5. rewrite <- (XV (snd z) _ _ At) in U6. cbn [with_ground] in U5, U6. lra.
      + assert (Kl : (S i - nv < List.length (current_ids parts))%nat) by (rewrite LEN; lia).
        destruct (nth_error (current_ids parts) (S i - nv)) as [id|] eqn:E; [|apply nth_error_None in E; lia].
        destruct (U4 id (nth_error_In _ _ E)) as (U5 & U6). cbv beta in U5, U6.
        rewrite <- (XI (fst z) _ _ E) in U5. rewrite <- (XI (snd z) _ _ E) in U6. replace (nv + (S i - nv))%nat with (S i) in U5, U6 by lia. cbn [with_ground] in U5, U6. lra. }
  split.
  - intros n name H NG E. destruct (IDX n H NG) as (k & Ek & At). eexists. split; [exact (T1 k n name Ek E)|].
    clear - FW MAIN H At XV WP. revert WP. induction FW as [|w r ws' rows' (E1 & _ & IN) F IH]; intros WP; [constructor|]. cbn [map].
    constructor; [|apply IH; intros w' Hw; apply WP; right; exact Hw].
    intros Vr Vi Ir Ii L. destruct r as (f, x). cbn [fst snd] in *. subst w. destruct (MAIN f x IN (WP _ (or_introl eq_refl)) _ _ _ _ L) as (M & _). destruct (M n H) as (M1 & M2).
    rewrite <- (XV (fst x) _ _ At) in M1. rewrite <- (XV (snd x) _ _ At) in M2. cbn [with_ground] in M1, M2. cbn [fst snd]. f_equal; assumption.
  - intros id name H E. apply In_nth_error in H. destruct H as (k & H). eexists. split; [exact (T2 k id name H E)|].
    clear - FW MAIN H XI WP LN NZ. revert WP. induction FW as [|w r ws' rows' (E1 & _ & IN) F IH]; intros WP; [constructor|]. cbn [map].
    constructor; [|apply IH; intros w' Hw; apply WP; right; exact Hw].
    intros Vr Vi Ir Ii L. destruct r as (f, x). cbn [fst snd] in *. subst w. destruct (MAIN f x IN (WP _ (or_introl eq_refl)) _ _ _ _ L) as (_ & M).
    destruct (M id (nth_error_In _ _ H)) as (M1 & M2). rewrite <- (XI (fst x) _ _ H) in M1. rewrite <- (XI (snd x) _ _ H) in M2.
    replace (nv + k)%nat with (S (List.length ns + k)) in M1, M2 by lia. cbn [with_ground] in M1, M2. cbn [fst snd]. f_equal; assumption.
Qed.
Print Assumptions C193_ac.

(** ** An example: 2 A into a resistor and a capacitor in parallel, at 1 Hz. *)
Definition tank : list str := [lit "tank"; lit "I1 A 0 type=idc idc=7 iac=2"; lit "R1 a 0 1"; lit "C1 a 0 1"; lit ".ac lin 1 1 1"].
Definition tank_parts : list pelem :=
  [PI (lit "i1") (lit "a") (lit "0") (Some (7, 0)%Z) (Some (2, 0)%Z) None; PR (lit "r1") (lit "a") (lit "0") (1, 0)%Z; PC (lit "c1") (lit "a") (lit "0") (1, 0)%Z None].
Definition tank_es : list lelem := [EI "i1" 1 0 (dR (7, 0)%Z) false; ER "r1" 1 0 (dR (1, 0)%Z); EC "c1" 1 0 (dR (1, 0)%Z)].

Lemma tank_load : load (fun _ => Some tank) (fun _ => Err NetlistParseError) 1 (lit "f") = Ok (tank_parts, shunt_t, tank_es).
Proof.
  unfold load.
  match goal with |- context [read_netlist ?a ?b ?c] => let r := eval vm_compute in (read_netlist a b c) in change (read_netlist a b c) with r end. cbn [bindr r_models r_lines map parse_models fst snd].
  match goal with |- context [main_netlist_parser ?a ?b ?c ?d] => let r := eval vm_compute in (main_netlist_parser a b c d) in change (main_netlist_parser a b c d) with r end. cbn [bindr].
  cbv -[dR]. reflexivity.
Qed.
Lemma tank_mats : exists m N AC, generate_mna_and_N 2 tank_es = Ok (m, N) /\ generate_AC 0 2 tank_es = Ok AC /\ m 1%nat 1%nat = 1 /\ AC 1%nat 1%nat = 1.
Proof.
  do 3 eexists. split; [reflexivity|]. split; [reflexivity|]. split.
  - cbn [fst]. simpl. unfold madd, mset, mzero. simpl. rewrite dR_0. field.
  - unfold add_cmin. destruct (Rlt_dec 0 0); [lra|]. simpl. unfold madd, mset, mzero. simpl. rewrite dR_0. ring.
Qed.
Lemma tank_run : exists x, ac_run csolve1 ac_opts false 20 5 0 0 tank_parts shunt_t tank_es 1 1 1 (Some "lin"%string) None = Ok (Some [(1, x)]).
Proof.
  destruct tank_mats as (m & N & AC & GE & GA & M1 & A1).
  unfold ac_run, ac_analysis. change (get_nodes_number shunt_t) with 2%nat. rewrite one_omega, GE, GA. cbn [bindr fst]. cbv zeta. change (2 + n_vde tank_es - 1)%nat with 1%nat.
  cbn [ac_points]. unfold dc_solve.
  change (set_next_solve_method ac_opts get_solve_methods) with (mkMeths true false false false 0 false false 0).
  cbn [dc_loop current_req std_en length]. unfold mdn_ac at 1. unfold csolve1 at 1.
  assert (E1 : fst (ac_sys (reduce_mat m) (reduce_mat AC) mzero (build_gmin_matrix 2 0) (2 * Rtrigo1.PI * 1) RStd) 0%nat 0%nat = 1).
  { cbn [ac_sys fst]. unfold reduce_mat, mzero. rewrite M1. unfold build_gmin_matrix. simpl. unfold mset. simpl. ring. }
  rewrite E1. match goal with |- context [Req_EM_T ?u 0] => destruct (Req_EM_T u 0) as [Z|_] end.
  { exfalso. match type of Z with 1 * 1 + ?q * ?q = 0 => pose proof (Rle_0_sqr q) as Q; unfold Rsqr in Q; lra end. }
  cbn [advance s_en g_en andb app]. replace (2 * Rtrigo1.PI * 1 / Rtrigo1.PI / 2) with 1 by (field; apply PI_neq0). eexists. reflexivity.
Qed.
Lemma tank_iff : forall w Vr Vi Ir Ii, ac_laws w 0 0 true tank_parts Vr Vi Ir Ii <->
  (Vr (lit "0") = 0 /\ Vi (lit "0") = 0 /\ Vr (lit "a") = - 2 / (1 + w * w) /\ Vi (lit "a") = 2 * w / (1 + w * w)).
Proof.
  intros w Vr Vi Ir Ii. assert (D : 1 + w * w <> 0) by nra. split.
  - intros (A & B & C & _). destruct (C (lit "a")) as (K1 & K2); [left; reflexivity|discriminate|].
    unfold tank_parts in K1, K2. cbn [ac_leaving] in K1, K2. unfold ac_leaving1 in K1, K2. cbn [first_end second_end ac_through fst snd amplitude] in K1, K2.
    at_names_in K1. at_names_in K2. cbv iota in K1, K2. rewrite !dR_0 in *. rewrite A, B in *.
    assert (E1 : Vr (lit "a") - w * Vi (lit "a") = -2) by lra. assert (E2 : Vi (lit "a") = - w * Vr (lit "a")) by lra.
    split; [reflexivity|]. split; [reflexivity|]. rewrite E2 in E1.
    assert (E3 : Vr (lit "a") = -2 / (1 + w * w)) by (apply (Rmult_eq_reg_r (1 + w * w)); [|exact D]; unfold Rdiv; rewrite Rmult_assoc, Rinv_l by exact D; lra).
    split; [exact E3|]. rewrite E2, E3. field. exact D.
  - intros (A & B & E1 & E2). split; [exact A|]. split; [exact B|]. split.
    + intros n H NG. assert (n = lit "a") as ->.
      { cbn in H. repeat (destruct H as [<-|H]; [first [reflexivity | exfalso; apply NG; reflexivity]|]). destruct H. }
      unfold tank_parts. cbn [ac_leaving]. unfold ac_leaving1. cbn [first_end second_end ac_through fst snd amplitude].
      at_names. cbv iota. rewrite !dR_0, A, B, E1, E2. split; field; exact D.
    + repeat constructor.
Qed.
Example C193_example : exists x,
  load (fun _ => Some tank) (fun _ => Err NetlistParseError) 1 (lit "f") = Ok (tank_parts, shunt_t, tank_es) /\
  Forall (ac_sound tank_parts) tank_parts /\ (forall w, ac_well_posed w 0 0 tank_parts) /\
  ac_run csolve1 ac_opts false 20 5 0 0 tank_parts shunt_t tank_es 1 1 1 (Some "lin"%string) None = Ok (Some [(1, x)]) /\
  forall angle, is_angle angle ->
    let w := 2 * Rtrigo1.PI in
    ac_report angle false shunt_t tank_es [(1, x)] (lit "F") = Ok [(1, 0)] /\
    ac_report angle false shunt_t tank_es [(1, x)] (lit "VA") = Ok [(- 2 / (1 + w * w), 2 * w / (1 + w * w))].
Proof.
  destruct tank_run as (x & RUN). exists x. split; [exact tank_load|].
  assert (SO : Forall (ac_sound tank_parts) tank_parts) by (repeat constructor).
  split; [exact SO|].
  assert (WP : forall w, ac_well_posed w 0 0 tank_parts).
  { intros w. exists (fun n => if streqb n (lit "a") then - 2 / (1 + w * w) else 0), (fun n => if streqb n (lit "a") then 2 * w / (1 + w * w) else 0), (fun _ => 0), (fun _ => 0). split.
    - apply tank_iff. at_names. repeat split.
    - intros Vr Vi Ir Ii L. apply tank_iff in L. destruct L as (A & B & C & E). split; [|intros id []].
      intros n H. cbn in H. repeat (destruct H as [<-|H]; [at_names; cbv iota; split; assumption|]). destruct H. }
  split; [exact WP|]. split; [exact RUN|]. intros angle AN w.
  destruct (C193_ac _ _ _ _ _ _ _ tank_load ltac:(discriminate) SO csolve1 ac_opts 20 5 0 0 angle 1 1 1 (Some "lin"%string) None [(1, x)] csolve1_ok AN eq_refl RUN) as (ws & OM & F & K).
  rewrite one_omega in OM. injection OM as <-. replace (Rmax 0 0) with 0 in K by (unfold Rmax; destruct (Rle_dec 0 0); reflexivity).
  destruct (K (fun w _ => WP w)) as (K1 & _).
  destruct (K1 (lit "a") (lit "VA")) as (l & R & F2); [left; reflexivity|discriminate|reflexivity|].
  split.
  - specialize (F (lit "F") eq_refl). cbn [map] in F. replace (2 * Rtrigo1.PI * 1 / (2 * Rtrigo1.PI)) with 1 in F by (field; apply PI_neq0). exact F.
  - rewrite R. f_equal. inversion F2 as [|? z ? l' Hz F3]; subst. inversion F3; subst. f_equal.
    destruct (WP (2 * Rtrigo1.PI * 1)) as (Vr & Vi & Ir & Ii & L & _). rewrite (Hz _ _ _ _ L). apply tank_iff in L. destruct L as (_ & _ & E1 & E2).
    rewrite E1, E2. unfold w. rewrite Rmult_1_r. reflexivity.
Qed.

(** Coupled inductors, 4 H and 9 H with k = 1/2: the flux of the first is 4 I(l1) + 3 I(l2). *)
Definition coupled : list str :=
  [lit "coupled"; lit "v1 a 0 type=vdc vdc=0 vac=1"; lit "l1 a 0 4"; lit "l2 b 0 9"; lit "k1 L1 L2 0.5"; lit "r1 b 0 1"].
Definition coupled_parts : list pelem :=
  [PV (lit "v1") (lit "a") (lit "0") (Some (0, 0)%Z) (Some (1, 0)%Z) None; PL (lit "l1") (lit "a") (lit "0") (4, 0)%Z None; PL (lit "l2") (lit "b") (lit "0") (9, 0)%Z None;
   PK (lit "k1") (lit "l1") (lit "l2") (5, -1)%Z (4, 0)%Z (9, 0)%Z; PR (lit "r1") (lit "b") (lit "0") (1, 0)%Z].
Example C193_coupled :
  (exists t es, load (fun _ => Some coupled) (fun _ => Err NetlistParseError) 1 (lit "f") = Ok (coupled_parts, t, es)) /\
  Forall (ac_sound coupled_parts) coupled_parts /\ forall I, linked I (lit "l1") coupled_parts = 3 * I (lit "l2").
Proof.
  split; [|split].
  - do 2 eexists. unfold load.
    match goal with |- context [read_netlist ?a ?b ?c] => let r := eval vm_compute in (read_netlist a b c) in change (read_netlist a b c) with r end. cbn [bindr r_models r_lines map parse_models fst snd].
    match goal with |- context [main_netlist_parser ?a ?b ?c ?d] => let r := eval vm_compute in (main_netlist_parser a b c d) in change (main_netlist_parser a b c d) with r end. cbn [bindr].
    cbv -[dR mutual]. reflexivity.
  - repeat constructor; try discriminate; do 4 eexists; unfold coupled_parts; cbn; eauto.
  - intros I. unfold coupled_parts. cbn [linked]. at_names. cbv iota. rewrite !dR_0. replace (4 * 9) with (6 * 6) by lra. rewrite sqrt_square by lra.
    unfold dR. cbn [fst snd]. change (powerRZ 10 (-1)) with (/ (10 * 1)). field.
Qed.
