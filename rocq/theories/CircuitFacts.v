(** Proofs about circuit edits and lookups. *)
From Coq Require Import String Ascii List Bool Arith QArith Lia.
From Verif Require Import Base BaseFacts Nodes NodesFacts Circuit.
Import ListNotations.
Open Scope nat_scope.

Local Notation get := (dget nkey_eqb).

(** ** Partial bijections *)
Record pb (d : ndict) : Prop := {
  pb_nd : NoDup (dkeys d);
  pb_str : forall s v, get d (KStr s) = Some v ->
             exists i, v = KInt i /\ get d (KInt i) = Some (KStr s);
  pb_int : forall i v, get d (KInt i) = Some v ->
             exists s, v = KStr s /\ get d (KStr s) = Some (KInt i)
}.

Lemma register_NoDup : forall d i s, NoDup (dkeys d) -> NoDup (dkeys (register d i s)).
Proof. intros. unfold register. apply (dset_NoDup _ nkey_eqb_spec), (dset_NoDup _ nkey_eqb_spec). assumption. Qed.

Lemma tinv_pb : forall t, tinv t -> NoDup (dkeys (nodes_dict t)) -> pb (nodes_dict t).
Proof.
  intros t [g [m I]] ND. constructor; auto.
  - apply (ni_str _ _ _ I).
  - apply (ni_int _ _ _ I).
Qed.

Lemma add_node_NoDup : forall t n, NoDup (dkeys (nodes_dict t)) ->
  NoDup (dkeys (nodes_dict (fst (add_node t n)))).
Proof.
  intros t [s|] ND; simpl; auto.
  destruct (get (nodes_dict t) (KStr s)) as [[?|?]|]; simpl; auto.
  apply register_NoDup; auto.
Qed.

Lemma pop_node_spec : forall d n, pb d ->
  pb (fst (pop_node d n)) /\
  (forall i, i <> n -> get (fst (pop_node d n)) (KInt i) = get d (KInt i)).
Proof.
  intros d n P. unfold pop_node.
  destruct (get d (KInt n)) as [nm|] eqn:E; simpl; [|auto].
  destruct (pb_int _ P _ _ E) as [s [-> Hs]].
  assert (M1 : dmem nkey_eqb d (KStr s) = true) by (unfold dmem; rewrite Hs; reflexivity).
  rewrite M1.
  assert (M2 : dmem nkey_eqb (ddel nkey_eqb d (KStr s)) (KInt n) = true).
  { unfold dmem. rewrite (dget_ddel _ nkey_eqb_spec) by (apply pb_nd; auto).
    cbn [nkey_eqb]. rewrite E. reflexivity. }
  rewrite M2. cbn [fst].
  assert (G : forall k, get (ddel nkey_eqb (ddel nkey_eqb d (KStr s)) (KInt n)) k =
                if nkey_eqb k (KInt n) then None else
                if nkey_eqb k (KStr s) then None else get d k).
  { intros k. rewrite (dget_ddel _ nkey_eqb_spec).
    - rewrite (dget_ddel _ nkey_eqb_spec) by (apply pb_nd; auto). reflexivity.
    - apply (ddel_NoDup nkey_eqb). apply pb_nd; auto. }
  split.
  - constructor.
    + apply (ddel_NoDup nkey_eqb), (ddel_NoDup nkey_eqb). apply pb_nd; auto.
    + intros u v. rewrite G. cbn [nkey_eqb].
      destruct (String.eqb_spec u s); [discriminate|].
      intros H. destruct (pb_str _ P _ _ H) as [i [-> Hi]].
      exists i. split; [reflexivity|]. rewrite G. cbn [nkey_eqb].
      destruct (Nat.eqb_spec i n) as [->|]; [congruence|exact Hi].
    + intros i v. rewrite G. cbn [nkey_eqb].
      destruct (Nat.eqb_spec i n); [discriminate|].
      intros H. destruct (pb_int _ P _ _ H) as [u [-> Hu]].
      exists u. split; [reflexivity|]. rewrite G. cbn [nkey_eqb].
      destruct (String.eqb_spec u s) as [->|]; [congruence|exact Hu].
  - intros i Hi. rewrite G. cbn [nkey_eqb].
    destruct (Nat.eqb_spec i n); [contradiction|reflexivity].
Qed.

Lemma pop_nodes_spec : forall ns d, pb d ->
  pb (fst (pop_nodes d ns)) /\
  (forall i, ~ In i ns -> get (fst (pop_nodes d ns)) (KInt i) = get d (KInt i)).
Proof.
  induction ns as [|n ns IH]; intros d P; simpl; [auto|].
  pose proof (pop_node_spec d n P) as [P1 G1].
  destruct (pop_node d n) as [d1 [u|e]]; simpl in *.
  - destruct (IH d1 P1) as [P2 G2]. split; [exact P2|].
    intros i Hi. rewrite G2 by tauto. apply G1. intro; subst; tauto.
  - split; [exact P1|]. intros i Hi. apply G1. intro; subst; tauto.
Qed.

(** ** Node additions seen from the circuit *)
Definition reg (c : circ) (i : nat) : Prop := get (nodes_dict (tab c)) (KInt i) <> None.

Definition cwf (c : circ) : Prop := tinv (tab c) /\ NoDup (dkeys (nodes_dict (tab c))).

Lemma cadd_node_wf : forall c s, cwf c ->
  exists c' i, cadd_node c (Text s) = (c', Ok i) /\ cwf c' /\
    elems c' = elems c /\ models c' = models c /\ reg c' i /\
    ext_node_to_int (tab c') s = Ok i /\
    (forall j, reg c j -> reg c' j).
Proof.
  intros c s [T ND]. unfold cadd_node.
  destruct (add_ok (tab c) s T) as [i [H1 H2]].
  exists (set_tab c (fst (add_node (tab c) (Text s)))), i.
  assert (T' : tinv (fst (add_node (tab c) (Text s)))) by (apply add_node_tinv; auto).
  repeat split; auto.
  - rewrite H1. reflexivity.
  - apply add_node_NoDup; auto.
  - apply (registered_int_get _ _ T'). unfold registered_int.
    rewrite (proj1 (ext_int_inverse _ _ _ T') H2). reflexivity.
  - intros j Hj. unfold reg in *. simpl.
    destruct (get (nodes_dict (tab c)) (KStr s)) as [v|] eqn:E.
    + destruct v; simpl; exact Hj.
    + simpl. rewrite get_register. cbn [nkey_eqb].
      destruct (j =? fresh_int (nodes_dict (tab c)) s); [discriminate|exact Hj].
Qed.

(** A two-terminal linear element whose nodes are registered. *)
Definition two_ok (c : circ) (e : celem) : Prop :=
  exists i j, at_n1 e = Some i /\ at_n2 e = Some j /\ at_sn1 e = None /\ at_sn2 e = None /\
              nonlin e = false /\ reg c i /\ reg c j.

Definition is_add (o : cop) : Prop := match o with Rem _ => False | _ => True end.

Definition two_terminal_op (o : cop) : Prop :=
  match o with AddVC _ _ _ _ _ _ _ | AddD _ _ _ _ => False | _ => True end.

Definition op_names (o : cop) : list string :=
  match o with
  | AddR _ a b _ | AddC _ a b _ | AddB _ a b _ | AddI _ a b _ | AddD _ a b _ => [a; b]
  | AddVC _ _ a b s t _ => [a; b; s; t]
  | Rem _ => []
  end.

(** No step introduces a node name that is not registered at that moment. *)
Fixpoint no_new_names (ops : list cop) (c : circ) : Prop :=
  match ops with
  | [] => True
  | o :: ops' =>
      (forall s, In s (op_names o) -> isOk (ext_node_to_int (tab c) s) = true) /\
      no_new_names ops' (step_cop c o)
  end.

Lemma two_ok_mono : forall c c' e,
  (forall j, reg c j -> reg c' j) -> two_ok c e -> two_ok c' e.
Proof.
  intros c c' e M (i & j & H1 & H2 & H3 & H4 & H5 & H6 & H7).
  exists i, j. repeat split; auto.
Qed.

Ltac addn c s W c' i :=
  let H := fresh "H" in let W' := fresh "W" in let E := fresh "E" in
  destruct (cadd_node_wf c s W) as (c' & i & H & W' & E & ? & ? & ? & ?);
  rewrite H; cbn [cbind].

Lemma add_step_wf : forall o c, is_add o -> cwf c -> cwf (step_cop c o).
Proof.
  intros [id a b v|id a b v|id a b v|id a b v|vd id a b s t v|id a b l|id] c A W;
    simpl; try contradiction.
  - unfold add_resistor. addn c a W c1 i. addn c1 b W0 c2 j.
    destruct (Qeq_bool v 0); exact W1.
  - unfold add_capacitor. destruct (Qeq_bool v 0); [exact W|].
    addn c a W c1 i. addn c1 b W0 c2 j. exact W1.
  - unfold add_branch. addn c a W c1 i. addn c1 b W0 c2 j. exact W1.
  - unfold add_isource. addn c a W c1 i. addn c1 b W0 c2 j. exact W1.
  - unfold add_vc. addn c a W c1 i. addn c1 b W0 c2 j. addn c2 s W1 c3 k.
    addn c3 t W2 c4 l. exact W3.
  - unfold add_diode. addn c a W c1 i. addn c1 b W0 c2 j.
    destruct (existsb (String.eqb l) (models c2)); exact W1.
Qed.

Lemma Forall_two_app : forall c c' id v i j q,
  (forall j, reg c j -> reg c' j) -> elems c' = elems c ->
  Forall (two_ok c) (elems c) -> reg c' i -> reg c' j ->
  Forall (two_ok (append c' (two_term id v i j q))) (elems c' ++ [two_term id v i j q]).
Proof.
  intros c c' id v i j q M E F Hi Hj. apply Forall_app. split.
  - rewrite E. eapply Forall_impl; [|exact F]. intros e He.
    eapply two_ok_mono; [|exact He]. exact M.
  - constructor; [|constructor]. exists i, j. repeat split; auto.
Qed.

Lemma Forall_two_mono : forall c c', (forall j, reg c j -> reg c' j) -> elems c' = elems c ->
  Forall (two_ok c) (elems c) -> Forall (two_ok c') (elems c').
Proof.
  intros c c' M E F. rewrite E. eapply Forall_impl; [|exact F].
  intros e He. eapply two_ok_mono; eauto.
Qed.

Lemma add_step_two : forall o c, is_add o -> two_terminal_op o -> cwf c ->
  Forall (two_ok c) (elems c) -> Forall (two_ok (step_cop c o)) (elems (step_cop c o)).
Proof.
  intros [id a b v|id a b v|id a b v|id a b v|vd id a b s t v|id a b l|id] c A B W F;
    simpl; try contradiction.
  - unfold add_resistor. addn c a W c1 i. addn c1 b W0 c2 j.
    destruct (Qeq_bool v 0); simpl.
    + eapply Forall_two_mono with (c := c); [|congruence|exact F]. auto.
    + eapply Forall_two_app with (c := c); auto. congruence.
  - unfold add_capacitor. destruct (Qeq_bool v 0); [exact F|].
    addn c a W c1 i. addn c1 b W0 c2 j. simpl.
    eapply Forall_two_app with (c := c); auto. congruence.
  - unfold add_branch. addn c a W c1 i. addn c1 b W0 c2 j. simpl.
    eapply Forall_two_app with (c := c); auto. congruence.
  - unfold add_isource. addn c a W c1 i. addn c1 b W0 c2 j. simpl.
    eapply Forall_two_app with (c := c); auto. congruence.
Qed.

Lemma cadd_node_known : forall c s, isOk (ext_node_to_int (tab c) s) = true ->
  exists i, cadd_node c (Text s) = (c, Ok i) /\ ext_node_to_int (tab c) s = Ok i.
Proof.
  intros c s H. unfold cadd_node, add_node, ext_node_to_int in *.
  destruct (get (nodes_dict (tab c)) (KStr s)) as [[i|]|]; try discriminate.
  exists i. destruct c; auto.
Qed.

(** Adding elements between registered nodes never touches the node table. *)
Lemma known_step_tab : forall o c, is_add o ->
  (forall s, In s (op_names o) -> isOk (ext_node_to_int (tab c) s) = true) ->
  tab (step_cop c o) = tab c.
Proof.
  intros [id a b v|id a b v|id a b v|id a b v|vd id a b s t v|id a b l|id] c A K;
    simpl in *; try contradiction;
  (destruct (cadd_node_known c a) as [i [Ha _]]; [apply K; auto|]);
  (destruct (cadd_node_known c b) as [j [Hb _]]; [apply K; auto|]).
  - unfold add_resistor. rewrite Ha; cbn [cbind]. rewrite Hb; cbn [cbind].
    destruct (Qeq_bool v 0); reflexivity.
  - unfold add_capacitor. destruct (Qeq_bool v 0); [reflexivity|].
    rewrite Ha; cbn [cbind]. rewrite Hb; cbn [cbind]. reflexivity.
  - unfold add_branch. rewrite Ha; cbn [cbind]. rewrite Hb; reflexivity.
  - unfold add_isource. rewrite Ha; cbn [cbind]. rewrite Hb; reflexivity.
  - destruct (cadd_node_known c s) as [k [Hs _]]; [apply K; auto|].
    destruct (cadd_node_known c t) as [l [Ht _]]; [apply K; auto|].
    unfold add_vc. rewrite Ha; cbn [cbind]. rewrite Hb; cbn [cbind].
    rewrite Hs; cbn [cbind]. rewrite Ht; reflexivity.
  - unfold add_diode. rewrite Ha; cbn [cbind]. rewrite Hb; cbn [cbind].
    destruct (existsb (String.eqb l) (models c)); reflexivity.
Qed.

Lemma reg_of_ext : forall c s i, pb (nodes_dict (tab c)) ->
  ext_node_to_int (tab c) s = Ok i -> reg c i.
Proof.
  intros c s i P. unfold ext_node_to_int, reg.
  destruct (get (nodes_dict (tab c)) (KStr s)) as [v|] eqn:E; [|discriminate].
  destruct (pb_str _ P _ _ E) as [k [-> Hk]]. intros H; inversion H; subst. congruence.
Qed.

Lemma known_step_two : forall o c, is_add o -> two_terminal_op o -> pb (nodes_dict (tab c)) ->
  (forall s, In s (op_names o) -> isOk (ext_node_to_int (tab c) s) = true) ->
  Forall (two_ok c) (elems c) -> Forall (two_ok (step_cop c o)) (elems (step_cop c o)).
Proof.
  intros [id a b v|id a b v|id a b v|id a b v|vd id a b s t v|id a b l|id] c A B P K F;
    simpl in *; try contradiction;
  (destruct (cadd_node_known c a) as [i [Ha Ea]]; [apply K; auto|]);
  (destruct (cadd_node_known c b) as [j [Hb Eb]]; [apply K; auto|]);
  apply (reg_of_ext _ _ _ P) in Ea; apply (reg_of_ext _ _ _ P) in Eb.
  - unfold add_resistor. rewrite Ha; cbn [cbind]. rewrite Hb; cbn [cbind].
    destruct (Qeq_bool v 0); simpl; auto. apply Forall_two_app with (c := c); auto.
  - unfold add_capacitor. destruct (Qeq_bool v 0); [exact F|].
    rewrite Ha; cbn [cbind]. rewrite Hb; cbn [cbind]. simpl. apply Forall_two_app with (c := c); auto.
  - unfold add_branch. rewrite Ha; cbn [cbind]. rewrite Hb; cbn [cbind]. simpl. apply Forall_two_app with (c := c); auto.
  - unfold add_isource. rewrite Ha; cbn [cbind]. rewrite Hb; cbn [cbind]. simpl. apply Forall_two_app with (c := c); auto.
Qed.

(** ** Removal *)
Lemma remove_pb : forall c s, pb (nodes_dict (tab c)) ->
  pb (nodes_dict (tab (fst (remove_elem c s)))).
Proof.
  intros c s P. unfold remove_elem.
  destruct (get_elem_by_name c s) as [x|e]; simpl; auto.
  destruct (orphans x (elem_nodes x) (remove_first (name_match s) (elems c))) as [l|e]; simpl; auto.
  apply pop_nodes_spec; auto.
Qed.

Lemma In_remove_first : forall p es e, In e (remove_first p es) -> In e es.
Proof.
  induction es as [|a es IH]; simpl; intros e; [tauto|].
  destruct (p a); simpl; auto. intros [H|H]; auto.
Qed.

Lemma still_needed_false : forall x n es,
  at_n1 x <> None -> at_n2 x <> None ->
  still_needed x n es = Ok false ->
  forall e, In e es -> at_n1 e <> Some n /\ at_n2 e <> Some n.
Proof.
  intros x n es H1 H2. induction es as [|e0 es IH]; simpl; [tauto|].
  unfold attr_test.
  destruct (at_n1 x); [|congruence]. destruct (at_n2 x); [|congruence].
  destruct (at_n1 e0) as [i|] eqn:E1; [|discriminate]. cbn [orr].
  destruct (Nat.eqb_spec i n) as [|Hi]; [discriminate|].
  destruct (at_n2 e0) as [j|] eqn:E2; [|discriminate]. cbn [orr].
  destruct (Nat.eqb_spec j n) as [|Hj]; [discriminate|].
  destruct (orr _ _) as [[]|]; try discriminate.
  destruct (nonlin x && port_mem n (ports x)); [discriminate|].
  intros H e [He|He].
  - subst. rewrite E1, E2. split; congruence.
  - apply IH; auto.
Qed.

Lemma orphans_spec : forall x ns es l, orphans x ns es = Ok l ->
  forall n, In n l -> In n ns /\ still_needed x n es = Ok false.
Proof.
  induction ns as [|m ns IH]; simpl; intros es l H n Hn.
  - inversion H; subst. contradiction.
  - destruct (still_needed x m es) as [b|] eqn:E; [|discriminate]. simpl in H.
    destruct (orphans x ns es) as [l'|] eqn:E'; [|discriminate]. simpl in H.
    inversion H; subst. destruct b.
    + apply IH with (es := es) in Hn; auto. tauto.
    + destruct Hn as [->|Hn]; [auto|]. eapply IH in Hn; eauto. tauto.
Qed.

Lemma get_elem_In : forall c s e, get_elem_by_name c s = Ok e -> In e (elems c).
Proof.
  intros c s e. unfold get_elem_by_name. destruct (find _ _) eqn:E; [|discriminate].
  intros H; inversion H; subst. apply find_some in E. tauto.
Qed.

Lemma remove_two : forall c s, pb (nodes_dict (tab c)) ->
  Forall (two_ok c) (elems c) ->
  Forall (two_ok (fst (remove_elem c s))) (elems (fst (remove_elem c s))).
Proof.
  intros c s P F. unfold remove_elem.
  destruct (get_elem_by_name c s) as [x|e] eqn:G; simpl; auto.
  set (es := remove_first (name_match s) (elems c)).
  assert (Fes : Forall (two_ok c) es).
  { apply Forall_forall. intros e He. rewrite Forall_forall in F. apply F.
    eapply In_remove_first; exact He. }
  assert (Hx : two_ok c x).
  { rewrite Forall_forall in F. apply F. eapply get_elem_In; eauto. }
  destruct Hx as (xi & xj & X1 & X2 & _).
  destruct (orphans x (elem_nodes x) es) as [l|e] eqn:O; simpl; auto.
  pose proof (pop_nodes_spec l _ P) as [_ KEEP].
  apply Forall_forall. intros e He.
  rewrite Forall_forall in Fes. destruct (Fes e He) as (i & j & H1 & H2 & H3 & H4 & H5 & H6 & H7).
  assert (NI : forall n, at_n1 e = Some n \/ at_n2 e = Some n -> ~ In n l).
  { intros n Hn Hl. destruct (orphans_spec _ _ _ _ O n Hl) as [_ SN].
    destruct (still_needed_false x n es) with (e := e) as [A B]; auto; try congruence.
    destruct Hn; contradiction. }
  exists i, j. repeat split; auto; unfold reg; simpl; rewrite KEEP; auto.
Qed.

Lemma adds_wf : forall ops c, Forall is_add ops -> cwf c -> cwf (run_cops ops c).
Proof.
  unfold run_cops. induction ops as [|o ops IH]; intros c F W; simpl; auto.
  inversion F; subst. apply IH; auto. apply add_step_wf; auto.
Qed.

Lemma adds_two : forall ops c, Forall is_add ops -> Forall two_terminal_op ops -> cwf c ->
  Forall (two_ok c) (elems c) -> Forall (two_ok (run_cops ops c)) (elems (run_cops ops c)).
Proof.
  unfold run_cops. induction ops as [|o ops IH]; intros c F G W T; simpl; auto.
  inversion F; subst. inversion G; subst. apply IH; auto.
  - apply add_step_wf; auto.
  - apply add_step_two; auto.
Qed.

Lemma is_add_dec : forall o, is_add o \/ exists id, o = Rem id.
Proof. intros []; simpl; eauto. Qed.

Lemma rest_pb : forall ops c, no_new_names ops c -> pb (nodes_dict (tab c)) ->
  pb (nodes_dict (tab (run_cops ops c))).
Proof.
  unfold run_cops. induction ops as [|o ops IH]; intros c N P; simpl in *; auto.
  destruct N as [K N]. apply IH; auto.
  destruct (is_add_dec o) as [A|[id ->]].
  - rewrite known_step_tab; auto.
  - apply remove_pb; auto.
Qed.

Lemma rest_two : forall ops c, no_new_names ops c -> Forall two_terminal_op ops ->
  pb (nodes_dict (tab c)) -> Forall (two_ok c) (elems c) ->
  Forall (two_ok (run_cops ops c)) (elems (run_cops ops c)).
Proof.
  unfold run_cops. induction ops as [|o ops IH]; intros c N T P F; simpl in *; auto.
  destruct N as [K N]. inversion T; subst. 
  destruct (is_add_dec o) as [A|[id ->]].
  - apply IH; auto.
    + rewrite known_step_tab; auto.
    + apply known_step_two; auto.
  - apply IH; auto.
    + apply remove_pb; auto.
    + apply remove_two; auto.
Qed.

Lemma cwf_empty : cwf empty_circ.
Proof.
  split; [exists false, 0; apply ninv_empty|]. simpl. constructor.
Qed.

Lemma run_cops_app : forall a b c, run_cops (a ++ b) c = run_cops b (run_cops a c).
Proof. intros. unfold run_cops. apply fold_left_app. Qed.

Lemma safe_history_distinct : forall adds rest,
  Forall is_add adds -> no_new_names rest (run_cops adds empty_circ) ->
  forall s1 s2 i,
    ext_node_to_int (tab (run_cops (adds ++ rest) empty_circ)) s1 = Ok i ->
    ext_node_to_int (tab (run_cops (adds ++ rest) empty_circ)) s2 = Ok i -> s1 = s2.
Proof.
  intros adds rest A N s1 s2 i. rewrite run_cops_app.
  assert (P : pb (nodes_dict (tab (run_cops rest (run_cops adds empty_circ))))).
  { apply rest_pb; auto. destruct (adds_wf adds empty_circ A cwf_empty). apply tinv_pb; auto. }
  unfold ext_node_to_int. intros H1 H2.
  destruct (get _ (KStr s1)) as [v1|] eqn:E1; [|discriminate].
  destruct (get _ (KStr s2)) as [v2|] eqn:E2; [|discriminate].
  destruct (pb_str _ P _ _ E1) as [i1 [-> G1]].
  destruct (pb_str _ P _ _ E2) as [i2 [-> G2]].
  congruence.
Qed.

Lemma safe_history_used : forall adds rest,
  Forall is_add adds -> no_new_names rest (run_cops adds empty_circ) ->
  Forall two_terminal_op (adds ++ rest) ->
  forall e n, In e (elems (run_cops (adds ++ rest) empty_circ)) ->
    (at_n1 e = Some n \/ at_n2 e = Some n) ->
    isOk (int_node_to_ext (tab (run_cops (adds ++ rest) empty_circ)) n) = true.
Proof.
  intros adds rest A N T e n. rewrite run_cops_app. intros He Hn.
  apply Forall_app in T. destruct T as [T1 T2].
  destruct (adds_wf adds empty_circ A cwf_empty) as [TI ND].
  assert (P0 : pb (nodes_dict (tab (run_cops adds empty_circ)))) by (apply tinv_pb; auto).
  assert (P : pb (nodes_dict (tab (run_cops rest (run_cops adds empty_circ))))) by (apply rest_pb; auto).
  assert (F : Forall (two_ok (run_cops rest (run_cops adds empty_circ)))
                     (elems (run_cops rest (run_cops adds empty_circ)))).
  { apply rest_two; auto. apply adds_two; auto; [apply cwf_empty|constructor]. }
  rewrite Forall_forall in F. destruct (F e He) as (i & j & H1 & H2 & _ & _ & _ & R1 & R2).
  assert (R : reg (run_cops rest (run_cops adds empty_circ)) n).
  { destruct Hn as [Hn|Hn]; [rewrite H1 in Hn|rewrite H2 in Hn]; inversion Hn; subst; auto. }
  unfold reg in R. unfold int_node_to_ext.
  destruct (get _ (KInt n)) as [v|] eqn:E; [|congruence].
  destruct (pb_int _ P _ _ E) as [u [-> _]]. reflexivity.
Qed.

(** ** Lookups *)
Lemma lookup_unique : forall c e s,
  NoDup (map (fun x => lower (part_id x)) (elems c)) ->
  In e (elems c) -> lower s = lower (part_id e) -> get_elem_by_name c s = Ok e.
Proof.
  intros c e s ND He Hs. unfold get_elem_by_name, name_match. rewrite Hs. clear Hs s.
  induction (elems c) as [|a es IH]; simpl in *; [contradiction|].
  inversion ND as [|? ? Hn ND']; subst.
  destruct (String.eqb_spec (lower (part_id a)) (lower (part_id e))) as [E|E].
  - destruct He as [->|He]; [reflexivity|]. exfalso. apply Hn. rewrite E.
    apply (in_map (fun x => lower (part_id x))). exact He.
  - destruct He as [->|He]; [congruence|]. auto.
Qed.

Lemma lookup_sound : forall c s e, get_elem_by_name c s = Ok e ->
  In e (elems c) /\ lower (part_id e) = lower s.
Proof.
  intros c s e H. split; [eapply get_elem_In; eauto|]. unfold get_elem_by_name in H.
  destruct (find _ _) eqn:E; [|discriminate]. inversion H; subst.
  apply find_some in E. destruct E as [_ E]. unfold name_match in E.
  apply String.eqb_eq in E. exact E.
Qed.

Lemma lookup_missing : forall c s,
  get_elem_by_name c s = Err ValueError <->
  ~ exists e, In e (elems c) /\ lower (part_id e) = lower s.
Proof.
  intros c s. unfold get_elem_by_name. destruct (find _ _) eqn:E.
  - split; [discriminate|]. intros H. exfalso. apply H. exists c0.
    apply find_some in E. destruct E as [A B]. split; auto.
    apply String.eqb_eq in B. exact B.
  - split; [|reflexivity]. intros _ [e [He1 He2]].
    pose proof (find_none _ _ E _ He1) as F. unfold name_match in F.
    rewrite He2, String.eqb_refl in F. discriminate.
Qed.

Lemma nodup_length_NoDup : forall (l : list string),
  length (nodup string_dec l) = length l <-> NoDup l.
Proof.
  intros l. split.
  - induction l as [|a l IH]; simpl; [constructor|].
    destruct (in_dec string_dec a l).
    + intros H. exfalso. pose proof (NoDup_incl_length (NoDup_nodup string_dec l)
        (fun x Hx => proj1 (nodup_In string_dec l x) Hx)). lia.
    + simpl. intros H. constructor; auto.
  - intros H. rewrite nodup_fixed_point; auto.
Qed.

Lemma has_duplicate_spec : forall c,
  has_duplicate_elem c = false <-> NoDup (map part_id (elems c)).
Proof.
  intros c. unfold has_duplicate_elem. rewrite negb_false_iff, Nat.eqb_eq.
  apply nodup_length_NoDup.
Qed.

(** [find_vde_index] counts the voltage-defined elements that come before. *)
Lemma find_vde_index_from_spec : forall es s k r,
  find_vde_index_from es s k = Ok r ->
  exists pre e post, es = pre ++ e :: post /\ vdef e = true /\
    upper (part_id e) = upper s /\ r = k + length (filter vdef pre) /\
    (forall x, In x pre -> vdef x = true -> upper (part_id x) <> upper s).
Proof.
  induction es as [|a es IH]; simpl; intros s k r; [discriminate|].
  destruct (vdef a) eqn:Ea.
  - destruct (String.eqb_spec (upper (part_id a)) (upper s)) as [E|E].
    + intros H; inversion H; subst. exists [], a, es. simpl. repeat split; auto; try lia.
    + intros H. destruct (IH _ _ _ H) as (pre & e & post & -> & H1 & H2 & H3 & H4).
      exists (a :: pre), e, post. simpl. rewrite Ea. simpl. repeat split; auto; [lia|].
      intros x [<-|Hx]; auto.
  - intros H. destruct (IH _ _ _ H) as (pre & e & post & -> & H1 & H2 & H3 & H4).
    exists (a :: pre), e, post. simpl. rewrite Ea. repeat split; auto.
    intros x [<-|Hx]; auto. congruence.
Qed.

Lemma find_vde_index_from_hit : forall pre e post s k,
  vdef e = true -> upper (part_id e) = upper s ->
  (forall x, In x pre -> vdef x = true -> upper (part_id x) <> upper s) ->
  find_vde_index_from (pre ++ e :: post) s k = Ok (k + length (filter vdef pre)).
Proof.
  induction pre as [|a pre IH]; simpl; intros e post s k He Hs Hp.
  - rewrite He. destruct (String.eqb_spec (upper (part_id e)) (upper s)); [|contradiction].
    f_equal. lia.
  - destruct (vdef a) eqn:Ea.
    + destruct (String.eqb_spec (upper (part_id a)) (upper s)) as [E|E].
      * exfalso. eapply Hp; eauto.
      * rewrite IH; auto. f_equal. simpl. lia.
    + apply IH; auto.
Qed.

Lemma find_vde_from_hit : forall pre e post k,
  vdef e = true ->
  find_vde_from (pre ++ e :: post) (k + Z.of_nat (length (filter vdef pre)))%Z k = Ok e.
Proof.
  induction pre as [|a pre IH]; simpl; intros e post k He.
  - rewrite He. replace (k + 0)%Z with k by lia. rewrite Z.eqb_refl. reflexivity.
  - destruct (vdef a) eqn:Ea; simpl.
    + destruct (Z.eqb_spec (k + Z.pos (Pos.of_succ_nat (length (filter vdef pre)))) k); [lia|].
      rewrite <- (IH e post (k + 1)%Z He). f_equal. lia.
    + apply IH; auto.
Qed.
