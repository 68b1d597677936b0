(** Property theorems about node tables, circuit edits and lookups
    (C01, C02, C58, C59 and the lookup half of C04). *)
From Coq Require Import String Ascii List Bool Arith QArith Lia.
From Verif Require Import Base BaseFacts Nodes NodesFacts Circuit CircuitFacts.
Import ListNotations.
Open Scope nat_scope.
Open Scope string_scope.

(** * C01 *)
Theorem C01_node_table_bijection : forall ops : list nop,
  let t := run_nops ops in
  (* the two lookups are inverse of each other *)
  (forall s i, ext_node_to_int t s = Ok i <-> int_node_to_ext t i = Ok s) /\
  (* ground, and only ground, is 0 *)
  (forall s i, ext_node_to_int t s = Ok i -> (i = 0 <-> s = "0")) /\
  (* the integers in use are 1..m, plus 0 iff ground is there *)
  (exists m,
     (forall i, isOk (int_node_to_ext t i) = true <->
                (i = 0 /\ isOk (ext_node_to_int t "0") = true) \/ (1 <= i <= m)) /\
     get_nodes_number t = m + (if isOk (ext_node_to_int t "0") then 1 else 0)) /\
  (* re-adding a known name returns its integer and changes nothing *)
  (forall s i, ext_node_to_int t s = Ok i -> add_node t (Text s) = (t, Ok i)) /\
  (* adding a text name always succeeds, and the name then has the answer as its integer *)
  (forall s, exists i, snd (add_node t (Text s)) = Ok i /\
                       ext_node_to_int (fst (add_node t (Text s))) s = Ok i) /\
  (* creating a known name fails and changes nothing *)
  (forall s i, ext_node_to_int t s = Ok i -> create_node t (Text s) = (t, Err ValueError)).
Proof.
  intros ops t. pose proof (run_nops_tinv ops) as T. fold t in T.
  repeat apply conj.
  - intros. apply ext_int_inverse; auto.
  - intros. apply (ext_zero_iff t); auto.
  - pose proof T as [g [m I]]. exists m.
    assert (G : isOk (ext_node_to_int t "0") = g).
    { unfold ext_node_to_int. change "0" with ground_name. rewrite (ni_gnd _ _ _ I).
      destruct g; reflexivity. }
    rewrite G. split.
    + intros i. change (registered_int t i <-> i = 0 /\ g = true \/ 1 <= i <= m).
      rewrite (registered_int_get t i T). apply (ni_range _ _ _ I).
    + unfold get_nodes_number. rewrite (ni_len _ _ _ I). apply div2_double.
  - intros. apply add_known; auto.
  - intros. apply add_ok; auto.
  - intros. eapply create_known; eauto.
Qed.
Print Assumptions C01_node_table_bijection.

(** Later calls never change the integer of a registered name. *)
Theorem C01_node_handles_stable : forall ops more s i,
  ext_node_to_int (run_nops ops) s = Ok i ->
  ext_node_to_int (run_nops (ops ++ more)) s = Ok i.
Proof.
  intros ops more s i H. unfold run_nops in *. rewrite fold_left_app.
  assert (T : tinv (fold_left step_nop ops empty_ntab)) by apply run_nops_tinv.
  revert H T. generalize (fold_left step_nop ops empty_ntab).
  induction more as [|o more IH]; intros t H T; simpl; auto.
  apply IH; [apply step_keeps; auto|apply step_nop_tinv; auto].
Qed.
Print Assumptions C01_node_handles_stable.

Example C01_example :
  let t := run_nops [OAdd (Text "in"); OAdd (Text "out"); ONewInternal; OAdd NotText;
                     OAdd (Text "0"); OAdd (Text "in"); OAdd (Text "x")] in
  map (ext_node_to_int t) ["in"; "out"; "INT0"; "0"; "x"; "y"]
  = [Ok 1; Ok 2; Ok 3; Ok 0; Ok 4; Err KeyError].
Proof. vm_compute. reflexivity. Qed.

(** * C02: refuted, with the strongest guarded forms that hold *)

(** Removing an element and then adding a node with a new name makes two names
    share one internal node. *)
Theorem C02_handles_distinct_refuted : exists ops s1 s2 i,
  s1 <> s2 /\
  ext_node_to_int (tab (run_cops ops empty_circ)) s1 = Ok i /\
  ext_node_to_int (tab (run_cops ops empty_circ)) s2 = Ok i.
Proof.
  exists [AddR "R1" "a" "0" 1; AddR "R2" "b" "0" 1; Rem "R1"; AddR "R3" "c" "0" 1], "b", "c", 2.
  split; [discriminate|]. split; vm_compute; reflexivity.
Qed.
Print Assumptions C02_handles_distinct_refuted.

(** A node sensed by a remaining controlled source is dropped with the resistor
    that was also attached to it. *)
Theorem C02_nodes_stay_registered_refuted : exists ops e n,
  In e (elems (run_cops ops empty_circ)) /\ at_sn1 e = Some n /\
  int_node_to_ext (tab (run_cops ops empty_circ)) n = Err KeyError.
Proof.
  exists [AddR "R1" "a" "0" 1; AddVC true "E1" "b" "0" "a" "0" 2; Rem "R1"].
  eexists _, 1. split; [left; reflexivity|]. split; vm_compute; reflexivity.
Qed.
Print Assumptions C02_nodes_stay_registered_refuted.

(** If no new node name is introduced after the first removal, names and
    integers stay in bijection, for every kind of element. *)
Theorem C02_handles_distinct_guarded : forall adds rest,
  Forall is_add adds -> no_new_names rest (run_cops adds empty_circ) ->
  forall s1 s2 i,
    ext_node_to_int (tab (run_cops (adds ++ rest) empty_circ)) s1 = Ok i ->
    ext_node_to_int (tab (run_cops (adds ++ rest) empty_circ)) s2 = Ok i -> s1 = s2.
Proof. exact safe_history_distinct. Qed.
Print Assumptions C02_handles_distinct_guarded.

(** ... and with two-terminal linear elements only, every node in use is still
    registered. *)
Theorem C02_nodes_stay_registered_guarded : forall adds rest,
  Forall is_add adds -> no_new_names rest (run_cops adds empty_circ) ->
  Forall two_terminal_op (adds ++ rest) ->
  forall e n, In e (elems (run_cops (adds ++ rest) empty_circ)) ->
    (at_n1 e = Some n \/ at_n2 e = Some n) ->
    isOk (int_node_to_ext (tab (run_cops (adds ++ rest) empty_circ)) n) = true.
Proof. exact safe_history_used. Qed.
Print Assumptions C02_nodes_stay_registered_guarded.

Example C02_guard_satisfiable :
  let adds := [AddR "R1" "a" "0" 1; AddR "R2" "a" "b" 1; AddC "C1" "b" "0" 1] in
  let rest := [Rem "c1"; AddI "I1" "a" "0" 1; Rem "R2"] in
  Forall is_add adds /\ no_new_names rest (run_cops adds empty_circ) /\
  Forall two_terminal_op (adds ++ rest) /\
  map part_id (elems (run_cops (adds ++ rest) empty_circ)) = ["R1"; "I1"] /\
  ext_node_to_int (tab (run_cops (adds ++ rest) empty_circ)) "b" = Err KeyError /\
  ext_node_to_int (tab (run_cops (adds ++ rest) empty_circ)) "a" = Ok 1.
Proof.
  simpl. repeat split; auto; try (repeat constructor); intros; simpl in *;
  repeat match goal with H : _ \/ _ |- _ => destruct H | H : False |- _ => destruct H end;
  subst; reflexivity.
Qed.

(** * C58 *)
Theorem C58_lookup_by_name : forall (c : circ),
  NoDup (map (fun x => lower (part_id x)) (elems c)) ->
  (forall e s, In e (elems c) -> lower s = lower (part_id e) -> get_elem_by_name c s = Ok e) /\
  (forall s e, get_elem_by_name c s = Ok e -> In e (elems c) /\ lower (part_id e) = lower s) /\
  (forall s, get_elem_by_name c s = Err ValueError <->
             ~ exists e, In e (elems c) /\ lower (part_id e) = lower s).
Proof.
  intros c ND. repeat apply conj.
  - intros. apply lookup_unique; auto.
  - intros. apply lookup_sound; auto.
  - intros. apply lookup_missing.
Qed.
Print Assumptions C58_lookup_by_name.

Theorem C58_duplicate_check : forall (c : circ),
  has_duplicate_elem c = true <->
  ~ NoDup (map part_id (elems c)).
Proof.
  intros c. rewrite <- has_duplicate_spec.
  destruct (has_duplicate_elem c); split; congruence.
Qed.
Print Assumptions C58_duplicate_check.

(** The duplicate check is case sensitive while the lookup is not: a circuit can
    pass the check and still contain an element no name can reach. *)
Theorem C58_duplicate_check_case_refuted : exists (c : circ) e,
  has_duplicate_elem c = false /\ In e (elems c) /\
  forall s x, get_elem_by_name c s = Ok x -> x <> e.
Proof.
  exists (run_cops [AddR "R1" "a" "0" 1; AddR "r1" "b" "0" 2] empty_circ).
  exists (two_term "r1" false 2 0 2).
  split; [reflexivity|]. split; [vm_compute; tauto|].
  intros s x. unfold get_elem_by_name, name_match. cbn -[lower].
  replace (lower "R1") with "r1" by reflexivity.
  replace (lower "r1") with "r1" by reflexivity.
  destruct ("r1" =? lower s)%string; intros H; inversion H; discriminate.
Qed.
Print Assumptions C58_duplicate_check_case_refuted.

Example C58_example :
  let c := run_cops [AddR "R1" "a" "0" 1; AddC "Cload" "a" "0" 1; AddB "V1" "a" "0" 5] empty_circ in
  NoDup (map (fun x => lower (part_id x)) (elems c)) /\
  match get_elem_by_name c "CLOAD" with Ok e => part_id e = "Cload" | Err _ => False end.
Proof.
  split; [|reflexivity].
  vm_compute. repeat constructor; simpl; intuition discriminate.
Qed.

(** * C04, lookup half: [find_vde_index] and [find_vde] agree *)
Theorem C04_find_vde_index : forall (c : circ) pre e post s,
  elems c = (pre ++ e :: post)%list -> vdef e = true -> lower s = lower (part_id e) ->
  (forall x, In x pre -> vdef x = true -> lower (part_id x) <> lower (part_id e)) ->
  (* the index is the number of voltage-defined elements that come before *)
  find_vde_index c s = Ok (length (filter vdef pre)) /\
  (* and the element is found back from the row number it stands for *)
  find_vde c (Z.of_nat (get_nodes_number (tab c)) - 1 + Z.of_nat (length (filter vdef pre)))%Z = Ok e.
Proof.
  intros c pre e post s E V S U. split.
  - unfold find_vde_index. rewrite E.
    rewrite find_vde_index_from_hit; auto.
    + apply upper_eq_iff_lower_eq. auto.
    + intros x Hx Vx H. apply upper_eq_iff_lower_eq in H. apply (U x Hx Vx). congruence.
  - unfold find_vde. rewrite E.
    rewrite <- (find_vde_from_hit pre e post 0%Z V). f_equal. lia.
Qed.
Print Assumptions C04_find_vde_index.

Example C04_find_example :
  let c := run_cops [AddB "V1" "a" "0" 1; AddR "R1" "a" "b" 1; AddB "L1" "b" "0" 1] empty_circ in
  find_vde_index c "l1" = Ok 1 /\
  match find_vde c 3 with Ok e => part_id e = "L1" | Err _ => False end.
Proof. split; reflexivity. Qed.

(** * C59 *)
Theorem C59_failed_insertion_refuted : exists ops id n1 n2 v,
  let c := run_cops ops empty_circ in
  snd (add_resistor c id (Text n1) (Text n2) v) = Err CircuitError /\
  (* a node was created and no element touches it *)
  ext_node_to_int (tab c) n1 = Err KeyError /\
  isOk (ext_node_to_int (tab (fst (add_resistor c id (Text n1) (Text n2) v))) n1) = true /\
  elems (fst (add_resistor c id (Text n1) (Text n2) v)) = elems c.
Proof.
  exists [AddR "R1" "a" "0" 1], "R2", "b", "0", 0%Q.
  repeat split; reflexivity.
Qed.
Print Assumptions C59_failed_insertion_refuted.

Theorem C59_failed_diode_refuted : exists c id n1 n2 label,
  snd (add_diode c id (Text n1) (Text n2) label) = Err ModelError /\
  get_nodes_number (tab (fst (add_diode c id (Text n1) (Text n2) label)))
    = get_nodes_number (tab c) + 2.
Proof.
  exists empty_circ, "D1", "a", "b", "nomodel". split; reflexivity.
Qed.
Print Assumptions C59_failed_diode_refuted.

(** Capacitors with text node names and couplings do leave the circuit alone. *)
Theorem C59_capacitor_coupling_guarded :
  (forall c id n1 n2 v er, tinv (tab c) ->
     snd (add_capacitor c id (Text n1) (Text n2) v) = Err er ->
     fst (add_capacitor c id (Text n1) (Text n2) v) = c /\ v == 0) /\
  (forall is_ind c id l1 l2 v er,
     snd (add_coupling is_ind c id l1 l2 v) = Err er ->
     fst (add_coupling is_ind c id l1 l2 v) = c).
Proof.
  split.
  - intros c id n1 n2 v er T. unfold add_capacitor.
    destruct (Qeq_bool v 0) eqn:Q.
    + intros _. split; [reflexivity|]. apply Qeq_bool_iff. exact Q.
    + unfold cadd_node at 1. destruct (add_ok (tab c) n1 T) as [i [Hi _]]. rewrite Hi. cbn [cbind].
      unfold cadd_node. cbn [tab set_tab].
      destruct (add_ok (fst (add_node (tab c) (Text n1))) n2) as [j [Hj _]].
      { apply add_node_tinv; auto. }
      rewrite Hj. cbn [cbind snd]. discriminate.
  - intros is_ind c id l1 l2 v er. unfold add_coupling.
    destruct (_ && _); [discriminate|reflexivity].
Qed.
Print Assumptions C59_capacitor_coupling_guarded.

Example C59_example :
  add_capacitor empty_circ "C1" (Text "a") (Text "0") 0 = (empty_circ, Err CircuitError).
Proof. reflexivity. Qed.
