(** Property theorems about single circuit edits (C111, C112) and internal nodes
    (C01). *)
From Coq Require Import String Ascii List Bool Arith ZArith QArith Lia DecimalString DecimalNat.
From Verif Require Import Base BaseFacts Nodes NodesFacts Circuit CircuitFacts.
Import ListNotations.
Open Scope nat_scope.
Open Scope string_scope.

Local Notation get := (dget nkey_eqb).

(** * C01, continued *)

(** A name that is not text is refused and nothing changes. *)
Theorem C01_not_text : forall t, add_node t NotText = (t, Err TypeError) /\ create_node t NotText = (t, Err TypeError).
Proof. intros t. split; reflexivity. Qed.
Print Assumptions C01_not_text.

(** The names the circuit makes up. *)
Definition internal_name (k : nat) : string := "INT" ++ NilEmpty.string_of_uint (Nat.to_uint k).
Lemma nat_str_inj : forall a b, nat_str a = nat_str b -> a = b.
Proof.
  intros a b H. unfold nat_str in H.
  assert (E : Some (Nat.to_uint a) = Some (Nat.to_uint b)) by (rewrite <- !NilEmpty.usu, H; reflexivity).
  injection E as E. rewrite <- (Unsigned.of_to a), <- (Unsigned.of_to b), E. reflexivity.
Qed.
Lemma internal_name_inj : forall a b, internal_name a = internal_name b -> a = b.
Proof. intros a b H. apply nat_str_inj. unfold internal_name in H. simpl in H. inversion H as [H1]. exact H1. Qed.

(** Only a name given by the caller can stand in the way of a new internal node. *)
Definition given (o : nop) : list string :=
  match o with OAdd (Text s) | OCreate (Text s) => [s] | _ => [] end.

Lemma ext_none_get : forall t s, ext_node_to_int t s = Err KeyError -> tinv t -> get (nodes_dict t) (KStr s) = None.
Proof.
  intros t s H [g [m J]]. unfold ext_node_to_int in H. destruct (get (nodes_dict t) (KStr s)) as [v|] eqn:E; [|reflexivity].
  destruct (ni_str _ _ _ J _ _ E) as [i [-> _]]. discriminate.
Qed.

Lemma internal_free : forall ops k, (forall o s, In o ops -> In s (given o) -> forall j, s <> internal_name j) ->
  internal_nodes (run_nops ops) <= k -> ext_node_to_int (run_nops ops) (internal_name k) = Err KeyError.
Proof.
  intros ops. induction ops as [|o ops IH] using rev_ind; intros k G L; [reflexivity|].
  unfold run_nops in *. rewrite fold_left_app in *. cbn [fold_left] in *.
  set (t := fold_left step_nop ops empty_ntab) in *.
  assert (T : tinv t) by apply (run_nops_tinv ops).
  assert (G' : forall o s, In o ops -> In s (given o) -> forall j, s <> internal_name j).
  { intros o' s Ho Hs. apply (G o'); [apply in_or_app; left; exact Ho|exact Hs]. }
  assert (NEW : forall s, s <> internal_name k -> ext_node_to_int t (internal_name k) = Err KeyError ->
    ext_node_to_int (mkNtab (register (nodes_dict t) (fresh_int (nodes_dict t) s) s) (internal_nodes t)) (internal_name k) = Err KeyError).
  { intros s N H. unfold ext_node_to_int in *. cbn [nodes_dict]. rewrite get_register. cbn [nkey_eqb].
    destruct (String.eqb_spec (internal_name k) s); [congruence|exact H]. }
  destruct o as [[s|]|[s|]|]; cbn [step_nop add_node create_node fst] in *.
  - assert (N : s <> internal_name k) by (apply (G (OAdd (Text s))); [apply in_or_app; right; left; reflexivity|left; reflexivity]).
    destruct (get (nodes_dict t) (KStr s)) as [[?|?]|] eqn:E; cbn [fst] in *; try (apply IH; assumption).
    apply NEW; [exact N|]. apply IH; [exact G'|exact L].
  - apply IH; assumption.
  - assert (N : s <> internal_name k) by (apply (G (OCreate (Text s))); [apply in_or_app; right; left; reflexivity|left; reflexivity]).
    destruct (get (nodes_dict t) (KStr s)) as [?|] eqn:E; cbn [fst] in *; try (apply IH; assumption).
    apply NEW; [exact N|]. apply IH; [exact G'|exact L].
  - apply IH; assumption.
  - unfold new_internal_node in *. cbn [create_node nodes_dict internal_nodes] in *.
    assert (L2 : S (internal_nodes t) <= k).
    { destruct (get (nodes_dict t) _); cbn [fst internal_nodes] in L; exact L. }
    assert (Q : ext_node_to_int t (internal_name k) = Err KeyError) by (apply IH; [exact G'|lia]).
    destruct (get (nodes_dict t) _) eqn:E; cbn [fst]; [exact Q|].
    unfold ext_node_to_int in *. cbn [nodes_dict]. rewrite get_register. cbn [nkey_eqb].
    change ("INT" ++ nat_str (internal_nodes t)) with (internal_name (internal_nodes t)).
    destruct (String.eqb_spec (internal_name k) (internal_name (internal_nodes t))) as [X|X]; [|exact Q].
    apply internal_name_inj in X. lia.
Qed.

(** As long as the caller does not use these names, a new internal node can always be
    had, and its name was not in use. *)
Theorem C01_internal_nodes : forall ops, (forall o s, In o ops -> In s (given o) -> forall k, s <> internal_name k) ->
  exists s, snd (new_internal_node (run_nops ops)) = Ok s /\ ext_node_to_int (run_nops ops) s = Err KeyError /\
    isOk (ext_node_to_int (fst (new_internal_node (run_nops ops))) s) = true.
Proof.
  intros ops G. set (t := run_nops ops).
  pose proof (internal_free ops (internal_nodes t) G (le_n _)) as F. fold t in F.
  pose proof (ext_none_get _ _ F (run_nops_tinv ops)) as E.
  exists (internal_name (internal_nodes t)). unfold new_internal_node. cbn [create_node nodes_dict internal_nodes].
  change ("INT" ++ nat_str (internal_nodes t)) with (internal_name (internal_nodes t)). rewrite E.
  split; [reflexivity|]. split; [exact F|]. cbn [fst].
  unfold ext_node_to_int. cbn [nodes_dict]. rewrite get_register. cbn [nkey_eqb]. rewrite String.eqb_refl. reflexivity.
Qed.
Print Assumptions C01_internal_nodes.
Example C01_internal_example :
  let t := run_nops [ONewInternal; OAdd (Text "a"); ONewInternal] in
  snd (new_internal_node t) = Ok "INT2" /\ map (ext_node_to_int t) ["INT0"; "a"; "INT1"] = [Ok 1; Ok 2; Ok 3].
Proof. split; reflexivity. Qed.

(** * C111: the element inserted is the one described *)

Lemma cadd_node_spec : forall c s c' i, cadd_node c (Text s) = (c', Ok i) ->
  ext_node_to_int (tab c') s = Ok i /\ elems c' = elems c /\ models c' = models c /\
  forall u k, ext_node_to_int (tab c) u = Ok k -> ext_node_to_int (tab c') u = Ok k.
Proof.
  intros c s c' i H. unfold cadd_node, add_node in H.
  destruct (get (nodes_dict (tab c)) (KStr s)) as [[j|u]|] eqn:E; cbn [fst snd] in H; inversion H; subst; clear H; cbn [tab set_tab elems models].
  - repeat split; auto. unfold ext_node_to_int. rewrite E. reflexivity.
  - repeat split; auto.
    + unfold ext_node_to_int. cbn [nodes_dict]. rewrite get_register. cbn [nkey_eqb]. rewrite String.eqb_refl. reflexivity.
    + intros u k. unfold ext_node_to_int. cbn [nodes_dict]. rewrite get_register. cbn [nkey_eqb].
      destruct (String.eqb_spec u s) as [->|]; [rewrite E; discriminate|auto].
Qed.

(** [c'] is [c] with one element [e] more, whose nodes are those with the names
    given; names known before keep their node. *)
Definition inserted (c c' : circ) (e : celem) (names : list (string * option nat)) : Prop :=
  elems c' = (elems c ++ [e])%list /\ models c' = models c /\
  (forall s o, In (s, o) names -> exists i, o = Some i /\ ext_node_to_int (tab c') s = Ok i) /\
  (forall u k, ext_node_to_int (tab c) u = Ok k -> ext_node_to_int (tab c') u = Ok k).

Lemma two_adds : forall c a b (f : circ -> nat -> nat -> circ * res unit) c',
  cbind (cadd_node c (Text a)) (fun c1 i => cbind (cadd_node c1 (Text b)) (fun c2 j => f c2 i j)) = (c', Ok tt) ->
  exists c2 i j, f c2 i j = (c', Ok tt) /\ elems c2 = elems c /\ models c2 = models c /\
    ext_node_to_int (tab c2) a = Ok i /\ ext_node_to_int (tab c2) b = Ok j /\
    forall u k, ext_node_to_int (tab c) u = Ok k -> ext_node_to_int (tab c2) u = Ok k.
Proof.
  intros c a b f c' H. destruct (cadd_node c (Text a)) as [c1 [i|e]] eqn:E1; cbn [cbind] in H; [|discriminate].
  destruct (cadd_node c1 (Text b)) as [c2 [j|e]] eqn:E2; cbn [cbind] in H; [|discriminate].
  destruct (cadd_node_spec _ _ _ _ E1) as (A1 & A2 & A3 & A4). destruct (cadd_node_spec _ _ _ _ E2) as (B1 & B2 & B3 & B4).
  exists c2, i, j. repeat split; auto; congruence.
Qed.

Theorem C111_two_terminals : forall c id a b v c',
  (add_resistor c id (Text a) (Text b) v = (c', Ok tt) ->
    ~ v == 0 /\ exists i j, inserted c c' (mkElem id (Some i) (Some j) None None false [] false v) [(a, Some i); (b, Some j)]) /\
  (add_capacitor c id (Text a) (Text b) v = (c', Ok tt) ->
    ~ v == 0 /\ exists i j, inserted c c' (mkElem id (Some i) (Some j) None None false [] false v) [(a, Some i); (b, Some j)]) /\
  (add_branch c id (Text a) (Text b) v = (c', Ok tt) ->
    exists i j, inserted c c' (mkElem id (Some i) (Some j) None None false [] true v) [(a, Some i); (b, Some j)]) /\
  (add_isource c id (Text a) (Text b) v = (c', Ok tt) ->
    exists i j, inserted c c' (mkElem id (Some i) (Some j) None None false [] false v) [(a, Some i); (b, Some j)]) /\
  (forall label, add_diode c id (Text a) (Text b) label = (c', Ok tt) ->
    In label (models c) /\
    exists i j, inserted c c' (mkElem id (Some i) (Some j) None None true [(i, j)] false 0) [(a, Some i); (b, Some j)]).
Proof.
  intros c id a b v c'.
  assert (INS : forall c2 i j e, elems c2 = elems c -> models c2 = models c -> ext_node_to_int (tab c2) a = Ok i -> ext_node_to_int (tab c2) b = Ok j ->
    (forall u k, ext_node_to_int (tab c) u = Ok k -> ext_node_to_int (tab c2) u = Ok k) ->
    inserted c (append c2 e) e [(a, Some i); (b, Some j)]).
  { intros c2 i j e A B D1 D2 K. unfold inserted, append. cbn [elems models tab]. rewrite A. repeat split; auto.
    intros s o [E|[E|[]]]; inversion E; subst; eauto. }
  repeat split.
  - intros Q. unfold add_resistor in H. destruct (two_adds _ _ _ _ _ H) as (c2 & i & j & F & _).
    apply Qeq_bool_iff in Q. rewrite Q in F. discriminate.
  - unfold add_resistor in H. destruct (two_adds _ _ _ _ _ H) as (c2 & i & j & F & A & B & D1 & D2 & K).
    destruct (Qeq_bool v 0); [discriminate|]. inversion F; subst. exists i, j. apply INS; assumption.
  - intros Q. unfold add_capacitor in H. apply Qeq_bool_iff in Q. rewrite Q in H. discriminate.
  - unfold add_capacitor in H. destruct (Qeq_bool v 0); [discriminate|].
    destruct (two_adds _ _ _ (fun c2 i j => (append c2 (two_term id false i j v), Ok tt)) _ H) as (c2 & i & j & F & A & B & D1 & D2 & K).
    inversion F; subst. exists i, j. apply INS; assumption.
  - intros H. unfold add_branch in H.
    destruct (two_adds _ _ _ (fun c2 i j => (append c2 (two_term id true i j v), Ok tt)) _ H) as (c2 & i & j & F & A & B & D1 & D2 & K).
    inversion F; subst. exists i, j. apply INS; assumption.
  - intros H. unfold add_isource in H.
    destruct (two_adds _ _ _ (fun c2 i j => (append c2 (two_term id false i j v), Ok tt)) _ H) as (c2 & i & j & F & A & B & D1 & D2 & K).
    inversion F; subst. exists i, j. apply INS; assumption.
  - unfold add_diode in H. destruct (two_adds _ _ _ _ _ H) as (c2 & i & j & F & A & B & D1 & D2 & K).
    destruct (existsb (String.eqb label) (models c2)) eqn:X; [|discriminate].
    apply existsb_exists in X. destruct X as (l & L1 & L2). apply String.eqb_eq in L2. congruence.
  - unfold add_diode in H. destruct (two_adds _ _ _ _ _ H) as (c2 & i & j & F & A & B & D1 & D2 & K).
    destruct (existsb (String.eqb label) (models c2)) eqn:X; [|discriminate].
    inversion F; subst. exists i, j. apply INS; assumption.
Qed.
Print Assumptions C111_two_terminals.

Theorem C111_controlled : forall vd c id a b s t v c', add_vc vd c id (Text a) (Text b) (Text s) (Text t) v = (c', Ok tt) ->
  exists i j k l, inserted c c' (mkElem id (Some i) (Some j) (Some k) (Some l) false [] vd v)
    [(a, Some i); (b, Some j); (s, Some k); (t, Some l)].
Proof.
  intros vd c id a b s t v c' H. unfold add_vc in H.
  destruct (cadd_node c (Text a)) as [c1 [i|]] eqn:E1; cbn [cbind] in H; [|discriminate].
  destruct (cadd_node c1 (Text b)) as [c2 [j|]] eqn:E2; cbn [cbind] in H; [|discriminate].
  destruct (cadd_node c2 (Text s)) as [c3 [k|]] eqn:E3; cbn [cbind] in H; [|discriminate].
  destruct (cadd_node c3 (Text t)) as [c4 [l|]] eqn:E4; cbn [cbind] in H; [|discriminate].
  inversion H; subst; clear H.
  destruct (cadd_node_spec _ _ _ _ E1) as (A1 & A2 & A3 & A4). destruct (cadd_node_spec _ _ _ _ E2) as (B1 & B2 & B3 & B4).
  destruct (cadd_node_spec _ _ _ _ E3) as (D1 & D2 & D3 & D4). destruct (cadd_node_spec _ _ _ _ E4) as (F1 & F2 & F3 & F4).
  exists i, j, k, l. unfold inserted, append. cbn [elems models tab]. rewrite F2, D2, B2, A2, F3, D3, B3, A3. repeat split; auto.
  intros u o [E|[E|[E|[E|[]]]]]; inversion E; subst; (eexists; split; [reflexivity|auto 10]).
Qed.
Print Assumptions C111_controlled.

(** The insertions succeed: unless the value is zero (R, C) or the model is unknown. *)
Theorem C111_succeed : forall c id a b v, cwf c ->
  (~ v == 0 -> snd (add_resistor c id (Text a) (Text b) v) = Ok tt /\ snd (add_capacitor c id (Text a) (Text b) v) = Ok tt) /\
  snd (add_branch c id (Text a) (Text b) v) = Ok tt /\ snd (add_isource c id (Text a) (Text b) v) = Ok tt /\
  (forall vd s t, snd (add_vc vd c id (Text a) (Text b) (Text s) (Text t) v) = Ok tt) /\
  (forall label, In label (models c) -> snd (add_diode c id (Text a) (Text b) label) = Ok tt).
Proof.
  intros c id a b v W.
  destruct (cadd_node_wf c a W) as (c1 & i & E1 & W1 & _ & M1 & _). destruct (cadd_node_wf c1 b W1) as (c2 & j & E2 & W2 & _ & M2 & _).
  repeat split.
  - unfold add_resistor. rewrite E1. cbn [cbind]. rewrite E2. cbn [cbind].
    destruct (Qeq_bool v 0) eqn:Q; [apply Qeq_bool_iff in Q; contradiction|reflexivity].
  - unfold add_capacitor. destruct (Qeq_bool v 0) eqn:Q; [apply Qeq_bool_iff in Q; contradiction|].
    rewrite E1. cbn [cbind]. rewrite E2. reflexivity.
  - unfold add_branch. rewrite E1. cbn [cbind]. rewrite E2. reflexivity.
  - unfold add_isource. rewrite E1. cbn [cbind]. rewrite E2. reflexivity.
  - intros vd s t. destruct (cadd_node_wf c2 s W2) as (c3 & k & E3 & W3 & _). destruct (cadd_node_wf c3 t W3) as (c4 & l & E4 & _).
    unfold add_vc. rewrite E1. cbn [cbind]. rewrite E2. cbn [cbind]. rewrite E3. cbn [cbind]. rewrite E4. reflexivity.
  - intros label L. unfold add_diode. rewrite E1. cbn [cbind]. rewrite E2. cbn [cbind].
    destruct (existsb (String.eqb label) (models c2)) eqn:X; [reflexivity|].
    assert (Y : existsb (String.eqb label) (models c2) = true) by (apply existsb_exists; exists label; split; [congruence|apply String.eqb_refl]).
    congruence.
Qed.
Print Assumptions C111_succeed.

(** A coupling is inserted iff its two inductors, with different names, are there. *)
Theorem C111_coupling : forall is_ind c id l1 l2 v,
  let there l := exists e, In e (elems c) /\ is_ind e = true /\ part_id e = l in
  (there l1 /\ there l2 /\ l1 <> l2 ->
     add_coupling is_ind c id l1 l2 v = (append c (mkElem id None None None None false [] false v), Ok tt)) /\
  (~ (there l1 /\ there l2 /\ l1 <> l2) -> add_coupling is_ind c id l1 l2 v = (c, Err ValueError)).
Proof.
  intros is_ind c id l1 l2 v there. unfold add_coupling.
  destruct (existsb (fun e => is_ind e && (l1 =? part_id e)) (elems c)) eqn:H1;
    destruct (existsb (fun e => is_ind e && (l2 =? part_id e) && negb (l1 =? part_id e)) (elems c)) eqn:H2; cbn [andb].
  - split; [reflexivity|]. intros N. exfalso. apply N.
    apply existsb_exists in H1. destruct H1 as (e1 & I1 & X1). apply andb_true_iff in X1. destruct X1 as [Y1 Z1]. apply String.eqb_eq in Z1.
    apply existsb_exists in H2. destruct H2 as (e2 & I2 & X2). rewrite !andb_true_iff in X2. destruct X2 as [[Y2 Z2] N2].
    apply String.eqb_eq in Z2. apply negb_true_iff in N2. apply String.eqb_neq in N2. unfold there. repeat split; eauto. congruence.
  - split; [|reflexivity]. intros (_ & (e & I1 & Y & Z) & N). exfalso.
    assert (T : existsb (fun e => is_ind e && (l2 =? part_id e) && negb (l1 =? part_id e)) (elems c) = true); [|congruence].
    apply existsb_exists. exists e. split; [exact I1|]. rewrite Y, Z, String.eqb_refl. cbn [andb]. apply negb_true_iff, String.eqb_neq. exact N.
  - split; [|reflexivity]. intros ((e & I1 & Y & Z) & _). exfalso.
    assert (T : existsb (fun e => is_ind e && (l1 =? part_id e)) (elems c) = true); [|congruence].
    apply existsb_exists. exists e. split; [exact I1|]. rewrite Y, Z, String.eqb_refl. reflexivity.
  - split; [|reflexivity]. intros ((e & I1 & Y & Z) & _). exfalso.
    assert (T : existsb (fun e => is_ind e && (l1 =? part_id e)) (elems c) = true); [|congruence].
    apply existsb_exists. exists e. split; [exact I1|]. rewrite Y, Z, String.eqb_refl. reflexivity.
Qed.
Print Assumptions C111_coupling.

Example C111_example :
  let c := fst (add_vc true (fst (add_resistor empty_circ "R1" (Text "a") (Text "0") 5)) "E1" (Text "b") (Text "0") (Text "a") (Text "q") 2) in
  elems c = [mkElem "R1" (Some 1) (Some 0) None None false [] false 5; mkElem "E1" (Some 2) (Some 0) (Some 1) (Some 3) false [] true 2] /\
  map (ext_node_to_int (tab c)) ["a"; "0"; "b"; "q"] = [Ok 1; Ok 0; Ok 2; Ok 3].
Proof. split; reflexivity. Qed.

(** * C112: removal takes out one element and leaves ground *)

Lemma remove_first_split : forall p es x, find p es = Some x ->
  exists pre post, es = (pre ++ x :: post)%list /\ remove_first p es = (pre ++ post)%list /\ p x = true /\ forall e, In e pre -> p e = false.
Proof.
  induction es as [|a es IH]; intros x H; [discriminate|]. cbn [find remove_first] in *. destruct (p a) eqn:P.
  - inversion H; subst. exists [], es. repeat split; auto. intros e [].
  - destruct (IH x H) as (pre & post & E1 & E2 & E3 & E4). exists (a :: pre), post. cbn [app]. rewrite E1 at 1. rewrite E2.
    repeat split; auto. intros e [<-|He]; auto.
Qed.

(** The first element with that name (up to case) goes, all others stay in order;
    if there is none, nothing changes. *)
Theorem C112_removes_one : forall c s,
  (exists pre x post, elems c = (pre ++ x :: post)%list /\ lower (part_id x) = lower s /\
     (forall e, In e pre -> lower (part_id e) <> lower s) /\ elems (fst (remove_elem c s)) = (pre ++ post)%list) \/
  ((forall e, In e (elems c) -> lower (part_id e) <> lower s) /\ remove_elem c s = (c, Err ValueError)).
Proof.
  intros c s. unfold remove_elem, get_elem_by_name. destruct (find (name_match s) (elems c)) as [x|] eqn:F.
  - left. destruct (remove_first_split _ _ _ F) as (pre & post & E1 & E2 & E3 & E4). exists pre, x, post.
    unfold name_match in E3, E4. apply String.eqb_eq in E3. repeat split; auto.
    + intros e He. apply String.eqb_neq. apply E4. exact He.
    + destruct (orphans x (elem_nodes x) _); cbn [fst elems set_tab]; exact E2.
  - right. split; [|reflexivity]. intros e He. apply String.eqb_neq. exact (find_none _ _ F e He).
Qed.
Print Assumptions C112_removes_one.

(** Ground, once registered, is node 0 for good, over all histories of edits (also
    those where other nodes get mixed up, C02). *)
Record ginv (d : ndict) (g : bool) : Prop := {
  gi_nd : NoDup (dkeys d);
  gi_both : get d (KInt 0) = (if g then Some (KStr "0") else None) /\ get d (KStr "0") = (if g then Some (KInt 0) else None);
  gi_only : forall i, get d (KInt i) = Some (KStr "0") -> i = 0;
  gi_str : forall i v, get d (KInt i) = Some v -> exists s, v = KStr s
}.

Lemma ginv_fresh : forall d g s, ginv d g -> s <> "0" -> fresh_int d s <> 0.
Proof.
  intros d g s G N. unfold fresh_int. destruct (String.eqb_spec s ground_name) as [E|_]; [exfalso; apply N; exact E|].
  unfold dmem. destruct (gi_both d g G) as [H1 H2]. rewrite H1. destruct g; [|lia].
  assert (L : 2 <= length d).
  { apply (dget_In nkey_eqb nkey_eqb_spec) in H1. apply (dget_In nkey_eqb nkey_eqb_spec) in H2.
    destruct d as [|p [|q d]]; simpl in *; try lia; destruct H1 as [H1|[]]; destruct H2 as [H2|[]]; congruence. }
  destruct (length d) as [|[|n]]; simpl; lia.
Qed.
Lemma ginv_register : forall d g s, ginv d g -> get d (KStr s) = None ->
  ginv (register d (fresh_int d s) s) (g || (s =? "0")).
Proof.
  intros d g s G E. pose proof (gi_both d g G) as [H1 H2]. destruct (String.eqb_spec s "0") as [->|N].
  - assert (g = false) by (destruct g; [rewrite E in H2; discriminate|reflexivity]). subst g. cbn [orb].
    change (fresh_int d "0") with 0. constructor.
    + apply register_NoDup. apply (gi_nd d _ G).
    + rewrite !get_register. split; reflexivity.
    + intros i. rewrite get_register. cbn [nkey_eqb]. destruct (Nat.eqb_spec i 0) as [->|]; [reflexivity|apply (gi_only d _ G)].
    + intros i v. rewrite get_register. cbn [nkey_eqb]. destruct (i =? 0)%nat; [intros H; inversion H; eauto|apply (gi_str d _ G)].
  - rewrite orb_false_r. pose proof (ginv_fresh d g s G N) as F. constructor.
    + apply register_NoDup. apply (gi_nd d _ G).
    + rewrite !get_register. cbn [nkey_eqb]. destruct (Nat.eqb_spec 0 (fresh_int d s)); [congruence|].
      destruct (String.eqb_spec "0" s); [congruence|]. apply (gi_both d _ G).
    + intros i. rewrite get_register. cbn [nkey_eqb]. destruct (i =? fresh_int d s)%nat; [congruence|apply (gi_only d _ G)].
    + intros i v. rewrite get_register. cbn [nkey_eqb]. destruct (i =? fresh_int d s)%nat; [intros H; inversion H; eauto|apply (gi_str d _ G)].
Qed.
Lemma ginv_pop : forall d g n, ginv d g -> n <> 0 -> ginv (fst (pop_node d n)) g.
Proof.
  intros d g n G N. unfold pop_node. destruct (get d (KInt n)) as [nm|] eqn:E; [|exact G].
  destruct (gi_str d _ G _ _ E) as [s ->]. assert (S0 : s <> "0") by (intros ->; apply N; exact (gi_only d _ G n E)).
  destruct (dmem nkey_eqb d (KStr s)); [|exact G].
  assert (D1 : forall d k, ginv d g -> k <> KInt 0 -> k <> KStr "0" -> ginv (ddel nkey_eqb d k) g).
  { clear. intros d k G K1 K2. pose proof (gi_nd d _ G) as ND. constructor.
    - apply (ddel_NoDup nkey_eqb). exact ND.
    - rewrite !(dget_ddel _ nkey_eqb_spec) by exact ND. destruct (nkey_eqb_spec (KInt 0) k); [congruence|].
      destruct (nkey_eqb_spec (KStr "0") k); [congruence|]. apply (gi_both d _ G).
    - intros i. rewrite (dget_ddel _ nkey_eqb_spec) by exact ND. destruct (nkey_eqb (KInt i) k); [discriminate|apply (gi_only d _ G)].
    - intros i v. rewrite (dget_ddel _ nkey_eqb_spec) by exact ND. destruct (nkey_eqb (KInt i) k); [discriminate|apply (gi_str d _ G)]. }
  assert (G1 : ginv (ddel nkey_eqb d (KStr s)) g) by (apply D1; [exact G|discriminate|congruence]).
  destruct (dmem nkey_eqb (ddel nkey_eqb d (KStr s)) (KInt n)); cbn [fst]; [|exact G1].
  apply D1; [exact G1|congruence|discriminate].
Qed.
Lemma ginv_pops : forall l d g, ginv d g -> ~ In 0 l -> ginv (fst (pop_nodes d l)) g.
Proof.
  induction l as [|n l IH]; intros d g G N; [exact G|]. cbn [pop_nodes].
  assert (G1 : ginv (fst (pop_node d n)) g) by (apply ginv_pop; [exact G|intros ->; apply N; left; reflexivity]).
  destruct (pop_node d n) as [d1 [u|e]]; cbn [fst] in *; [|exact G1]. apply IH; [exact G1|intros H; apply N; right; exact H].
Qed.
Lemma add_new_0 : forall n l, ~ In 0 l -> ~ In 0 (add_new n l).
Proof.
  intros n l H. unfold add_new. destruct (Nat.eqb_spec n 0) as [->|N]; [exact H|]. cbn [orb].
  destruct (existsb (Nat.eqb n) l); [exact H|]. intros I1. apply in_app_or in I1. destruct I1 as [I1|[I1|[]]]; [exact (H I1)|congruence].
Qed.
Lemma elem_nodes_0 : forall e, ~ In 0 (elem_nodes e).
Proof.
  intros e. unfold elem_nodes.
  assert (O : forall o l, ~ In 0 l -> ~ In 0 (add_opt o l)) by (intros [n|] l H; [apply add_new_0; exact H|exact H]).
  assert (B : ~ In 0 (add_opt (at_n2 e) (add_opt (at_n1 e) []))) by (apply O, O; intros []).
  destruct (nonlin e); [|exact B]. revert B. generalize (add_opt (at_n2 e) (add_opt (at_n1 e) [])).
  induction (ports e) as [|p ps IH]; intros l B; [exact B|]. cbn [fold_left]. apply IH. apply add_new_0, add_new_0, B.
Qed.

(** [gok c c']: the table of [c'] is sound for ground, and ground is still there if it
    was in [c]. *)
Definition gok (g : bool) (c : circ) : Prop := exists g', ginv (nodes_dict (tab c)) g' /\ (g = true -> g' = true).
Lemma gok_cadd : forall g c n, gok g c -> gok g (fst (cadd_node c n)).
Proof.
  intros g c [s|] G; [|exact G]. destruct G as (g' & G & M). unfold gok, cadd_node, add_node. cbn [fst tab set_tab].
  destruct (get (nodes_dict (tab c)) (KStr s)) as [[?|?]|] eqn:E; cbn [fst nodes_dict]; try (exists g'; split; [exact G|exact M]).
  exists (g' || (s =? "0")). split; [apply ginv_register; assumption|]. intros H. rewrite (M H). reflexivity.
Qed.
Lemma gok_bind : forall g A (m : circ * res A) B (f : circ -> A -> circ * res B),
  gok g (fst m) -> (forall c a, gok g c -> gok g (fst (f c a))) -> gok g (fst (cbind m f)).
Proof. intros g A [c [a|e]] B f H F; cbn [cbind fst] in *; [apply F; exact H|exact H]. Qed.

Lemma gok_step : forall g c o, gok g c -> gok g (step_cop c o).
Proof.
  intros g c o G.
  assert (SAME : forall c c', tab c' = tab c -> gok g c -> gok g c') by (intros x y E; unfold gok; rewrite E; auto).
  assert (TWO : forall n1 n2 (f : circ -> nat -> nat -> circ * res unit), (forall c i j, tab (fst (f c i j)) = tab c) ->
    gok g (fst (cbind (cadd_node c n1) (fun c1 i => cbind (cadd_node c1 n2) (fun c2 j => f c2 i j))))).
  { intros n1 n2 f F. apply gok_bind; [apply gok_cadd, G|]. intros c1 i G1. apply gok_bind; [apply gok_cadd, G1|].
    intros c2 j G2. apply (SAME c2); [apply F|exact G2]. }
  destruct o as [id a b v|id a b v|id a b v|id a b v|vd id a b s t v|id a b l|id]; cbn [step_cop].
  - apply (TWO (Text a) (Text b) (fun c2 i j => if Qeq_bool v 0 then (c2, Err CircuitError) else (append c2 (two_term id false i j v), Ok tt))).
    intros. destruct (Qeq_bool v 0); reflexivity.
  - unfold add_capacitor. destruct (Qeq_bool v 0); [exact G|].
    apply (TWO (Text a) (Text b) (fun c2 i j => (append c2 (two_term id false i j v), Ok tt))). reflexivity.
  - apply (TWO (Text a) (Text b) (fun c2 i j => (append c2 (two_term id true i j v), Ok tt))). reflexivity.
  - apply (TWO (Text a) (Text b) (fun c2 i j => (append c2 (two_term id false i j v), Ok tt))). reflexivity.
  - unfold add_vc. apply gok_bind; [apply gok_cadd, G|]. intros c1 i G1. apply gok_bind; [apply gok_cadd, G1|]. intros c2 j G2.
    apply gok_bind; [apply gok_cadd, G2|]. intros c3 k G3. apply gok_bind; [apply gok_cadd, G3|]. intros c4 m G4.
    apply (SAME c4); [reflexivity|exact G4].
  - apply (TWO (Text a) (Text b) (fun c2 i j => if existsb (String.eqb l) (models c2)
      then (append c2 (mkElem id (Some i) (Some j) None None true [(i, j)] false 0), Ok tt) else (c2, Err ModelError))).
    intros c2 i j. destruct (existsb _ (models c2)); reflexivity.
  - unfold remove_elem. destruct (get_elem_by_name c id) as [x|e]; [|exact G].
    destruct (orphans x (elem_nodes x) _) as [l|e] eqn:O; cbn [fst]; [|apply (SAME c); [reflexivity|exact G]].
    destruct G as (g' & G & M). exists g'. split; [|exact M]. cbn [tab set_tab nodes_dict].
    apply ginv_pops; [exact G|]. intros H. destruct (orphans_spec _ _ _ _ O 0 H) as [N _]. exact (elem_nodes_0 x N).
Qed.
Lemma gok_run : forall g ops c, gok g c -> gok g (run_cops ops c).
Proof. intros g. induction ops as [|o ops IH]; intros c G; [exact G|]. apply (IH (step_cop c o)), gok_step, G. Qed.

Theorem C112_ground_stays : forall ops more i,
  let c := run_cops ops empty_circ in let c' := run_cops (ops ++ more) empty_circ in
  ext_node_to_int (tab c) "0" = Ok i ->
  i = 0 /\ ext_node_to_int (tab c') "0" = Ok 0 /\ int_node_to_ext (tab c') 0 = Ok "0".
Proof.
  intros ops more i c c' H. unfold c'. rewrite run_cops_app. fold c.
  assert (G0 : gok false empty_circ).
  { exists false. split; [|discriminate]. constructor; simpl; auto; try discriminate. constructor. }
  destruct (gok_run false ops empty_circ G0) as (g & G & _). fold c in G.
  unfold ext_node_to_int in H. destruct (gi_both _ _ G) as [_ H2]. rewrite H2 in H. destruct g; [|discriminate]. inversion H; subst.
  split; [reflexivity|].
  destruct (gok_run true more c) as (g' & G' & M); [exists true; auto|]. rewrite (M eq_refl) in G'.
  unfold ext_node_to_int, int_node_to_ext. destruct (gi_both _ _ G') as [-> ->]. auto.
Qed.
Print Assumptions C112_ground_stays.

Example C112_example :
  let c := run_cops [AddR "R1" "a" "0" 1; AddR "R2" "b" "0" 1; AddR "R3" "a" "b" 1; Rem "r2"] empty_circ in
  map part_id (elems c) = ["R1"; "R3"] /\
  map part_id (elems (run_cops [Rem "R1"; Rem "R3"] c)) = [] /\ ext_node_to_int (tab (run_cops [Rem "R1"; Rem "R3"] c)) "0" = Ok 0.
Proof. repeat split; reflexivity. Qed.
