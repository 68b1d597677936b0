(** Proofs about the node table. *)
From Coq Require Import String Ascii List Bool Arith Lia.
From Verif Require Import Base BaseFacts Nodes.
Import ListNotations.

Lemma nkey_eqb_spec : forall a b, reflect (a = b) (nkey_eqb a b).
Proof.
  intros [m|s] [n|t]; simpl; try (constructor; discriminate).
  - destruct (Nat.eqb_spec m n); constructor; congruence.
  - destruct (String.eqb_spec s t); constructor; congruence.
Qed.

Local Notation get := (dget nkey_eqb).

Record ninv (d : ndict) (g : bool) (m : nat) : Prop := {
  ni_str : forall s v, get d (KStr s) = Some v ->
             exists i, v = KInt i /\ get d (KInt i) = Some (KStr s);
  ni_int : forall i v, get d (KInt i) = Some v ->
             exists s, v = KStr s /\ get d (KStr s) = Some (KInt i);
  ni_gnd : get d (KStr ground_name) = if g then Some (KInt 0) else None;
  ni_zero : forall s, get d (KInt 0) = Some (KStr s) -> s = ground_name;
  ni_range : forall i, get d (KInt i) <> None <-> (i = 0 /\ g = true) \/ (1 <= i <= m);
  ni_len : length d = 2 * (m + (if g then 1 else 0))
}.

Lemma ninv_empty : ninv [] false 0.
Proof.
  constructor; simpl; intros; try discriminate; try reflexivity.
  split; [congruence|]. intros [[_ H]|H]; [discriminate|lia].
Qed.

Lemma div2_double : forall n, Nat.div2 (2 * n) = n.
Proof. intro n. rewrite Nat.div2_double. reflexivity. Qed.

Lemma fresh_int_gnd : forall d, fresh_int d ground_name = 0.
Proof. reflexivity. Qed.

Lemma ninv_zero_mem : forall d g m, ninv d g m -> dmem nkey_eqb d (KInt 0) = g.
Proof.
  intros d g m I. unfold dmem.
  destruct (get d (KInt 0)) eqn:E.
  - assert (get d (KInt 0) <> None) as H by congruence.
    apply (ni_range _ _ _ I) in H. destruct H as [[_ H]|H]; [auto|lia].
  - destruct g; [|reflexivity]. exfalso.
    assert (get d (KInt 0) <> None) as H; [|congruence].
    apply (ni_range _ _ _ I). auto.
Qed.

Lemma fresh_int_other : forall d g m s,
  ninv d g m -> s <> ground_name -> fresh_int d s = S m.
Proof.
  intros d g m s I Hs. unfold fresh_int.
  destruct (String.eqb_spec s ground_name); [contradiction|].
  rewrite (ninv_zero_mem _ _ _ I), (ni_len _ _ _ I), div2_double.
  destruct g; lia.
Qed.

Lemma get_register : forall d i s k,
  get (register d i s) k =
  if nkey_eqb k (KStr s) then Some (KInt i)
  else if nkey_eqb k (KInt i) then Some (KStr s) else get d k.
Proof.
  intros. unfold register. rewrite !(dget_dset _ nkey_eqb_spec). reflexivity.
Qed.

Lemma ninv_register_gnd : forall d m,
  ninv d false m -> ninv (register d 0 ground_name) true m.
Proof.
  intros d m I.
  assert (G0 : get d (KInt 0) = None).
  { destruct (get d (KInt 0)) eqn:E; [|reflexivity].
    assert (get d (KInt 0) <> None) as H by congruence.
    apply (ni_range _ _ _ I) in H. destruct H as [[_ H]|H]; [discriminate|lia]. }
  pose proof (ni_gnd _ _ _ I) as GS. simpl in GS.
  constructor.
  - intros s v. rewrite get_register. cbn [nkey_eqb].
    destruct (String.eqb_spec s ground_name) as [->|Hs].
    + intros H; inversion H; subst. exists 0. rewrite get_register. auto.
    + intros H. apply (ni_str _ _ _ I) in H. destruct H as [i [-> Hi]].
      exists i. rewrite get_register. cbn [nkey_eqb].
      destruct (Nat.eqb_spec i 0) as [->|]; [congruence|auto].
  - intros i v. rewrite get_register. cbn [nkey_eqb].
    destruct (Nat.eqb_spec i 0) as [->|Hi].
    + intros H; inversion H; subst. exists ground_name. rewrite get_register. auto.
    + intros H. apply (ni_int _ _ _ I) in H. destruct H as [s [-> Hs]].
      exists s. rewrite get_register. cbn [nkey_eqb].
      destruct (String.eqb_spec s ground_name) as [->|]; [congruence|auto].
  - rewrite get_register. reflexivity.
  - intros s. rewrite get_register. cbn. intros H; inversion H; reflexivity.
  - intros i. rewrite get_register. cbn [nkey_eqb].
    destruct (Nat.eqb_spec i 0) as [->|Hi].
    + split; intros _; [auto|discriminate].
    + rewrite (ni_range _ _ _ I). split; intros [[? ?]|?]; auto; try discriminate; lia.
  - unfold register.
    rewrite (length_dset_new _ nkey_eqb_spec), (length_dset_new _ nkey_eqb_spec), (ni_len _ _ _ I); auto.
    + simpl. lia.
    + rewrite (dget_dset _ nkey_eqb_spec). cbn [nkey_eqb]. exact GS.
Qed.

Lemma ninv_register_other : forall d g m s,
  ninv d g m -> s <> ground_name -> get d (KStr s) = None ->
  ninv (register d (S m) s) g (S m).
Proof.
  intros d g m s I Hsg Hn.
  assert (Gi : get d (KInt (S m)) = None).
  { destruct (get d (KInt (S m))) eqn:E; [|reflexivity].
    assert (get d (KInt (S m)) <> None) as H by congruence.
    apply (ni_range _ _ _ I) in H. destruct H as [[H _]|H]; lia. }
  constructor.
  - intros t v. rewrite get_register. cbn [nkey_eqb].
    destruct (String.eqb_spec t s) as [->|Ht].
    + intros H; inversion H; subst. exists (S m). split; [reflexivity|].
      rewrite get_register. cbn [nkey_eqb]. rewrite Nat.eqb_refl. reflexivity.
    + intros H. apply (ni_str _ _ _ I) in H. destruct H as [i [-> Hi]].
      exists i. rewrite get_register. cbn [nkey_eqb].
      destruct (Nat.eqb_spec i (S m)) as [->|]; [congruence|auto].
  - intros i v. rewrite get_register. cbn [nkey_eqb].
    destruct (Nat.eqb_spec i (S m)) as [->|Hi].
    + intros H; inversion H; subst. exists s. split; [reflexivity|].
      rewrite get_register. cbn [nkey_eqb]. rewrite String.eqb_refl. reflexivity.
    + intros H. apply (ni_int _ _ _ I) in H. destruct H as [t [-> Ht]].
      exists t. rewrite get_register. cbn [nkey_eqb].
      destruct (String.eqb_spec t s) as [->|]; [congruence|auto].
  - rewrite get_register. cbn [nkey_eqb].
    destruct (String.eqb_spec ground_name s); [congruence|]. apply (ni_gnd _ _ _ I).
  - intros t. rewrite get_register. cbn [nkey_eqb].
    cbn [Nat.eqb]. apply (ni_zero _ _ _ I).
  - intros i. rewrite get_register. cbn [nkey_eqb].
    destruct (Nat.eqb_spec i (S m)) as [->|Hi].
    + split; [intros _; right; lia|discriminate].
    + rewrite (ni_range _ _ _ I). split; intros [[? ?]|?]; auto; right; lia.
  - unfold register.
    rewrite (length_dset_new _ nkey_eqb_spec), (length_dset_new _ nkey_eqb_spec), (ni_len _ _ _ I); auto.
    + lia.
    + rewrite (dget_dset _ nkey_eqb_spec). cbn [nkey_eqb]. exact Hn.
Qed.

Lemma ninv_register_fresh : forall d g m s,
  ninv d g m -> get d (KStr s) = None ->
  exists g' m', ninv (register d (fresh_int d s) s) g' m'.
Proof.
  intros d g m s I Hn. destruct (String.eqb_spec s ground_name) as [->|Hs].
  - rewrite fresh_int_gnd. pose proof (ni_gnd _ _ _ I) as G. rewrite Hn in G.
    destruct g; [discriminate|]. eauto using ninv_register_gnd.
  - rewrite (fresh_int_other _ _ _ _ I Hs). eauto using ninv_register_other.
Qed.

Definition tinv (t : ntab) : Prop := exists g m, ninv (nodes_dict t) g m.

Lemma add_node_tinv : forall t n, tinv t -> tinv (fst (add_node t n)).
Proof.
  intros t n [g [m I]]. destruct n as [s|]; simpl; [|exists g, m; exact I].
  destruct (get (nodes_dict t) (KStr s)) as [[i|s']|] eqn:E; simpl;
    try (exists g, m; exact I).
  eapply ninv_register_fresh; eauto.
Qed.

Lemma create_node_tinv : forall t n, tinv t -> tinv (fst (create_node t n)).
Proof.
  intros t n [g [m I]]. destruct n as [s|]; simpl; [|exists g, m; exact I].
  destruct (get (nodes_dict t) (KStr s)) as [v|] eqn:E; simpl;
    try (exists g, m; exact I).
  eapply ninv_register_fresh; eauto.
Qed.

Lemma step_nop_tinv : forall t o, tinv t -> tinv (step_nop t o).
Proof.
  intros t [n|n|] H; simpl.
  - apply add_node_tinv; exact H.
  - apply create_node_tinv; exact H.
  - apply create_node_tinv. exact H.
Qed.

Lemma run_nops_tinv : forall ops, tinv (run_nops ops).
Proof.
  intros ops. unfold run_nops.
  assert (G : forall t, tinv t -> tinv (fold_left step_nop ops t)).
  { induction ops as [|o ops IH]; intros t H; simpl; [exact H|].
    apply IH, step_nop_tinv, H. }
  apply G. exists false, 0. apply ninv_empty.
Qed.

(** Consequences in terms of the public lookups. *)
Lemma ext_int_inverse : forall t s i, tinv t ->
  (ext_node_to_int t s = Ok i <-> int_node_to_ext t i = Ok s).
Proof.
  intros t s i [g [m I]]. unfold ext_node_to_int, int_node_to_ext. split.
  - destruct (get (nodes_dict t) (KStr s)) as [v|] eqn:E; [|discriminate].
    destruct (ni_str _ _ _ I _ _ E) as [j [-> Hj]]. intros H; inversion H; subst.
    rewrite Hj. reflexivity.
  - destruct (get (nodes_dict t) (KInt i)) as [v|] eqn:E; [|discriminate].
    destruct (ni_int _ _ _ I _ _ E) as [u [-> Hu]]. intros H; inversion H; subst.
    rewrite Hu. reflexivity.
Qed.

Lemma ext_zero_iff : forall t s i, tinv t ->
  ext_node_to_int t s = Ok i -> (i = 0 <-> s = ground_name).
Proof.
  intros t s i T H. pose proof T as [g [m I]].
  pose proof (proj1 (ext_int_inverse t s i T) H) as H'. split; intros ->.
  - unfold int_node_to_ext in H'.
    destruct (get (nodes_dict t) (KInt 0)) as [[|u]|] eqn:E; try discriminate.
    inversion H'; subst. eapply ni_zero; eauto.
  - unfold ext_node_to_int in H. rewrite (ni_gnd _ _ _ I) in H.
    destruct g; [inversion H; auto|discriminate].
Qed.

Definition registered_int (t : ntab) (i : nat) : Prop := isOk (int_node_to_ext t i) = true.

Lemma registered_int_get : forall t i, tinv t ->
  (registered_int t i <-> get (nodes_dict t) (KInt i) <> None).
Proof.
  intros t i [g [m I]]. unfold registered_int, int_node_to_ext.
  destruct (get (nodes_dict t) (KInt i)) as [v|] eqn:E.
  - destruct (ni_int _ _ _ I _ _ E) as [u [-> Hu]]. simpl. split; congruence.
  - simpl. split; congruence.
Qed.

Lemma contiguous : forall t i, tinv t ->
  (1 <= i)  ->
  (registered_int t i <->
   i <= get_nodes_number t - (if isOk (ext_node_to_int t ground_name) then 1 else 0)).
Proof.
  intros t i T Hi. rewrite (registered_int_get t i T).
  destruct T as [g [m I]]. rewrite (ni_range _ _ _ I).
  unfold get_nodes_number, ext_node_to_int.
  rewrite (ni_len _ _ _ I), div2_double, (ni_gnd _ _ _ I).
  destruct g; simpl; split; intros; try lia.
Qed.

Lemma add_known : forall t s i, tinv t ->
  ext_node_to_int t s = Ok i -> add_node t (Text s) = (t, Ok i).
Proof.
  intros t s i _. unfold ext_node_to_int, add_node.
  destruct (get (nodes_dict t) (KStr s)) as [[j|]|]; try discriminate.
  intros H; inversion H; reflexivity.
Qed.

Lemma create_known : forall t s i, tinv t ->
  ext_node_to_int t s = Ok i -> create_node t (Text s) = (t, Err ValueError).
Proof.
  intros t s i _. unfold ext_node_to_int, create_node.
  destruct (get (nodes_dict t) (KStr s)) as [[j|]|]; try discriminate. reflexivity.
Qed.

Lemma add_ok : forall t s, tinv t ->
  exists i, snd (add_node t (Text s)) = Ok i /\
            ext_node_to_int (fst (add_node t (Text s))) s = Ok i.
Proof.
  intros t s [g [m I]]. unfold add_node, ext_node_to_int.
  destruct (get (nodes_dict t) (KStr s)) as [v|] eqn:E.
  - destruct (ni_str _ _ _ I _ _ E) as [j [-> Hj]]. exists j. simpl. rewrite E. auto.
  - eexists; split; [reflexivity|]. simpl. rewrite get_register. simpl.
    rewrite String.eqb_refl. reflexivity.
Qed.

(** Names registered earlier keep their integer. *)
Lemma get_register_old : forall d g m s u v, ninv d g m ->
  get d (KStr s) = None -> get d (KStr u) = Some v ->
  get (register d (fresh_int d s) s) (KStr u) = Some v.
Proof.
  intros. rewrite get_register. cbn [nkey_eqb].
  destruct (String.eqb_spec u s) as [->|]; [congruence|assumption].
Qed.

Lemma step_keeps : forall t o s i, tinv t ->
  ext_node_to_int t s = Ok i -> ext_node_to_int (step_nop t o) s = Ok i.
Proof.
  assert (A : forall t n s i, tinv t -> ext_node_to_int t s = Ok i ->
              ext_node_to_int (fst (add_node t n)) s = Ok i).
  { intros t [u|] s i [g [m I]] H; simpl; [|exact H].
    destruct (get (nodes_dict t) (KStr u)) as [[?|?]|] eqn:E; simpl; auto.
    unfold ext_node_to_int in *. simpl.
    destruct (get (nodes_dict t) (KStr s)) as [v|] eqn:E'; [|discriminate].
    rewrite (get_register_old _ _ _ _ _ _ I E E'). exact H. }
  assert (C : forall t n s i, tinv t -> ext_node_to_int t s = Ok i ->
              ext_node_to_int (fst (create_node t n)) s = Ok i).
  { intros t [u|] s i [g [m I]] H; simpl; [|exact H].
    destruct (get (nodes_dict t) (KStr u)) as [?|] eqn:E; simpl; auto.
    unfold ext_node_to_int in *. simpl.
    destruct (get (nodes_dict t) (KStr s)) as [v|] eqn:E'; [|discriminate].
    rewrite (get_register_old _ _ _ _ _ _ I E E'). exact H. }
  intros t [n|n|] s i T H; simpl; auto.
  unfold new_internal_node. apply C; auto.
Qed.
