(** Property theorems about device stamps (C94, C95). *)
From Coq Require Import Reals List Bool Arith Lia Lra.
From Verif Require Import Base BaseFacts Rsum Stamp.
Import ListNotations.
Open Scope R_scope.

Lemma pair_eqb_spec : forall a b, reflect (a = b) (pair_eqb a b).
Proof.
  intros [a b] [c d]. unfold pair_eqb; simpl. destruct (Nat.eqb_spec a c); destruct (Nat.eqb_spec b d); constructor; congruence.
Qed.

(** The share of the index [k] in a list of entries. *)
Definition share (k : nat * nat) (es : list ((nat * nat) * R)) : R := lsum (fun e => if pair_eqb (fst e) k then snd e else 0) es.
Definition val (k : nat * nat) (d : list ((nat * nat) * R)) : R := match dget pair_eqb d k with Some v => v | None => 0 end.

Lemma fold_step_val : forall acc e k, val k (fold_step acc e) = val k acc + (if pair_eqb (fst e) k then snd e else 0).
Proof.
  intros acc [k0 v0] k. unfold fold_step, val; cbn [fst snd]. destruct (dget pair_eqb acc k0) as [v|] eqn:D.
  - rewrite (dget_dset pair_eqb pair_eqb_spec). destruct (pair_eqb_spec k k0) as [->|N].
    + rewrite D. destruct (pair_eqb_spec k0 k0); [reflexivity|contradiction].
    + destruct (pair_eqb_spec k0 k) as [E|_]; [congruence|]. lra.
  - assert (A : forall d : list ((nat * nat) * R), dget pair_eqb (d ++ [(k0, v0)]) k = match dget pair_eqb d k with Some v => Some v | None => if pair_eqb k k0 then Some v0 else None end).
    { induction d as [|[k1 v1] d IH]; simpl; [reflexivity|]. destruct (pair_eqb k k1); [reflexivity|exact IH]. }
    rewrite A. destruct (pair_eqb_spec k k0) as [->|N].
    + rewrite D. destruct (pair_eqb_spec k0 k0); [lra|contradiction].
    + destruct (pair_eqb_spec k0 k) as [E|_]; [congruence|]. destruct (dget pair_eqb acc k); lra.
Qed.
Lemma fold_step_NoDup : forall acc e, NoDup (map fst acc) -> NoDup (map fst (fold_step acc e)).
Proof.
  intros acc [k0 v0] H. unfold fold_step; cbn [fst snd]. destruct (dget pair_eqb acc k0) as [v|] eqn:D.
  - apply (dset_NoDup pair_eqb pair_eqb_spec). exact H.
  - rewrite map_app. simpl. apply (dget_None_notin pair_eqb pair_eqb_spec) in D. unfold dkeys in D.
    apply NoDup_rev in H. rewrite <- (rev_involutive (map fst acc ++ [k0])). apply NoDup_rev. rewrite rev_app_distr. simpl.
    constructor; [|exact H]. intros K. apply in_rev in K. contradiction.
Qed.
Lemma folded_val : forall es k, val k (folded es) = share k es.
Proof.
  intros es k. unfold folded, share.
  assert (G : forall acc, val k (fold_left fold_step es acc) = val k acc + lsum (fun e => if pair_eqb (fst e) k then snd e else 0) es).
  { induction es as [|e es IH]; intros acc; simpl; [lra|]. rewrite IH, fold_step_val. lra. }
  rewrite G. unfold val; simpl. lra.
Qed.
Lemma folded_NoDup : forall es, NoDup (map fst (folded es)).
Proof.
  intros es. unfold folded. assert (G : forall acc, NoDup (map fst acc) -> NoDup (map fst (fold_left fold_step es acc))).
  { induction es as [|e es IH]; intros acc H; [exact H|]. simpl. apply IH. apply fold_step_NoDup. exact H. }
  apply G. constructor.
Qed.
Lemma folded_keys : forall es k, In k (map fst (folded es)) -> In k (map fst es).
Proof.
  intros es k. unfold folded. assert (G : forall acc, In k (map fst (fold_left fold_step es acc)) -> In k (map fst acc) \/ In k (map fst es)).
  { induction es as [|e es IH]; intros acc H; [left; exact H|]. simpl in H. destruct (IH _ H) as [K|K]; [|right; right; exact K].
    unfold fold_step in K. destruct (dget pair_eqb acc (fst e)) as [v|] eqn:D.
    - left. assert (E := dset_keys_old pair_eqb pair_eqb_spec acc (fst e) (v + snd e)). unfold dkeys in E. rewrite E in K; [exact K|].
      rewrite D. discriminate.
    - rewrite map_app in K. apply in_app_or in K. destruct K as [K|[K|[]]]; [left; exact K|right; left; exact K]. }
  intros H. destruct (G [] H) as [[]|K]. exact K.
Qed.
Lemma folded_nonempty : forall es, es <> [] -> folded es <> [].
Proof.
  intros es. unfold folded. assert (G : forall acc, acc <> [] \/ es <> [] -> fold_left fold_step es acc <> []).
  { induction es as [|e es IH]; intros acc H; simpl; [destruct H; [assumption|contradiction]|].
    apply IH. left. unfold fold_step. destruct (dget pair_eqb acc (fst e)) eqn:D.
    - destruct acc as [|[k v] acc]; [discriminate|]. simpl. destruct (pair_eqb (fst e) k); discriminate.
    - destruct acc; discriminate. }
  intros H. apply G. right. exact H.
Qed.

(** numpy's fancy assignment with distinct live indices adds each entry once. *)
Lemma fancy_val : forall es (J M : mat) r c, (1 <= r)%nat -> (1 <= c)%nat -> NoDup (map fst es) ->
  (forall k, In k (map fst es) -> (1 <= fst k)%nat /\ (1 <= snd k)%nat) ->
  (forall k, In k (map fst es) -> M (fst k - 1)%nat (snd k - 1)%nat = J (fst k - 1)%nat (snd k - 1)%nat) ->
  fold_left (fun M e => mset M (fst (fst e) - 1) (snd (fst e) - 1) (J (fst (fst e) - 1)%nat (snd (fst e) - 1)%nat + snd e)) es M (r - 1)%nat (c - 1)%nat
  = M (r - 1)%nat (c - 1)%nat + val (r, c) es.
Proof.
  induction es as [|[[a b] v] es IH]; intros J M r c Hr Hc ND LV EQ; [unfold val; simpl; lra|].
  cbn [map fst] in *. inversion ND as [|? ? NI ND']; subst. cbn [fold_left fst snd].
  assert (L := LV (a, b) (or_introl eq_refl)). cbn [fst snd] in L.
  rewrite IH; [|exact Hr|exact Hc|exact ND'|intros k K; apply LV; right; exact K|].
  - unfold val. cbn [dget]. destruct (pair_eqb_spec (r, c) (a, b)) as [E|N].
    + injection E as -> ->. rewrite mset_same. assert (D : dget pair_eqb es (a, b) = None).
      { destruct (dget pair_eqb es (a, b)) eqn:D; [|reflexivity]. apply (dget_In pair_eqb pair_eqb_spec) in D. apply in_map with (f := fst) in D. contradiction. }
      rewrite D. assert (Q := EQ (a, b) (or_introl eq_refl)). cbn [fst snd] in Q. rewrite Q. lra.
    + rewrite mset_other; [reflexivity|]. destruct (Nat.eq_dec r a); [right|left]; [|lia]. intros K. apply N. f_equal; lia.
  - intros k K. assert (Lk := LV k (or_intror K)). rewrite mset_other; [apply EQ; right; exact K|].
    destruct k as [ka kb]. cbn [fst snd] in *. destruct (Nat.eq_dec ka a); [right|left]; [|lia]. intros Z. apply NI. replace (a, b) with (ka, kb) by (f_equal; lia). exact K.
Qed.

Lemma filter_pairs : forall (A B : Type) (f : A -> B) (p : B -> bool) L L2,
  filter (fun rc => p (fst rc) && p (snd rc)) (flat_map (fun r => map (fun c => (r, c)) (map f L2)) (map f L)) =
  flat_map (fun i => map (fun j => (f i, f j)) (filter (fun i => p (f i)) L2)) (filter (fun i => p (f i)) L).
Proof.
  intros A B f p L L2.
  assert (G : forall i, filter (fun rc : B * B => p (fst rc) && p (snd rc)) (map (fun c => (f i, c)) (map f L2)) =
              if p (f i) then map (fun j => (f i, f j)) (filter (fun i => p (f i)) L2) else []).
  { intros i. induction L2 as [|j L2 IH2]; [destruct (p (f i)); reflexivity|]. simpl. rewrite IH2.
    destruct (p (f i)); simpl; [destruct (p (f j)); reflexivity|reflexivity]. }
  induction L as [|i L IH]; [reflexivity|]. simpl. rewrite filter_app, IH, G. destruct (p (f i)); reflexivity.
Qed.
Lemma combine_map_app : forall (A B C : Type) (f : A -> B) (g : A -> C) L x y,
  combine (map f L ++ x) (map g L ++ y) = map (fun j => (f j, g j)) L ++ combine x y.
Proof. intros A B C f g L x y. induction L as [|j L IH]; [reflexivity|]. simpl. rewrite IH. reflexivity. Qed.
Lemma combine_flat : forall (A B C : Type) (f : A -> A -> B) (g : A -> A -> C) L L2,
  combine (flat_map (fun i => map (f i) L2) L) (flat_map (fun i => map (g i) L2) L) =
  flat_map (fun i => map (fun j => (f i j, g i j)) L2) L.
Proof.
  intros A B C f g L L2. induction L as [|i L IH]; [reflexivity|]. simpl. rewrite combine_map_app, IH. reflexivity.
Qed.
Lemma map_nth_seq : forall (ns : list nat), map (fun p => nth p ns 0%nat) (seq 0 (length ns)) = ns.
Proof.
  induction ns as [|a ns IH]; [reflexivity|]. simpl. f_equal. rewrite <- seq_shift, map_map. exact IH.
Qed.
Lemma entries_eq : forall ns s, combine (live_indices ns) (flat s (kept ns)) =
  flat_map (fun i => map (fun j => ((nth i ns 0%nat, nth j ns 0%nat), s i j)) (kept ns)) (kept ns).
Proof.
  intros ns s. unfold live_indices, all_indices, flat, kept.
  assert (E := filter_pairs nat nat (fun p => nth p ns 0%nat) (fun n => negb (n =? 0)%nat) (seq 0 (length ns)) (seq 0 (length ns))).
  rewrite map_nth_seq in E. rewrite E. apply combine_flat.
Qed.

Lemma lsum_flat_map : forall A B (f : B -> R) (g : A -> list B) l, lsum f (flat_map g l) = lsum (fun a => lsum f (g a)) l.
Proof. intros A B f g l. induction l as [|a l IH]; [reflexivity|]. simpl. rewrite lsum_app, IH. reflexivity. Qed.
Lemma lsum_map : forall A B (f : B -> R) (g : A -> B) l, lsum f (map g l) = lsum (fun a => f (g a)) l.
Proof. intros A B f g l. induction l as [|a l IH]; [reflexivity|]. simpl. rewrite IH. reflexivity. Qed.
Lemma lsum_filter : forall A (f : A -> R) p l, (forall a, In a l -> p a = false -> f a = 0) -> lsum f (filter p l) = lsum f l.
Proof.
  intros A f p l H. induction l as [|a l IH]; [reflexivity|]. simpl. destruct (p a) eqn:E; simpl; rewrite IH; try reflexivity;
    try (intros b B; apply H; right; exact B). rewrite (H a (or_introl eq_refl) E). lra.
Qed.
Lemma lsum_seq : forall n f, lsum f (seq 0 n) = rsum n f.
Proof. induction n as [|n IH]; intros f; [reflexivity|]. rewrite seq_S, lsum_app, IH. simpl. lra. Qed.

(** * C94 *)

(** The specification: every pair of terminals adds its entry to the position of
    its two nodes. *)
Definition total (ns : list nat) (s : nat -> nat -> R) (r c : nat) : R :=
  rsum (length ns) (fun i => rsum (length ns) (fun j => if (nth i ns 0 =? r)%nat && (nth j ns 0 =? c)%nat then s i j else 0)).

Lemma share_total : forall ns s r c, (1 <= r)%nat -> (1 <= c)%nat ->
  share (r, c) (combine (live_indices ns) (flat s (kept ns))) = total ns s r c.
Proof.
  intros ns s r c Hr Hc. unfold share. rewrite entries_eq, lsum_flat_map. unfold total. rewrite <- lsum_seq. unfold kept at 2.
  rewrite lsum_filter.
  - apply lsum_ext. intros i _. rewrite lsum_map, <- lsum_seq. unfold kept. rewrite lsum_filter; [reflexivity|].
    intros j _ N. cbn [fst snd]. apply negb_false_iff, Nat.eqb_eq in N. rewrite N. unfold pair_eqb. cbn [fst snd].
    replace (0 =? c)%nat with false by (symmetry; apply Nat.eqb_neq; lia). rewrite andb_false_r. reflexivity.
  - intros i _ N. apply negb_false_iff, Nat.eqb_eq in N. rewrite lsum_map. apply lsum_0. intros j _. cbn [fst snd]. rewrite N.
    unfold pair_eqb. cbn [fst snd]. replace (0 =? r)%nat with false by (symmetry; apply Nat.eqb_neq; lia). reflexivity.
Qed.

Lemma live_pos : forall ns k, In k (live_indices ns) -> (1 <= fst k)%nat /\ (1 <= snd k)%nat.
Proof.
  intros ns k H. unfold live_indices in H. apply filter_In in H. destruct H as [_ H]. apply andb_true_iff in H. destruct H as [A B].
  apply negb_true_iff, Nat.eqb_neq in A. apply negb_true_iff, Nat.eqb_neq in B. lia.
Qed.

(** The conductance stamp adds up the contributions of shared terminals and drops
    the ground, for any number of terminals of which one is not grounded. *)
Theorem C94_gstamp : forall ns s J, (exists n, In n ns /\ n <> 0%nat) -> exists J',
  fancy_add_mat J (gstamp_reduced ns s) = Ok J' /\
  forall r c, (1 <= r)%nat -> (1 <= c)%nat -> J' (r - 1)%nat (c - 1)%nat = J (r - 1)%nat (c - 1)%nat + total ns s r c.
Proof.
  intros ns s J (n & In_n & N0).
  assert (NE : gstamp_reduced ns s <> []).
  { unfold gstamp_reduced. apply folded_nonempty. rewrite entries_eq. apply In_nth with (d := 0%nat) in In_n. destruct In_n as (p & P & E).
    assert (KP : In p (kept ns)).
    { unfold kept. apply filter_In. split; [apply in_seq; lia|]. rewrite E. apply negb_true_iff, Nat.eqb_neq. exact N0. }
    intros K. assert (X : In ((nth p ns 0%nat, nth p ns 0%nat), s p p) (flat_map (fun i => map (fun j => ((nth i ns 0%nat, nth j ns 0%nat), s i j)) (kept ns)) (kept ns))).
    { apply in_flat_map. exists p. split; [exact KP|]. apply in_map_iff. exists p. split; [reflexivity|exact KP]. }
    rewrite K in X. exact X. }
  exists (fold_left (fun M e => mset M (fst (fst e) - 1) (snd (fst e) - 1) (J (fst (fst e) - 1)%nat (snd (fst e) - 1)%nat + snd e)) (gstamp_reduced ns s) J).
  split; [unfold fancy_add_mat; destruct (gstamp_reduced ns s); [contradiction|reflexivity]|].
  intros r c Hr Hc. rewrite fancy_val; [|exact Hr|exact Hc|apply folded_NoDup| |reflexivity].
  - unfold gstamp_reduced. rewrite folded_val, share_total by assumption. reflexivity.
  - intros k K. apply folded_keys in K. apply in_map_iff in K. destruct K as ([k' v] & <- & K). cbn [fst]. apply in_combine_l in K. exact (live_pos ns k' K).
Qed.
Print Assumptions C94_gstamp.
Example C94_example : let s := fun i j => INR (4 * i + j) in
  total [1;2;2;0]%nat s 1 2 = 3 /\ total [1;2;2;0]%nat s 2 2 = 5 + 6 + 9 + 10.
Proof. intros s. unfold total, s. simpl. split; ring. Qed.

(** The current stamp is right for two different nodes. *)
Theorem C94_istamp_distinct : forall T n1 n2 i, n1 <> n2 -> exists T',
  fancy_add_vec T (istamp_reduced n1 n2 i) = Ok T' /\
  forall r, (1 <= r)%nat -> T' (r - 1)%nat = T (r - 1)%nat + (if (r =? n1)%nat then i else 0) - (if (r =? n2)%nat then i else 0).
Proof.
  intros T n1 n2 i NE. unfold istamp_reduced. cbn [filter fst].
  destruct (Nat.eqb_spec n1 0) as [Z1|Z1]; destruct (Nat.eqb_spec n2 0) as [Z2|Z2]; cbn [negb]; try lia; (eexists; split; [reflexivity|]; intros r Hr; cbn [fold_left fst snd]).
  - destruct (Nat.eqb_spec r n1); [lia|]. destruct (Nat.eqb_spec r n2) as [->|]; [rewrite vset_same; lra|rewrite vset_other by lia; lra].
  - destruct (Nat.eqb_spec r n2); [lia|]. destruct (Nat.eqb_spec r n1) as [->|]; [rewrite vset_same; lra|rewrite vset_other by lia; lra].
  - destruct (Nat.eqb_spec r n2) as [->|N2].
    + destruct (Nat.eqb_spec n2 n1); [lia|]. rewrite vset_same. lra.
    + rewrite vset_other by lia. destruct (Nat.eqb_spec r n1) as [->|]; [rewrite vset_same; lra|rewrite vset_other by lia; lra].
Qed.
Print Assumptions C94_istamp_distinct.

(** With both ends on one node the current does not cancel: -i is left. *)
Theorem C94_istamp_shared_refuted : forall T n i, (1 <= n)%nat -> exists T',
  fancy_add_vec T (istamp_reduced n n i) = Ok T' /\ T' (n - 1)%nat = T (n - 1)%nat - i.
Proof.
  intros T n i Hn. unfold istamp_reduced. cbn [filter fst]. destruct (Nat.eqb_spec n 0); [lia|]. cbn [negb].
  eexists. split; [reflexivity|]. cbn [fold_left fst snd]. rewrite vset_same. lra.
Qed.
Print Assumptions C94_istamp_shared_refuted.

(** * C95: both ends grounded *)
Theorem C95_grounded_refuted : forall T i J s,
  fancy_add_vec T (istamp_reduced 0 0 i) = Err ValueError /\ fancy_add_mat J (gstamp_reduced [0; 0]%nat s) = Err ValueError.
Proof. intros. split; reflexivity. Qed.
Print Assumptions C95_grounded_refuted.
(** Not even a transistor whose gate is driven: drain and source grounded are enough. *)
Theorem C95_grounded_channel_refuted : forall J s T i g, (1 <= g)%nat -> 
  (exists J', fancy_add_mat J (gstamp_reduced [0; g; 0; 0]%nat s) = Ok J') /\ fancy_add_vec T (istamp_reduced 0 0 i) = Err ValueError.
Proof.
  intros J s T i g Hg. split; [|reflexivity]. destruct (C94_gstamp [0; g; 0; 0]%nat s J) as (J' & E & _).
  - exists g. split; [right; left; reflexivity|lia].
  - exists J'. exact E.
Qed.
Print Assumptions C95_grounded_channel_refuted.
Theorem C95_otherwise : forall T n1 n2 i, n1 <> 0%nat \/ n2 <> 0%nat -> exists T', fancy_add_vec T (istamp_reduced n1 n2 i) = Ok T'.
Proof.
  intros T n1 n2 i H. unfold istamp_reduced. cbn [filter fst].
  destruct (Nat.eqb_spec n1 0) as [Z1|Z1]; destruct (Nat.eqb_spec n2 0) as [Z2|Z2]; cbn [negb]; try (exfalso; lia); eexists; reflexivity.
Qed.
Print Assumptions C95_otherwise.
