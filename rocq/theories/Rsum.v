(** Finite sums over R and matrices as functions. *)
From Coq Require Import Reals List Bool Arith Lia Lra Psatz.
Import ListNotations.
Open Scope R_scope.

(** [rsum n f = f 0 + ... + f (n-1)]. *)
Fixpoint rsum (n : nat) (f : nat -> R) : R :=
  match n with
  | O => 0
  | S k => rsum k f + f k
  end.

Definition mat := nat -> nat -> R.
Definition vec := nat -> R.

Definition mzero : mat := fun _ _ => 0.
Definition vzero : vec := fun _ => 0.

(** [m[i, j] = v] and [m[i, j] += v] of a numpy array. *)
Definition mset (m : mat) (a b : nat) (v : R) : mat :=
  fun i j => if (i =? a)%nat && (j =? b)%nat then v else m i j.
Definition madd (m : mat) (a b : nat) (v : R) : mat := mset m a b (m a b + v).
Definition vset (f : vec) (a : nat) (v : R) : vec := fun i => if (i =? a)%nat then v else f i.
Definition vadd (f : vec) (a : nat) (v : R) : vec := vset f a (f a + v).

(** Row [i] of [m * x], the vectors having [n] components. *)
Definition row (n : nat) (m : mat) (i : nat) (x : vec) : R := rsum n (fun j => m i j * x j).

(** Kronecker delta. *)
Definition dlt (i j : nat) : R := if (i =? j)%nat then 1 else 0.

Lemma rsum_ext : forall n f g, (forall i, (i < n)%nat -> f i = g i) -> rsum n f = rsum n g.
Proof.
  induction n as [|n IH]; intros f g H; simpl; [reflexivity|].
  rewrite (IH f g), H; auto.
Qed.

Lemma rsum_0 : forall n f, (forall i, (i < n)%nat -> f i = 0) -> rsum n f = 0.
Proof.
  induction n as [|n IH]; intros f H; simpl; [reflexivity|].
  rewrite IH, H; auto. lra.
Qed.

Lemma rsum_plus : forall n f g, rsum n (fun i => f i + g i) = rsum n f + rsum n g.
Proof. induction n as [|n IH]; intros; simpl; [lra|]. rewrite IH. lra. Qed.

Lemma rsum_minus : forall n f g, rsum n (fun i => f i - g i) = rsum n f - rsum n g.
Proof. induction n as [|n IH]; intros; simpl; [lra|]. rewrite IH. lra. Qed.

Lemma rsum_scal : forall n c f, rsum n (fun i => c * f i) = c * rsum n f.
Proof. induction n as [|n IH]; intros; simpl; [lra|]. rewrite IH. lra. Qed.

Lemma rsum_scal_r : forall n c f, rsum n (fun i => f i * c) = rsum n f * c.
Proof. induction n as [|n IH]; intros; simpl; [lra|]. rewrite IH. lra. Qed.

Lemma rsum_opp : forall n f, rsum n (fun i => - f i) = - rsum n f.
Proof. induction n as [|n IH]; intros; simpl; [lra|]. rewrite IH. lra. Qed.

Lemma rsum_single : forall n k f, (k < n)%nat ->
  rsum n (fun j => if (j =? k)%nat then f j else 0) = f k.
Proof.
  induction n as [|n IH]; intros k f H; [lia|]. simpl.
  destruct (Nat.eq_dec k n) as [->|Hk].
  - rewrite Nat.eqb_refl, rsum_0; [lra|].
    intros i Hi. destruct (Nat.eqb_spec i n); [lia|reflexivity].
  - rewrite IH by lia. destruct (Nat.eqb_spec n k); [lia|lra].
Qed.

Lemma rsum_dlt : forall n k f, (k < n)%nat -> rsum n (fun j => dlt j k * f j) = f k.
Proof.
  intros n k f H. rewrite <- (rsum_single n k f H). apply rsum_ext.
  intros i _. unfold dlt. destruct (i =? k)%nat; lra.
Qed.

Lemma rsum_shift : forall n f, rsum (S n) f = f O + rsum n (fun i => f (S i)).
Proof.
  induction n as [|n IH]; intros f; [simpl; lra|].
  change (rsum (S (S n)) f) with (rsum (S n) f + f (S n)). rewrite IH. simpl. lra.
Qed.

Lemma rsum_app : forall n m f, rsum (n + m) f = rsum n f + rsum m (fun i => f (n + i)%nat).
Proof.
  intros n m. induction m as [|m IH]; intros f; simpl.
  - rewrite Nat.add_0_r. lra.
  - rewrite Nat.add_succ_r. simpl. rewrite IH. lra.
Qed.

Lemma rsum_swap : forall n m (f : nat -> nat -> R),
  rsum n (fun i => rsum m (fun j => f i j)) = rsum m (fun j => rsum n (fun i => f i j)).
Proof.
  induction n as [|n IH]; intros m f; simpl.
  - symmetry. apply rsum_0. auto.
  - rewrite IH, <- rsum_plus. reflexivity.
Qed.

Lemma rsum_nonneg : forall n f, (forall i, (i < n)%nat -> 0 <= f i) -> 0 <= rsum n f.
Proof.
  induction n as [|n IH]; intros f H; simpl; [lra|].
  specialize (IH f (fun i Hi => H i (Nat.lt_lt_succ_r _ _ Hi))). specialize (H n (Nat.lt_succ_diag_r n)). lra.
Qed.

Lemma row_mset : forall n m a b v i x, (b < n)%nat ->
  row n (mset m a b v) i x = row n m i x + dlt i a * ((v - m a b) * x b).
Proof.
  intros n m a b v i x Hb. unfold row.
  transitivity (rsum n (fun j => m i j * x j +
     (if (j =? b)%nat then dlt i a * ((v - m a j) * x j) else 0))).
  - apply rsum_ext. intros j _. unfold mset, dlt.
    destruct (Nat.eqb_spec i a) as [->|]; simpl; [|destruct (j =? b)%nat; lra].
    destruct (Nat.eqb_spec j b) as [->|]; lra.
  - rewrite rsum_plus, rsum_single; auto.
Qed.

Lemma row_madd : forall n m a b v i x, (b < n)%nat ->
  row n (madd m a b v) i x = row n m i x + dlt i a * (v * x b).
Proof.
  intros. unfold madd. rewrite row_mset by assumption.
  replace (m a b + v - m a b) with v by lra. reflexivity.
Qed.

Lemma mset_other : forall m a b v i j, (i <> a \/ j <> b) -> mset m a b v i j = m i j.
Proof.
  intros m a b v i j H. unfold mset.
  destruct (Nat.eqb_spec i a), (Nat.eqb_spec j b); simpl; auto. lia.
Qed.

Lemma mset_same : forall m a b v, mset m a b v a b = v.
Proof. intros. unfold mset. rewrite !Nat.eqb_refl. reflexivity. Qed.

Lemma madd_other : forall m a b v i j, (i <> a \/ j <> b) -> madd m a b v i j = m i j.
Proof. intros. unfold madd. apply mset_other; auto. Qed.

Lemma vadd_val : forall f a v i, vadd f a v i = f i + dlt i a * v.
Proof.
  intros. unfold vadd, vset, dlt. destruct (Nat.eqb_spec i a) as [->|]; lra.
Qed.

Lemma vset_other : forall f a v i, i <> a -> vset f a v i = f i.
Proof. intros. unfold vset. destruct (Nat.eqb_spec i a); [contradiction|reflexivity]. Qed.

Lemma vset_same : forall f a v, vset f a v a = v.
Proof. intros. unfold vset. rewrite Nat.eqb_refl. reflexivity. Qed.

Lemma dlt_same : forall i, dlt i i = 1.
Proof. intros. unfold dlt. rewrite Nat.eqb_refl. reflexivity. Qed.

Lemma dlt_other : forall i j, i <> j -> dlt i j = 0.
Proof. intros. unfold dlt. destruct (Nat.eqb_spec i j); [contradiction|reflexivity]. Qed.

Lemma dlt_sym : forall i j, dlt i j = dlt j i.
Proof. intros. unfold dlt. rewrite Nat.eqb_sym. reflexivity. Qed.

(** Sum over a list. *)
Fixpoint lsum {A : Type} (f : A -> R) (l : list A) : R :=
  match l with [] => 0 | a :: l' => f a + lsum f l' end.

Lemma lsum_ext : forall A (f g : A -> R) l, (forall a, In a l -> f a = g a) -> lsum f l = lsum g l.
Proof.
  induction l as [|a l IH]; intros H; simpl; [reflexivity|].
  rewrite H, IH; simpl; auto. intros; apply H; simpl; auto.
Qed.

Lemma lsum_app : forall A (f : A -> R) l m, lsum f (l ++ m) = lsum f l + lsum f m.
Proof. induction l as [|a l IH]; intros; simpl; [lra|]. rewrite IH. lra. Qed.

Lemma lsum_0 : forall A (f : A -> R) l, (forall a, In a l -> f a = 0) -> lsum f l = 0.
Proof.
  induction l as [|a l IH]; intros H; simpl; [reflexivity|].
  rewrite H, IH; simpl; auto; [lra|]. intros; apply H; simpl; auto.
Qed.

Lemma lsum_plus : forall A (f g : A -> R) l, lsum (fun a => f a + g a) l = lsum f l + lsum g l.
Proof. induction l as [|a l IH]; simpl; [lra|]. rewrite IH. lra. Qed.

Lemma lsum_scal : forall A c (f : A -> R) l, lsum (fun a => c * f a) l = c * lsum f l.
Proof. induction l as [|a l IH]; simpl; [lra|]. rewrite IH. lra. Qed.

Lemma lsum_opp : forall A (f : A -> R) l, lsum (fun a => - f a) l = - lsum f l.
Proof. induction l as [|a l IH]; simpl; [lra|]. rewrite IH. lra. Qed.

Lemma rsum_lsum : forall A n (f : nat -> A -> R) l,
  rsum n (fun i => lsum (f i) l) = lsum (fun a => rsum n (fun i => f i a)) l.
Proof.
  intros A n f. induction l as [|a l IH]; simpl.
  - apply rsum_0. auto.
  - rewrite rsum_plus, IH. reflexivity.
Qed.
