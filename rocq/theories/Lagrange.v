(** Lagrange extrapolation to zero over a list of distinct nonzero nodes, and
    polynomials given by their coefficients. *)
From Coq Require Import Reals List Bool Arith Lia Lra Psatz Permutation.
From Verif Require Import Rsum Df.
Import ListNotations.
Open Scope R_scope.

(** ** Polynomials *)
(** [peval n c x = c 0 + c 1 x + ... + c n x^n]. *)
Definition peval (n : nat) (c : nat -> R) (x : R) : R := rsum (S n) (fun i => c i * x ^ i).

Lemma peval_S : forall n c x, peval (S n) c x = c 0%nat + x * peval n (fun i => c (S i)) x.
Proof.
  intros n c x. unfold peval. rewrite rsum_shift. f_equal; [simpl; ring|].
  rewrite <- rsum_scal. apply rsum_ext. intros i _. simpl. ring.
Qed.

Lemma peval_last : forall n c x, peval (S n) c x = peval n c x + c (S n) * x ^ S n.
Proof. reflexivity. Qed.

Lemma peval_0 : forall c x, peval 0 c x = c 0%nat.
Proof. intros. unfold peval. simpl. ring. Qed.

Lemma peval_at0 : forall n c, peval n c 0 = c 0%nat.
Proof. destruct n; intros; [apply peval_0|]. rewrite peval_S. ring. Qed.

Lemma peval_ext : forall n c d x, (forall i, (i <= n)%nat -> c i = d i) -> peval n c x = peval n d x.
Proof. intros. unfold peval. apply rsum_ext. intros i Hi. rewrite H by lia. reflexivity. Qed.

Lemma peval_reflect : forall n T c, exists d,
  (forall s, peval n c (T - s) = peval n d s) /\ d n = (-1) ^ n * c n.
Proof.
  induction n as [|n IH]; intros T c.
  - exists c. split; [intros; rewrite !peval_0; reflexivity|simpl; ring].
  - destruct (IH T (fun i => c (S i))) as (d & E & L).
    exists (fun i => match i with
                     | O => c 0%nat + T * d 0%nat
                     | S j => (if (i <=? n)%nat then T * d i else 0) - d j
                     end).
    split.
    + intros s. rewrite peval_S, E, peval_S.
      destruct n as [|n].
      * rewrite !peval_0. simpl. ring.
      * replace (peval (S n) (fun i : nat => (if (S i <=? S n)%nat then T * d (S i) else 0) - d i) s)
          with (T * peval n (fun i => d (S i)) s - peval (S n) d s).
        -- rewrite (peval_S n d). ring.
        -- unfold peval. rewrite <- rsum_scal.
           replace (rsum (S n) (fun i => T * (d (S i) * s ^ i)))
             with (rsum (S (S n)) (fun i => (if (S i <=? S n)%nat then T * d (S i) else 0) * s ^ i)).
           ++ rewrite <- rsum_minus. apply rsum_ext. intros i _. ring.
           ++ change (rsum (S (S n)) ?f) with (rsum (S n) f + f (S n)). cbv beta.
              replace (S (S n) <=? S n)%nat with false by (symmetry; apply Nat.leb_gt; lia).
              rewrite Rmult_0_l, Rplus_0_r. apply rsum_ext. intros i Hi.
              replace (S i <=? S n)%nat with true by (symmetry; apply Nat.leb_le; lia). ring.
    + cbv beta iota. replace (S n <=? n)%nat with false by (symmetry; apply Nat.leb_gt; lia).
      rewrite L. simpl. ring.
Qed.

(** Division by a linear factor. *)
Lemma peval_factor : forall n c a, exists d, forall s,
  peval (S n) c s = peval (S n) c a + (s - a) * peval n d s.
Proof.
  induction n as [|n IH]; intros c a.
  - exists (fun _ => c 1%nat). intros s. rewrite !peval_S, !peval_0. ring.
  - destruct (IH (fun i => c (S i)) a) as (d & E).
    (* s q(s) - a q(a) = (s - a) q(a) + s (s - a) g(s) *)
    exists (fun i => match i with O => peval (S n) (fun i => c (S i)) a | S j => d j end).
    intros s. rewrite !(peval_S (S n) c), (E s), (peval_S n (fun i => match i with O => _ | S j => d j end)).
    cbv beta iota. change (fun i => d i) with d. ring.
Qed.

Lemma peval_derivable : forall n c x, exists l, derivable_pt_lim (peval n c) x l.
Proof.
  induction n as [|n IH]; intros c x.
  - exists 0. apply (derivable_pt_lim_ext (fun _ => c 0%nat)); [intros; symmetry; apply peval_0|].
    apply derivable_pt_lim_const.
  - destruct (IH (fun i => c (S i)) x) as [l L].
    exists (0 + (1 * peval n (fun i => c (S i)) x + x * l)).
    apply (derivable_pt_lim_ext (fun y => c 0%nat + y * peval n (fun i => c (S i)) y));
      [intros; symmetry; apply peval_S|].
    apply (derivable_pt_lim_plus (fun _ => c 0%nat)); [apply derivable_pt_lim_const|].
    apply (derivable_pt_lim_mult (fun y => y)); [apply derivable_pt_lim_id|exact L].
Qed.

(** The derivative at zero of a polynomial of degree at least one. *)
Lemma peval_deriv0 : forall n c, derivable_pt_lim (peval (S n) c) 0 (c 1%nat).
Proof.
  intros n c. destruct (peval_derivable n (fun i => c (S i)) 0) as [l L].
  replace (c 1%nat) with (0 + (1 * peval n (fun i => c (S i)) 0 + 0 * l)) by (rewrite peval_at0; ring).
  apply (derivable_pt_lim_ext (fun y => c 0%nat + y * peval n (fun i => c (S i)) y));
    [intros; symmetry; apply peval_S|].
  apply (derivable_pt_lim_plus (fun _ => c 0%nat)); [apply derivable_pt_lim_const|].
  apply (derivable_pt_lim_mult (fun y => y)); [apply derivable_pt_lim_id|exact L].
Qed.

Lemma reflect_deriv : forall f g T l, (forall s, f (T - s) = g s) ->
  derivable_pt_lim g 0 l -> derivable_pt_lim f T (- l).
Proof.
  intros f g T l E D.
  apply (derivable_pt_lim_ext (fun t => g (T - t))).
  { intros t. rewrite <- E. f_equal. ring. }
  replace (- l) with (l * (0 - 1)) by ring.
  apply (derivable_pt_lim_comp (fun t => T - t) g).
  - apply (derivable_pt_lim_minus (fun _ => T) (fun t => t)); [apply derivable_pt_lim_const|apply derivable_pt_lim_id].
  - replace (T - T) with 0 by ring. exact D.
Qed.

(** ** Lagrange *)
Definition lprod {A} (f : A -> R) (l : list A) : R := fold_right (fun a p => f a * p) 1 l.
Definition fac (a b : R) : R := if Req_EM_T b a then 1 else b / (b - a).
(** The weight of node [a], and extrapolation to 0. *)
Definition al (l : list R) (a : R) : R := lprod (fac a) l.
Definition lag (l : list R) (f : R -> R) : R := lsum (fun a => al l a * f a) l.

Lemma lprod_perm : forall A (f : A -> R) l m, Permutation l m -> lprod f l = lprod f m.
Proof. intros A f l m P. induction P; simpl; try congruence. ring. Qed.
Lemma lsum_perm : forall A (f : A -> R) l m, Permutation l m -> lsum f l = lsum f m.
Proof. intros A f l m P. induction P; simpl; try lra. Qed.

Lemma lag_perm : forall l m f, Permutation l m -> lag l f = lag m f.
Proof.
  intros l m f P. unfold lag. rewrite (lsum_perm _ _ _ _ P). apply lsum_ext.
  intros a _. unfold al. rewrite (lprod_perm _ _ _ _ P). reflexivity.
Qed.

Lemma lag_ext : forall l f g, (forall a, In a l -> f a = g a) -> lag l f = lag l g.
Proof. intros. unfold lag. apply lsum_ext. intros a Ha. rewrite H; auto. Qed.
Lemma lag_plus : forall l f g, lag l (fun a => f a + g a) = lag l f + lag l g.
Proof. intros. unfold lag. rewrite <- lsum_plus. apply lsum_ext. intros; ring. Qed.
Lemma lag_scal : forall l c f, lag l (fun a => c * f a) = c * lag l f.
Proof. intros. unfold lag. rewrite <- lsum_scal. apply lsum_ext. intros; ring. Qed.

(** Removing a node. *)
Lemma lag_remove : forall a l g, NoDup (a :: l) ->
  lag (a :: l) (fun s => (s - a) * g s) = - a * lag l g.
Proof.
  intros a l g N. inversion N; subst. unfold lag. cbn [lsum]. rewrite <- lsum_scal.
  transitivity (0 + lsum (fun a0 => al (a :: l) a0 * ((a0 - a) * g a0)) l); [f_equal; ring|].
  rewrite Rplus_0_l.
  apply lsum_ext. intros b Hb. unfold al. simpl. unfold fac at 1.
  destruct (Req_EM_T a b) as [->|E]; [contradiction|]. field. lra.
Qed.

Lemma lag_remove2 : forall a b l g, NoDup (a :: b :: l) ->
  lag (a :: b :: l) (fun s => (s - b) * g s) = - b * lag (a :: l) g.
Proof.
  intros a b l g N. rewrite (lag_perm _ (b :: a :: l)) by apply perm_swap.
  apply lag_remove. eapply Permutation_NoDup; [|exact N]. apply perm_swap.
Qed.

Lemma NoDup_skip2 : forall (a b : R) l, NoDup (a :: b :: l) -> NoDup (a :: l).
Proof.
  intros a b l N. inversion N; subst. inversion H2; subst. constructor; auto.
  intros I. apply H1. right. exact I.
Qed.

Lemma lag_one : forall l, l <> [] -> NoDup l -> lag l (fun _ => 1) = 1.
Proof.
  intros l. remember (length l) as n. revert l Heqn.
  induction n as [n IH] using lt_wf_ind. intros l L NE N.
  destruct l as [|a [|b l]]; [congruence| |].
  - unfold lag, al, fac. simpl. destruct (Req_EM_T a a); [ring|congruence].
  - assert (AB : a <> b) by (inversion N; subst; intros ->; apply H1; left; auto).
    rewrite (lag_ext _ _ (fun s => / (a - b) * ((s - b) * 1) + - / (a - b) * ((s - a) * 1))).
    2:{ intros s _. field. lra. }
    rewrite lag_plus, !lag_scal, lag_remove, lag_remove2 by auto.
    simpl in L.
    rewrite (IH (length (b :: l)) ltac:(simpl; lia) (b :: l) eq_refl); [|discriminate|inversion N; auto].
    rewrite (IH (length (a :: l)) ltac:(simpl; lia) (a :: l) eq_refl); [|discriminate|eapply NoDup_skip2; eauto].
    field. lra.
Qed.

(** Extrapolation is exact below the number of nodes. *)
Lemma lag_poly : forall n l c, (n < length l)%nat -> NoDup l -> lag l (peval n c) = peval n c 0.
Proof.
  induction n as [|n IH]; intros l c L N.
  - rewrite (lag_ext _ _ (fun _ => c 0%nat * 1)) by (intros; rewrite peval_0; ring).
    rewrite lag_scal, lag_one, peval_0; [ring| |exact N]. destruct l; [simpl in L; lia|discriminate].
  - destruct l as [|a l]; [simpl in L; lia|]. destruct (peval_factor n c a) as [d D].
    rewrite (lag_ext _ _ (fun s => peval (S n) c a * 1 + (s - a) * peval n d s)).
    2:{ intros s _. rewrite D. ring. }
    rewrite lag_plus, lag_scal, lag_one, lag_remove by (auto; discriminate).
    rewrite IH; [|simpl in L; lia|inversion N; auto].
    rewrite (D 0). ring.
Qed.

Lemma pow_peval : forall n s, s ^ n = peval n (fun i => dlt i n) s.
Proof. intros. unfold peval. rewrite rsum_dlt by lia. reflexivity. Qed.

(** ... and off by the product of the nodes on the next power. *)
Lemma lag_next : forall l, l <> [] -> NoDup l ->
  lag l (fun s => s ^ length l) = (-1) ^ S (length l) * lprod (fun a => a) l.
Proof.
  induction l as [|a l IH]; intros NE N; [congruence|].
  destruct l as [|b l].
  - unfold lag, al, fac. simpl. destruct (Req_EM_T a a); [ring|congruence].
  - remember (b :: l) as l'. simpl length.
    rewrite (lag_ext _ _ (fun s => (s - a) * s ^ length l' + a * s ^ length l')) by (intros; simpl; ring).
    rewrite lag_plus, lag_scal, lag_remove by auto.
    rewrite IH by (try (inversion N; assumption); subst; discriminate).
    rewrite (lag_ext (a :: l') (fun s => s ^ length l') (peval (length l') (fun i => dlt i (length l'))))
      by (intros; apply pow_peval).
    rewrite lag_poly by (simpl; auto; lia). rewrite peval_at0.
    replace (dlt 0 (length l')) with 0 by (subst; reflexivity). simpl. ring.
Qed.

(** The sum of the weights over the nodes. *)
Lemma lag_inv : forall l, NoDup l -> (forall a, In a l -> a <> 0) ->
  lag l (fun s => / s) = lsum (fun s => / s) l.
Proof.
  induction l as [|a l IH]; intros N Z; [reflexivity|].
  assert (Za : a <> 0) by (apply Z; left; auto).
  rewrite (lag_ext _ _ (fun s => / a * 1 + - / a * ((s - a) * / s))).
  2:{ intros s Hs. field. split; [apply Z; auto|auto]. }
  rewrite lag_plus, !lag_scal, lag_one, (lag_remove a l (fun s => / s)) by (auto; discriminate).
  rewrite IH; [|inversion N; auto|intros; apply Z; right; auto]. simpl. field. exact Za.
Qed.

(** ** Sums over indices as sums over the list of the nodes *)
Lemma rsum_as_list : forall n s (f : R -> R), rsum n (fun k => f (s k)) = lsum f (map s (seq 0 n)).
Proof.
  induction n as [|n IH]; intros s f; [reflexivity|].
  rewrite seq_S, map_app, lsum_app. simpl. rewrite IH. lra.
Qed.

Lemma lprod_app : forall A (f : A -> R) l m, lprod f (l ++ m) = lprod f l * lprod f m.
Proof. induction l as [|a l IH]; intros; simpl; [ring|]. rewrite IH. ring. Qed.

Lemma rprod_as_list : forall n s (f : R -> R), rprod n (fun k => f (s k)) = lprod f (map s (seq 0 n)).
Proof.
  induction n as [|n IH]; intros s f; [reflexivity|].
  rewrite seq_S, map_app, lprod_app. simpl. rewrite IH. ring.
Qed.

Lemma rprod_ext : forall n f g, (forall i, (i < n)%nat -> f i = g i) -> rprod n f = rprod n g.
Proof.
  induction n as [|n IH]; intros f g H; simpl; [reflexivity|]. rewrite (IH f g), H; auto.
Qed.

Definition distinct (n : nat) (s : nat -> R) : Prop :=
  forall i j, (i < n)%nat -> (j < n)%nat -> s i = s j -> i = j.

Lemma distinct_NoDup : forall n s, distinct n s -> NoDup (map s (seq 0 n)).
Proof.
  intros n s D. assert (G : forall l, NoDup l -> (forall i, In i l -> (i < n)%nat) -> NoDup (map s l)).
  { induction l as [|i l IH]; intros N B; simpl; constructor.
    - intros I. apply in_map_iff in I. destruct I as (j & E & J). inversion N; subst.
      apply H1. rewrite <- (D j i); auto; apply B; simpl; auto.
    - apply IH; [inversion N; auto|intros; apply B; simpl; auto]. }
  apply G; [apply seq_NoDup|]. intros i I. apply in_seq in I. lia.
Qed.

Lemma gear_alpha_al : forall k s j, distinct (S k) s -> (j < S k)%nat ->
  gear_alpha k s j = al (map s (seq 0 (S k))) (s j).
Proof.
  intros k s j D J. unfold gear_alpha, al. rewrite <- rprod_as_list. apply rprod_ext.
  intros i I. unfold gear_e, fac. destruct (Nat.eqb_spec i j) as [->|E].
  - destruct (Req_EM_T (s j) (s j)); congruence.
  - destruct (Req_EM_T (s i) (s j)) as [F|F]; [|reflexivity]. exfalso. apply E, D; auto.
Qed.

Lemma gear_lag : forall k s f, distinct (S k) s ->
  rsum (S k) (fun j => gear_alpha k s j * f (s j)) = lag (map s (seq 0 (S k))) f.
Proof.
  intros k s f D. unfold lag. rewrite <- rsum_as_list. apply rsum_ext. intros j J.
  rewrite gear_alpha_al; auto.
Qed.

(** [gamma] vanishes at the last node, so the sums may include it. *)
Lemma gear_gamma_sum : forall k s f, distinct (S k) s ->
  rsum k (fun j => gear_gamma k s j * f (s j)) =
  lag (map s (seq 0 (S k))) (fun x => (1 / s k - 1 / x) * f x).
Proof.
  intros k s f D. rewrite <- gear_lag by exact D. cbn [rsum].
  replace (gear_alpha k s k * ((1 / s k - 1 / s k) * f (s k))) with 0 by ring.
  rewrite Rplus_0_r. apply rsum_ext. intros j _. unfold gear_gamma. ring.
Qed.

Definition nonzero (n : nat) (s : nat -> R) : Prop := forall i, (i < n)%nat -> s i <> 0.

Lemma nodes_nonzero : forall n s, nonzero n s -> forall a, In a (map s (seq 0 n)) -> a <> 0.
Proof.
  intros n s Z a I. apply in_map_iff in I. destruct I as (i & <- & I). apply in_seq in I.
  apply Z. lia.
Qed.

(** The coefficient of the new point. *)
Lemma gear_g0_val : forall k s, distinct (S k) s -> nonzero (S k) s ->
  gear_g0 k s = rsum k (fun j => / s j).
Proof.
  intros k s D Z. unfold gear_g0.
  rewrite (rsum_ext k (gear_gamma k s) (fun j => gear_gamma k s j * 1)) by (intros; ring).
  rewrite (gear_gamma_sum k s (fun _ => 1)) by exact D.
  rewrite (lag_ext _ _ (fun x => / s k * 1 + -1 * / x)).
  2:{ intros a I. assert (a <> 0) by (eapply nodes_nonzero; eauto). specialize (Z k (Nat.lt_succ_diag_r k)). field. auto. }
  rewrite lag_plus, !lag_scal, lag_one, lag_inv.
  - rewrite <- (rsum_as_list (S k) s (fun x => / x)). cbn [rsum]. ring.
  - apply distinct_NoDup; exact D.
  - eapply nodes_nonzero; eauto.
  - rewrite seq_S, map_app. destruct (map s (seq 0 k)); discriminate.
  - apply distinct_NoDup; exact D.
Qed.

(** On a polynomial of degree at most [k] in the distance from the new point the
    formula gives minus the slope. *)
Lemma gear_exact : forall k s c, (0 < k)%nat -> distinct (S k) s -> nonzero (S k) s ->
  gear_g0 k s * peval k c 0 + rsum k (fun j => gear_gamma k s j * peval k c (s j)) = - c 1%nat.
Proof.
  intros k s c K D Z. destruct k as [|k]; [lia|].
  assert (E : gear_g0 (S k) s * peval (S k) c 0 =
     rsum (S k) (fun j => gear_gamma (S k) s j * - peval (S k) c 0)).
  { rewrite rsum_scal_r. unfold gear_g0. ring. }
  rewrite E, <- rsum_plus.
  rewrite (rsum_ext _ _ (fun j => gear_gamma (S k) s j *
             (fun x => x * peval k (fun i => c (S i)) x) (s j))).
  2:{ intros j _. rewrite peval_at0, (peval_S k c (s j)). ring. }
  rewrite (gear_gamma_sum (S k) s (fun x => x * peval k (fun i => c (S i)) x)) by exact D.
  set (nodes := map s (seq 0 (S (S k)))).
  assert (SK : s (S k) <> 0) by (apply Z; lia).
  rewrite (lag_ext _ _ (fun x => / s (S k) * ((fun y => peval (S k) (fun i => match i with O => 0 | S j => c (S j) end) y) x)
                               + -1 * peval k (fun i => c (S i)) x)).
  2:{ intros a I. assert (a <> 0) by (eapply nodes_nonzero; eauto). rewrite peval_S. cbv beta iota. field. auto. }
  assert (LN : length nodes = S (S k)) by (unfold nodes; rewrite map_length, seq_length; reflexivity).
  assert (ND : NoDup nodes) by (apply distinct_NoDup; exact D).
  rewrite lag_plus, !lag_scal, !lag_poly by (auto; rewrite LN; lia).
  rewrite !peval_at0. ring.
Qed.
