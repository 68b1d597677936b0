(** Property theorems about the initial guess (C42, C107, C108). *)
From Coq Require Import Reals List Bool Arith Lia Lra.
From Verif Require Import Base BaseFacts Rsum Newton Diode PropsDiode Guess.
Import ListNotations.
Open Scope R_scope.

(** ** Duplicates *)

(** The lines that are neither equal nor opposite to one before. *)
Fixpoint firsts (seen l : list (list R * R)) : list (list R * R) :=
  match l with
  | [] => []
  | r :: l' => if existsb (fun s => dependent (fst r) (fst s)) seen then firsts (seen ++ [r]) l' else r :: firsts (seen ++ [r]) l'
  end.

Lemma firsts_app : forall a seen b, firsts seen (a ++ b) = firsts seen a ++ firsts (seen ++ a) b.
Proof.
  induction a as [|r a IH]; intros seen b; simpl; [rewrite app_nil_r; reflexivity|].
  rewrite IH. replace ((seen ++ [r]) ++ a) with (seen ++ r :: a) by (rewrite <- app_assoc; reflexivity).
  destruct (existsb _ seen); reflexivity.
Qed.
Lemma firstn_app_exact : forall A (a b : list A), firstn (List.length a) (a ++ b) = a.
Proof. intros A a b. rewrite firstn_app, Nat.sub_diag, firstn_all, firstn_O, app_nil_r. reflexivity. Qed.
Lemma dedup_firsts : forall i a b, List.length a = i -> dedup i (a ++ b) = firsts [] a ++ b.
Proof.
  induction i as [|k IH]; intros a b H.
  - destruct a; [reflexivity|discriminate].
  - destruct (exists_last (l:=a)) as (a' & r & E); [intros E; subst; discriminate|]. subst a.
    rewrite app_length in H. simpl in H. assert (Hk : List.length a' = k) by lia.
    rewrite firsts_app. cbn [dedup firsts app].
    rewrite <- app_assoc. cbn [app].
    assert (N : nth k (a' ++ r :: b) ([], 0) = r) by (rewrite app_nth2 by lia; rewrite Hk, Nat.sub_diag; reflexivity).
    rewrite N. subst k. rewrite firstn_app_exact.
    destruct (existsb _ a').
    + unfold remove_nth. rewrite firstn_app_exact.
      replace (S (List.length a')) with (List.length (a' ++ [r])) by (rewrite app_length; simpl; lia).
      change (a' ++ r :: b) with (a' ++ [r] ++ b). rewrite app_assoc, skipn_app, skipn_all, Nat.sub_diag. cbn [skipn app].
      rewrite IH by reflexivity. rewrite app_nil_r. reflexivity.
    + rewrite IH by reflexivity. rewrite <- app_assoc. reflexivity.
Qed.

(** * C42 *)

(** Of equal or opposite guesses the first is kept. *)
Theorem C42_first_is_kept : forall rows, dedup (List.length rows) rows = firsts [] rows.
Proof. intros rows. rewrite <- (app_nil_r rows) at 2. rewrite dedup_firsts by reflexivity. apply app_nil_r. Qed.
Print Assumptions C42_first_is_kept.

(** ** The order of the values *)

(** Where the values belong: removed indexes get zero, the others the values in
    order. *)
Definition below (rem : list nat) (p : nat) : nat := List.length (filter (fun i => (i <? p)%nat) rem).
Definition expected (rem : list nat) (rp : list R) (p : nat) : R :=
  if existsb (Nat.eqb p) rem then 0 else nth (p - below rem p) rp 0.

Inductive descending : nat -> list nat -> Prop :=
| desc_nil : forall w, descending w []
| desc_cons : forall w i l, (i < w)%nat -> descending i l -> descending w (i :: l).

Lemma desc_lt : forall w l, descending w l -> forall i, In i l -> (i < w)%nat.
Proof.
  intros w l D. induction D as [|w i l H D IH]; intros j Hj; [contradiction|].
  destruct Hj as [E|Hj]; [lia|]. specialize (IH j Hj). lia.
Qed.
Lemma desc_len : forall w l, descending w l -> (List.length l <= w)%nat.
Proof. intros w l D. induction D; simpl; lia. Qed.

Lemma nth_ins : forall l i p, nth p (ins l i) 0 = if (p <? i)%nat then nth p l 0 else if (p =? i)%nat then 0 else nth (p - 1) l 0.
Proof.
  intros l i p. unfold ins.
  destruct (le_lt_dec i (List.length l)) as [H|H].
  - assert (L : List.length (firstn i l) = i) by (rewrite firstn_length; lia).
    destruct (Nat.ltb_spec p i).
    + rewrite app_nth1 by lia. rewrite <- (firstn_skipn i l) at 2. rewrite app_nth1 by lia. reflexivity.
    + rewrite app_nth2 by lia. rewrite L. destruct (Nat.eqb_spec p i) as [E|E].
      * subst. rewrite Nat.sub_diag. reflexivity.
      * replace (p - i)%nat with (S (p - 1 - i)) by lia. cbn [nth].
        rewrite <- (firstn_skipn i l) at 2. rewrite app_nth2 by lia. rewrite L. reflexivity.
  - rewrite firstn_all2, skipn_all2 by lia.
    destruct (Nat.ltb_spec p i).
    + destruct (lt_dec p (List.length l)).
      * rewrite app_nth1 by lia. reflexivity.
      * rewrite app_nth2 by lia. rewrite (nth_overflow l) by lia.
        destruct (p - List.length l)%nat as [|[|q]]; reflexivity.
    + rewrite app_nth2 by lia. destruct (Nat.eqb_spec p i).
      * destruct (p - List.length l)%nat as [|[|q]]; reflexivity.
      * rewrite (nth_overflow l) by lia. destruct (p - List.length l)%nat as [|[|q]]; reflexivity.
Qed.

Lemma filter_none : forall A (f : A -> bool) l, (forall x, In x l -> f x = false) -> filter f l = [].
Proof.
  intros A f l H. induction l as [|a l IH]; simpl; auto.
  rewrite (H a (or_introl eq_refl)). apply IH. intros; apply H; right; assumption.
Qed.
Lemma filter_every : forall A (f : A -> bool) l, (forall x, In x l -> f x = true) -> filter f l = l.
Proof.
  intros A f l H. induction l as [|a l IH]; simpl; auto.
  rewrite (H a (or_introl eq_refl)). f_equal. apply IH. intros; apply H; right; assumption.
Qed.

(** Where the values go: value [j] ends at [j] plus the number of removed indexes
    that do not exceed [j]. *)
Theorem C42_actual_place : forall rem w rp j, descending w rem -> nth (j + below rem (S j)) (reinsert rem rp) 0 = nth j rp 0.
Proof.
  intros rem w rp j D. unfold reinsert. revert rp j. induction D as [w|w i rem H D IH]; intros rp j.
  - unfold below. simpl. rewrite Nat.add_0_r. reflexivity.
  - unfold below in *. cbn [fold_left filter]. destruct (Nat.ltb_spec i (S j)) as [L|L].
    + specialize (IH (ins rp i) (S j)). rewrite nth_ins in IH.
      rewrite (proj2 (Nat.ltb_ge (S j) i)) in IH by lia. rewrite (proj2 (Nat.eqb_neq (S j) i)) in IH by lia.
      replace (S j - 1)%nat with j in IH by lia. rewrite <- IH. f_equal. cbn [List.length].
      rewrite !filter_every; [lia| |]; intros x Hx; apply Nat.ltb_lt; pose proof (desc_lt _ _ D x Hx); lia.
    + specialize (IH (ins rp i) j). rewrite nth_ins in IH. rewrite (proj2 (Nat.ltb_lt j i)) in IH by lia. exact IH.
Qed.
Print Assumptions C42_actual_place.

(** At most one node without a guess comes before a node with one. *)
Definition one_gap (w : nat) (rem : list nat) : Prop :=
  forall a b p, In a rem -> In b rem -> (a < b)%nat -> (p < w)%nat -> ~ In p rem -> (p < b)%nat.

Lemma existsb_In : forall p rem, existsb (Nat.eqb p) rem = true <-> In p rem.
Proof.
  intros p rem. rewrite existsb_exists. split.
  - intros [x [H E]]. apply Nat.eqb_eq in E. subst. exact H.
  - intros H. exists p. rewrite Nat.eqb_refl. auto.
Qed.

Lemma place_right : forall rem w rp, descending w rem -> one_gap w rem ->
  (forall p, (w - List.length rem <= p)%nat -> nth p rp 0 = 0) ->
  (forall p, (p < w)%nat -> nth p (reinsert rem rp) 0 = expected rem rp p) /\
  (forall p, (w <= p)%nat -> nth p (reinsert rem rp) 0 = 0).
Proof.
  intros rem w rp D. revert rp. induction D as [w|w i rem H D IH]; intros rp G Z.
  - unfold expected, below. simpl in *. split; intros p Hp; [rewrite Nat.sub_0_r; reflexivity|apply Z; lia].
  - destruct rem as [|a rem'].
    + unfold reinsert. cbn [fold_left List.length] in *. split; intros p Hp; rewrite nth_ins.
      * unfold expected, below. cbn [existsb filter]. rewrite orb_false_r.
        destruct (Nat.ltb_spec p i); destruct (Nat.eqb_spec p i); destruct (Nat.ltb_spec i p); try lia; cbn [List.length];
          rewrite ?Nat.sub_0_r; reflexivity.
      * rewrite (proj2 (Nat.ltb_ge p i)) by lia. destruct (Nat.eqb_spec p i); [reflexivity|]. apply Z. lia.
    + assert (Ha : (a < i)%nat) by (inversion D; assumption).
      assert (E : S i = w).
      { destruct (Nat.eq_dec (S i) w) as [|N]; [assumption|exfalso].
        assert (X : (w - 1 < i)%nat); [|lia].
        apply (G a i); simpl; auto; try lia. intros [Y|Y]; [lia|]. pose proof (desc_lt _ _ D _ Y). lia. }
      pose proof (desc_len _ _ D) as DL.
      assert (EX : forall p, nth p (ins rp i) 0 = nth p rp 0).
      { intros p. rewrite nth_ins. destruct (Nat.ltb_spec p i); [reflexivity|].
        simpl List.length in *. rewrite (Z p) by lia. destruct (Nat.eqb_spec p i); [reflexivity|]. apply Z. lia. }
      assert (G' : one_gap i (a :: rem')).
      { intros x y p Hx Hy Hxy Hp Np. apply (G x y p); try (right; assumption); try assumption; try lia.
        intros [Y|Y]; [lia|contradiction]. }
      destruct (IH (ins rp i) G') as [A B].
      { intros p Hp. rewrite EX. apply Z. simpl List.length in *. lia. }
      change (reinsert (i :: a :: rem') rp) with (reinsert (a :: rem') (ins rp i)).
      split; intros p Hp.
      * destruct (Nat.eq_dec p i) as [Y|Y].
        { rewrite B by lia. unfold expected. cbn [existsb]. rewrite (proj2 (Nat.eqb_eq p i) Y). reflexivity. }
        rewrite A by lia. unfold expected, below. rewrite EX.
        change (existsb (Nat.eqb p) (i :: a :: rem')) with ((p =? i)%nat || existsb (Nat.eqb p) (a :: rem')).
        rewrite (proj2 (Nat.eqb_neq p i) Y). cbn [orb].
        change (filter (fun i0 => (i0 <? p)%nat) (i :: a :: rem')) with (if (i <? p)%nat then i :: filter (fun i0 => (i0 <? p)%nat) (a :: rem') else filter (fun i0 => (i0 <? p)%nat) (a :: rem')).
        rewrite (proj2 (Nat.ltb_ge i p)) by lia. reflexivity.
      * apply B. lia.
Qed.

Lemma ins_length : forall l i, List.length (ins l i) = S (List.length l).
Proof. intros l i. unfold ins. rewrite app_length. simpl. rewrite <- (firstn_skipn i l) at 3. rewrite app_length. lia. Qed.

(** The values are all in their places if at most one node without a guess comes
    before a node with one. *)
Theorem C42_right_place : forall w rem rp, descending w rem -> one_gap w rem -> List.length rp = (w - List.length rem)%nat ->
  forall p, (p < w)%nat -> nth p (reinsert rem rp) 0 = expected rem rp p.
Proof. intros w rem rp D G L. apply place_right; auto. intros p Hp. apply nth_overflow. lia. Qed.
Print Assumptions C42_right_place.

Lemma below_split : forall rem w b, descending w rem -> In b rem -> below rem (S b) = S (below rem b).
Proof.
  intros rem w b D. unfold below. induction D as [w|w i rem H D IH]; intros Hb; [contradiction|].
  cbn [filter]. destruct Hb as [E|Hb].
  - subst i. rewrite (proj2 (Nat.ltb_lt b (S b))), (proj2 (Nat.ltb_ge b b)) by lia. cbn [List.length]. f_equal. f_equal.
    transitivity rem; [|symmetry]; apply filter_every; intros x Hx; apply Nat.ltb_lt; pose proof (desc_lt _ _ D x Hx); lia.
  - pose proof (desc_lt _ _ D b Hb). rewrite (proj2 (Nat.ltb_ge i (S b))), (proj2 (Nat.ltb_ge i b)) by lia. apply IH. exact Hb.
Qed.
Lemma below_step : forall rem w b, descending w rem -> ~ In b rem -> below rem (S b) = below rem b.
Proof.
  intros rem w b D. unfold below. induction D as [w|w i rem H D IH]; intros Hb; [reflexivity|].
  cbn [filter]. assert (i <> b) by (intros E; apply Hb; left; exact E).
  assert (~ In b rem) by (intros E; apply Hb; right; exact E).
  destruct (Nat.ltb_spec i (S b)); destruct (Nat.ltb_spec i b); try lia; cbn [List.length]; rewrite IH by assumption; reflexivity.
Qed.
Lemma below_le : forall rem w b, descending w rem -> (below rem b <= b)%nat.
Proof.
  intros rem w b D. induction b as [|b IH].
  - unfold below. rewrite filter_none; [simpl; lia|]. intros x _. apply Nat.ltb_ge. lia.
  - destruct (in_dec Nat.eq_dec b rem) as [Hb|Hb]; [rewrite (below_split rem w b D Hb)|rewrite (below_step rem w b D Hb)]; lia.
Qed.
Lemma below_mono : forall rem a b, (a <= b)%nat -> (below rem a <= below rem b)%nat.
Proof.
  intros rem a b H. unfold below. induction rem as [|i rem IH]; simpl; auto.
  destruct (Nat.ltb_spec i a); destruct (Nat.ltb_spec i b); simpl; lia.
Qed.

(** And only then: otherwise there is a node whose value goes to a lower-numbered
    one, whatever the values are. *)
Theorem C42_place_refuted : forall w rem a b p, descending w rem -> In a rem -> In b rem -> (a < b)%nat -> (b < p < w)%nat -> ~ In p rem ->
  exists q j, (q < w)%nat /\ ~ In q rem /\ j = (q - below rem q)%nat /\
    exists q', (q' < q)%nat /\ forall rp, nth q' (reinsert rem rp) 0 = nth j rp 0.
Proof.
  intros w rem a b p D Ha Hb Hab Hp Np.
  assert (X : forall n, (S b + n <= p)%nat -> (forall q, (b < q < S b + n)%nat -> In q rem) \/
              exists q, (b < q <= p)%nat /\ ~ In q rem /\ forall y, (b <= y < q)%nat -> In y rem).
  { induction n as [|n IH]; intros L; [left; intros; lia|].
    destruct IH as [IH|IH]; [lia| |right; exact IH].
    destruct (in_dec Nat.eq_dec (S b + n)%nat rem) as [Y|Y].
    - left. intros q Hq. destruct (Nat.eq_dec q (S b + n)%nat); [subst; exact Y|apply IH; lia].
    - right. exists (S b + n)%nat. split; [lia|]. split; [exact Y|]. intros y Hy.
      destruct (Nat.eq_dec y b); [subst; exact Hb|apply IH; lia]. }
  assert (Q : exists q, (b < q <= p)%nat /\ ~ In q rem /\ forall y, (b <= y < q)%nat -> In y rem).
  { destruct (X (p - S b)%nat ltac:(lia)) as [Y|Y]; [|exact Y]. exists p. split; [lia|]. split; [exact Np|].
    intros y Hy. destruct (Nat.eq_dec y b); [subst; exact Hb|apply Y; lia]. }
  destruct Q as (q & Hq & Nq & Y). exists q, (q - below rem q)%nat. split; [lia|]. split; [exact Nq|]. split; [reflexivity|].
  set (j := (q - below rem q)%nat). exists (j + below rem (S j))%nat. split; [|intros rp; apply (C42_actual_place rem w rp j D)].
  assert (BA := below_split rem w a D Ha). assert (M1 := below_mono rem (S a) b ltac:(lia)).
  assert (Bq : below rem q = (below rem b + (q - b))%nat).
  { assert (Z : forall n, (b + n <= q)%nat -> below rem (b + n)%nat = (below rem b + n)%nat).
    { induction n as [|n IH]; intros L; [rewrite !Nat.add_0_r; reflexivity|].
      replace (b + S n)%nat with (S (b + n)) by lia. rewrite (below_split rem w (b + n)%nat D) by (apply Y; lia). rewrite IH by lia. lia. }
    specialize (Z (q - b)%nat ltac:(lia)). replace (b + (q - b))%nat with q in Z by lia. lia. }
  assert (Lb := below_le rem w b D). assert (Hj : (S j <= b)%nat) by (unfold j; lia).
  assert (M2 := below_mono rem (S j) b Hj). unfold j in *. lia.
Qed.
Print Assumptions C42_place_refuted.

(** ** From the equations to the guess *)

Lemma Req_b_iff : forall a b, Req_b a b = true <-> a = b.
Proof. intros a b. destruct (Req_b_spec a b); split; congruence. Qed.

Definition dot (r x : list R) : R := rsum (List.length r) (fun p => nth p r 0 * nth p x 0).

Lemma rsum_skip : forall n k f, (k <= n)%nat -> f k = 0 -> rsum (S n) f = rsum n (fun p => f (if (p <? k)%nat then p else S p)).
Proof.
  induction n as [|n IH]; intros k f Hk Z.
  - assert (k = 0)%nat by lia. subst. simpl. rewrite Z. ring.
  - destruct (Nat.eq_dec k (S n)) as [E|E].
    + change (rsum (S (S n)) f) with (rsum (S n) f + f (S n)). rewrite <- E at 2. rewrite Z, Rplus_0_r.
      apply rsum_ext. intros i Hi. rewrite (proj2 (Nat.ltb_lt i k)) by lia. reflexivity.
    + change (rsum (S (S n)) f) with (rsum (S n) f + f (S n)). rewrite (IH k f) by (auto; lia).
      change (rsum (S n) (fun p => f (if (p <? k)%nat then p else S p))) with (rsum n (fun p => f (if (p <? k)%nat then p else S p)) + f (if (n <? k)%nat then n else S n)).
      rewrite (proj2 (Nat.ltb_ge n k)) by lia. reflexivity.
Qed.

Lemma remove_nth_length : forall A (r : list A) k, (k < List.length r)%nat -> List.length (remove_nth k r) = (List.length r - 1)%nat.
Proof. intros A r k H. unfold remove_nth. rewrite app_length, firstn_length, skipn_length. lia. Qed.
Lemma nth_remove : forall (r : list R) k p, nth p (remove_nth k r) 0 = nth (if (p <? k)%nat then p else S p) r 0.
Proof.
  intros r k p. unfold remove_nth. destruct (le_lt_dec k (List.length r)) as [H|H].
  - assert (L : List.length (firstn k r) = k) by (rewrite firstn_length; lia).
    destruct (Nat.ltb_spec p k).
    + rewrite app_nth1 by lia. rewrite <- (firstn_skipn k r) at 2. rewrite app_nth1 by lia. reflexivity.
    + rewrite app_nth2 by lia. rewrite L. destruct (lt_dec k (List.length r)) as [H1|H1].
      * assert (L' : List.length (firstn (S k) r) = S k) by (rewrite firstn_length; lia).
        rewrite <- (firstn_skipn (S k) r) at 2. rewrite app_nth2 by lia. rewrite L'. f_equal.
      * rewrite skipn_all2 by lia. rewrite (nth_overflow r) by lia. destruct (p - k)%nat; reflexivity.
  - rewrite firstn_all2, skipn_all2, app_nil_r by lia. destruct (Nat.ltb_spec p k); [reflexivity|].
    rewrite !nth_overflow by lia. reflexivity.
Qed.

Lemma dot_remove : forall r l k, (k < List.length r)%nat -> nth k r 0 = 0 -> dot (remove_nth k r) l = dot r (ins l k).
Proof.
  intros r l k H Z. unfold dot. rewrite remove_nth_length by exact H.
  replace (List.length r) with (S (List.length r - 1)) at 2 by lia.
  rewrite (rsum_skip _ k) by (try lia; rewrite Z; ring).
  apply rsum_ext. intros p _. rewrite nth_remove, nth_ins. destruct (Nat.ltb_spec p k).
  - rewrite (proj2 (Nat.ltb_lt p k)) by lia. reflexivity.
  - rewrite (proj2 (Nat.ltb_ge (S p) k)), (proj2 (Nat.eqb_neq (S p) k)) by lia. replace (S p - 1)%nat with p by lia. reflexivity.
Qed.

Definition removes (rem : list nat) (r : list R) : list R := fold_left (fun r k => remove_nth k r) rem r.
Definition put (rem : list nat) (l : list R) : list R := fold_right (fun k l => ins l k) l rem.

Lemma dot_removes : forall rem w r l, descending w rem -> (w <= List.length r)%nat -> (forall k, In k rem -> nth k r 0 = 0) ->
  dot (removes rem r) l = dot r (put rem l).
Proof.
  intros rem w r l D. revert r. induction D as [w|w i rem H D IH]; intros r L Z; [reflexivity|].
  unfold removes, put in *. cbn [fold_left fold_right]. rewrite IH.
  - apply dot_remove; [lia|]. apply Z. left; reflexivity.
  - rewrite remove_nth_length by lia. lia.
  - intros k Hk. rewrite nth_remove, (proj2 (Nat.ltb_lt k i)) by (apply (desc_lt _ _ D _ Hk)). apply Z. right; exact Hk.
Qed.

Lemma nth_put : forall rem w l p, descending w rem -> nth p (put rem l) 0 = expected rem l p.
Proof.
  intros rem w l p D. revert p. induction D as [w|w i rem H D IH]; intros p.
  - unfold expected, below. simpl. rewrite Nat.sub_0_r. reflexivity.
  - unfold put in *. cbn [fold_right]. rewrite nth_ins. unfold expected, below in *. cbn [existsb filter].
    destruct (Nat.ltb_spec p i).
    + rewrite IH, (proj2 (Nat.eqb_neq p i)), (proj2 (Nat.ltb_ge i p)) by lia. reflexivity.
    + destruct (Nat.eqb_spec p i); [reflexivity|]. rewrite IH, (proj2 (Nat.ltb_lt i p)) by lia. cbn [orb].
      assert (E : existsb (Nat.eqb (p - 1)) rem = existsb (Nat.eqb p) rem).
      { transitivity false; [|symmetry]; apply not_true_iff_false; rewrite existsb_In; intros X; pose proof (desc_lt _ _ D _ X); lia. }
      rewrite E. clear E. destruct (existsb (Nat.eqb p) rem); [reflexivity|]. f_equal. cbn [List.length].
      rewrite !filter_every; [lia| |]; intros x Hx; apply Nat.ltb_lt; pose proof (desc_lt _ _ D x Hx); lia.
Qed.

Lemma drop_spec : forall i rows rows' rem, drop_columns i rows = (rows', rem) -> (forall r, In r rows -> (i <= List.length (fst r))%nat) ->
  descending i rem /\ rows' = map (fun r => (removes rem (fst r), snd r)) rows /\
  (forall k, (k < i)%nat -> (In k rem <-> forall r, In r rows -> nth k (fst r) 0 = 0)).
Proof.
  induction i as [|k IH]; intros rows rows' rem H L; cbn [drop_columns] in H.
  - inversion H; subst. split; [constructor|]. split; [|intros; lia].
    unfold removes. cbn [fold_left]. rewrite <- (map_id rows') at 1. apply map_ext. intros [a b]; reflexivity.
  - destruct (forallb _ rows) eqn:F.
    + destruct (drop_columns k _) as [rows2 rem2] eqn:E. inversion H; subst. clear H.
      destruct (IH _ _ _ E) as (D & M & C).
      { intros r Hr. apply in_map_iff in Hr. destruct Hr as [r0 [<- Hr]]. cbn [fst]. specialize (L r0 Hr). rewrite remove_nth_length; lia. }
      split; [constructor; [lia|exact D]|]. split.
      * subst rows'. rewrite map_map. cbn [fst snd]. reflexivity.
      * intros q Hq. destruct (Nat.eq_dec q k) as [->|N].
        { split; [|left; reflexivity]. intros _ r Hr. rewrite forallb_forall in F. apply Req_b_iff, (F r Hr). }
        { cbn [In]. split.
          - intros [X|X]; [congruence|]. pose proof (proj1 (C q ltac:(lia)) X) as Y. intros r Hr.
            specialize (Y _ (in_map (fun r => (remove_nth k (fst r), snd r)) rows r Hr)). cbn [fst] in Y.
            rewrite nth_remove, (proj2 (Nat.ltb_lt q k)) in Y by lia. exact Y.
          - intros X. right. apply (C q ltac:(lia)). intros r Hr. apply in_map_iff in Hr. destruct Hr as [r0 [<- Hr]]. cbn [fst].
            rewrite nth_remove, (proj2 (Nat.ltb_lt q k)) by lia. apply X, Hr. }
    + destruct (IH _ _ _ H) as (D & M & C); [intros r Hr; specialize (L r Hr); lia|].
      split; [destruct D; constructor; auto; lia|]. split; [exact M|].
      intros q Hq. destruct (Nat.eq_dec q k) as [->|N]; [|apply C; lia].
      split; intros X; [pose proof (desc_lt _ _ D _ X); lia|]. exfalso.
      assert (Y : forallb (fun r => Req_b (nth k (fst r) 0) 0) rows = true); [|congruence].
      apply forallb_forall. intros r Hr. apply Req_b_iff, X, Hr.
Qed.

(** ** Dependent lines *)
Definition coef (n1 n2 c : nat) : R := if (c =? n2)%nat then -1 else if (c =? n1)%nat then 1 else 0.
Lemma nth_line : forall nv n1 n2 p, nth p (line nv n1 n2) 0 = if (p <? nv - 1)%nat then coef n1 n2 (S p) else 0.
Proof.
  intros nv n1 n2 p. unfold line. destruct (Nat.ltb_spec p (nv - 1)) as [H|H].
  - rewrite (nth_indep _ 0 (coef n1 n2 0)) by (rewrite map_length, seq_length; exact H).
    change (fun c => if (c =? n2)%nat then -1 else if (c =? n1)%nat then 1 else 0) with (coef n1 n2).
    rewrite map_nth, seq_nth by exact H. reflexivity.
  - apply nth_overflow. rewrite map_length, seq_length. exact H.
Qed.
Lemma line_length : forall nv n1 n2, List.length (line nv n1 n2) = (nv - 1)%nat.
Proof. intros. unfold line. rewrite map_length, seq_length. reflexivity. Qed.

(** The voltage of a node in a vector without ground. *)
Definition volt (x : list R) (n : nat) : R := match n with O => 0 | S p => nth p x 0 end.

Lemma rsum_volt : forall m n x c, (n <= m)%nat -> rsum m (fun p => (if (S p =? n)%nat then c else 0) * nth p x 0) = c * volt x n.
Proof.
  intros m n x c H. destruct n as [|n]; cbn [volt].
  - rewrite Rmult_0_r. apply rsum_0. intros i _. cbn [Nat.eqb]. ring.
  - rewrite <- (rsum_dlt m n (fun p => c * nth p x 0)) by lia. apply rsum_ext. intros i _. unfold dlt. cbn [Nat.eqb].
    destruct (i =? n)%nat; ring.
Qed.

Lemma dot_line : forall nv n1 n2 x, (n1 < nv)%nat -> (n2 < nv)%nat -> n1 <> n2 -> dot (line nv n1 n2) x = volt x n1 - volt x n2.
Proof.
  intros nv n1 n2 x H1 H2 N. unfold dot. rewrite line_length.
  transitivity (rsum (nv - 1) (fun p => (if (S p =? n1)%nat then 1 else 0) * nth p x 0) + rsum (nv - 1) (fun p => (if (S p =? n2)%nat then -1 else 0) * nth p x 0)).
  - rewrite <- rsum_plus. apply rsum_ext. intros p Hp. rewrite nth_line, (proj2 (Nat.ltb_lt p _) Hp). unfold coef.
    destruct (Nat.eqb_spec (S p) n1); destruct (Nat.eqb_spec (S p) n2); try congruence; ring.
  - rewrite !rsum_volt by lia. ring.
Qed.

Lemma all0_nth : forall f a b, f 0 0 = 0 -> List.length a = List.length b -> (all0 f a b = true <-> forall p, f (nth p a 0) (nth p b 0) = 0).
Proof.
  intros f a. induction a as [|x a IH]; intros [|y b] Z L; cbn [List.length] in L; try discriminate; cbn [all0].
  - split; [|reflexivity]. intros _ [|p]; exact Z.
  - rewrite andb_true_iff, Req_b_iff, (IH b Z) by lia. split.
    + intros [A B] [|p]; [exact A|apply B].
    + intros H. split; [apply (H O)|intros p; apply (H (S p))].
Qed.

Definition same_zero (r s : list R) : Prop := forall k, nth k r 0 = 0 <-> nth k s 0 = 0.
Lemma dependent_same : forall r s, List.length r = List.length s -> dependent r s = true -> same_zero r s.
Proof.
  intros r s L D k. unfold dependent in D. apply orb_true_iff in D. destruct D as [D|D]; rewrite all0_nth in D by (auto; lra);
    specialize (D k); lra.
Qed.

Lemma firsts_represent : forall m l seen, (forall r, In r (seen ++ l) -> List.length (fst r) = m) -> forall r, In r l ->
  (exists s, In s (firsts seen l) /\ same_zero (fst r) (fst s)) \/ (exists s, In s seen /\ same_zero (fst r) (fst s)).
Proof.
  intros m l. induction l as [|a l IH]; intros seen Lm r Hr; [contradiction|].
  assert (Lm' : forall r, In r ((seen ++ [a]) ++ l) -> List.length (fst r) = m).
  { intros x Hx. apply Lm. rewrite <- app_assoc in Hx. exact Hx. }
  assert (DS : existsb (fun s => dependent (fst a) (fst s)) seen = true -> exists s, In s seen /\ same_zero (fst a) (fst s)).
  { intros X. apply existsb_exists in X. destruct X as [s [Hs X]]. exists s. split; [exact Hs|].
    apply dependent_same; [|exact X]. rewrite (Lm a), (Lm s); auto; apply in_or_app; [left; exact Hs|right; left; reflexivity]. }
  cbn [firsts]. destruct Hr as [E|Hr].
  - subst a. destruct (existsb _ seen) eqn:X.
    + right. exact (DS eq_refl).
    + left. exists r. split; [left; reflexivity|]. intros k; reflexivity.
  - destruct (IH _ Lm' r Hr) as [[s [Hs Z]]|[s [Hs Z]]].
    + left. exists s. split; [|exact Z]. destruct (existsb _ seen); [exact Hs|right; exact Hs].
    + apply in_app_or in Hs. destruct Hs as [Hs|[E|[]]].
      * right. exists s. auto.
      * subst s. destruct (existsb _ seen) eqn:X.
        { destruct (DS eq_refl) as [s [Hs Z']]. right. exists s. split; [exact Hs|]. intros k. rewrite (Z k). apply Z'. }
        { left. exists a. split; [left; reflexivity|exact Z]. }
Qed.
Lemma firsts_sub : forall l seen r, In r (firsts seen l) -> In r l.
Proof.
  induction l as [|a l IH]; intros seen r H; [contradiction|]. cbn [firsts] in H.
  destruct (existsb _ seen); [right; eapply IH; exact H|]. destruct H as [H|H]; [left; exact H|right; eapply IH; exact H].
Qed.

(** The same two nodes. *)
Definition same_pair (a1 a2 b1 b2 : nat) : Prop := (a1 = b1 /\ a2 = b2) \/ (a1 = b2 /\ a2 = b1).

Lemma coef_eq : forall nv a1 a2 b1 b2 (u : R), (a1 < nv)%nat -> (a2 < nv)%nat -> (b1 < nv)%nat -> (b2 < nv)%nat -> a1 <> a2 -> b1 <> b2 ->
  (u = 1 \/ u = -1) -> (forall c, (1 <= c < nv)%nat -> coef a1 a2 c = u * coef b1 b2 c) -> same_pair a1 a2 b1 b2.
Proof.
  intros nv a1 a2 b1 b2 u A1 A2 B1 B2 NA NB U H. unfold coef, same_pair in *.
  assert (X : forall c, (1 <= c < nv)%nat -> (c = a1 \/ c = a2) <-> (c = b1 \/ c = b2)).
  { intros c Hc. specialize (H c Hc).
    destruct (Nat.eqb_spec c a1); destruct (Nat.eqb_spec c a2); destruct (Nat.eqb_spec c b1); destruct (Nat.eqb_spec c b2);
      try congruence; split; intros Q; try tauto; exfalso; destruct U; subst u; lra. }
  assert (F : forall c, (c < nv)%nat -> (c = a1 \/ c = a2) -> c = 0%nat \/ c = b1 \/ c = b2).
  { intros c Hc Q. destruct (Nat.eq_dec c 0) as [Z|Z]; [left; exact Z|right]. apply X; [lia|exact Q]. }
  assert (B : forall c, (c < nv)%nat -> (c = b1 \/ c = b2) -> c = 0%nat \/ c = a1 \/ c = a2).
  { intros c Hc Q. destruct (Nat.eq_dec c 0) as [Z|Z]; [left; exact Z|right]. apply X; [lia|exact Q]. }
  clear X H U.
  destruct (F a1 A1 (or_introl eq_refl)) as [F1|[F1|F1]]; destruct (F a2 A2 (or_intror eq_refl)) as [F2|[F2|F2]];
    destruct (B b1 B1 (or_introl eq_refl)) as [G1|[G1|G1]]; destruct (B b2 B2 (or_intror eq_refl)) as [G2|[G2|G2]];
    clear F B A1 A2 B1 B2; try congruence; (left; split; congruence) || (right; split; congruence).
Qed.
Lemma dependent_pair : forall nv a1 a2 b1 b2, (a1 < nv)%nat -> (a2 < nv)%nat -> (b1 < nv)%nat -> (b2 < nv)%nat -> a1 <> a2 -> b1 <> b2 ->
  dependent (line nv a1 a2) (line nv b1 b2) = true -> same_pair a1 a2 b1 b2.
Proof.
  intros nv a1 a2 b1 b2 A1 A2 B1 B2 NA NB D. unfold dependent in D. apply orb_true_iff in D.
  assert (L : List.length (line nv a1 a2) = List.length (line nv b1 b2)) by (rewrite !line_length; reflexivity).
  destruct D as [D|D]; rewrite all0_nth in D by (auto; lra).
  - apply (coef_eq nv a1 a2 b1 b2 1); auto. intros c Hc. specialize (D (c - 1)%nat). rewrite !nth_line in D.
    rewrite (proj2 (Nat.ltb_lt (c - 1) (nv - 1))) in D by lia. replace (S (c - 1)) with c in D by lia. lra.
  - apply (coef_eq nv a1 a2 b1 b2 (-1)); auto. intros c Hc. specialize (D (c - 1)%nat). rewrite !nth_line in D.
    rewrite (proj2 (Nat.ltb_lt (c - 1) (nv - 1))) in D by lia. replace (S (c - 1)) with c in D by lia. lra.
Qed.

(** ** The whole function *)

(** The guesses, in circuit order, fit the circuit. *)
Definition wf_eqns (nv : nat) (eqs : list eqn) : Prop :=
  Forall (fun '(n1, n2, _) => (n1 < nv)%nat /\ (n2 < nv)%nat /\ n1 <> n2) eqs.
Definition guessed (eqs : list eqn) (n : nat) : Prop := exists n1 n2 t, In (n1, n2, t) eqs /\ (n1 = n \/ n2 = n).
(** At most one node without a guess comes before a node with one. *)
Definition one_unguessed (eqs : list eqn) : Prop :=
  forall a b n, (1 <= a < b)%nat -> (b < n)%nat -> ~ guessed eqs a -> ~ guessed eqs b -> ~ guessed eqs n.
(** The solver finds a vector of the right length that satisfies its equations. *)
Definition solves (solve : list (list R) -> list R -> option (list R)) : Prop :=
  forall M T rp, solve M T = Some rp -> (forall r, In r M -> List.length rp = List.length r) /\
    forall k, (k < List.length M)%nat -> dot (nth k M []) rp = nth k T 0.

Lemma removes_length : forall rem w r, descending w rem -> (w <= List.length r)%nat -> List.length (removes rem r) = (List.length r - List.length rem)%nat.
Proof.
  intros rem w r D. revert r. induction D as [w|w i rem H D IH]; intros r L; [simpl; unfold removes; simpl; lia|].
  unfold removes in *. cbn [fold_left List.length]. rewrite IH; rewrite remove_nth_length by lia; lia.
Qed.
Lemma dot_ext : forall r x y, (forall p, (p < List.length r)%nat -> nth p x 0 = nth p y 0) -> dot r x = dot r y.
Proof. intros r x y H. unfold dot. apply rsum_ext. intros p Hp. rewrite (H p Hp). reflexivity. Qed.
Lemma nth_app_zeros : forall p (l : list R) n, nth p (l ++ repeat 0 n) 0 = nth p l 0.
Proof.
  intros p l n. destruct (lt_dec p (List.length l)) as [H|H]; [apply app_nth1; exact H|].
  rewrite app_nth2 by lia. rewrite (nth_overflow l) by lia. apply nth_repeat.
Qed.

Lemma reinsert_length : forall rem rp, List.length (reinsert rem rp) = (List.length rp + List.length rem)%nat.
Proof.
  unfold reinsert. induction rem as [|i rem IH]; intros rp; cbn [fold_left List.length]; [lia|]. rewrite IH, ins_length. lia.
Qed.

Theorem C42_guess_reached : forall solve nv es eqs x, solves solve -> equations es = Ok eqs -> eqs <> [] -> wf_eqns nv eqs -> one_unguessed eqs ->
  get_dc_guess solve nv es = Ok (Some x) ->
  List.length x = (nv - 1 + v_eq es)%nat /\
  (forall n, (1 <= n < nv)%nat -> ~ guessed eqs n -> volt x n = 0) /\
  (forall p, (nv - 1 <= p)%nat -> nth p x 0 = 0) /\
  (forall pre n1 n2 t post, eqs = pre ++ (n1, n2, t) :: post -> (forall m1 m2 u, In (m1, m2, u) pre -> ~ same_pair n1 n2 m1 m2) ->
     volt x n1 - volt x n2 = t).
Proof.
  intros solve nv es eqs x SV Eq NE W OU G. unfold get_dc_guess in G.
  destruct (negb (existsb g_nl es)); [discriminate|]. rewrite Eq in G. cbn [bindr] in G.
  destruct (negb (has_guess es)); [discriminate|]. rewrite C42_first_is_kept in G.
  set (rows := system nv eqs) in *.
  assert (RW : rows = map (fun '(n1, n2, t) => (line nv n1 n2, t)) eqs) by (unfold rows, system; destruct eqs; [congruence|reflexivity]).
  assert (RL : forall r, In r rows -> List.length (fst r) = (nv - 1)%nat).
  { intros r Hr. rewrite RW in Hr. apply in_map_iff in Hr. destruct Hr as [[[n1 n2] t] [<- _]]. apply line_length. }
  destruct (drop_columns (nv - 1) (firsts [] rows)) as [rows2 rem] eqn:DC.
  destruct (drop_spec _ _ _ _ DC) as (D & M & C).
  { intros r Hr. rewrite (RL r (firsts_sub _ _ _ Hr)). lia. }
  destruct (solve (map fst rows2) (map snd rows2)) as [rp|] eqn:SO; [|discriminate].
  inversion G; subst x. clear G. destruct (SV _ _ _ SO) as [LEN SAT].
  assert (CG : forall n, (1 <= n < nv)%nat -> (In (n - 1)%nat rem <-> ~ guessed eqs n)).
  { intros n Hn. rewrite (C (n - 1)%nat) by lia. split.
    - intros Z (n1 & n2 & t & Hin & Hor).
      assert (Hr : In (line nv n1 n2, t) rows) by (rewrite RW; apply (in_map (fun '(n1, n2, t) => (line nv n1 n2, t)) eqs _ Hin)).
      destruct (firsts_represent (nv - 1) rows [] RL _ Hr) as [[s [Hs SZ]]|[s [[] _]]].
      specialize (Z s Hs). apply (SZ (n - 1)%nat) in Z. cbn [fst] in Z. rewrite nth_line, (proj2 (Nat.ltb_lt (n - 1) (nv - 1))) in Z by lia.
      replace (S (n - 1)) with n in Z by lia. unfold coef in Z.
      destruct (Nat.eqb_spec n n2); [lra|]. destruct (Nat.eqb_spec n n1); [lra|]. intuition congruence.
    - intros Ng r Hr. apply firsts_sub in Hr. rewrite RW in Hr. apply in_map_iff in Hr. destruct Hr as [[[n1 n2] t] [<- Hin]].
      cbn [fst]. rewrite nth_line. destruct (Nat.ltb_spec (n - 1) (nv - 1)); [|reflexivity]. replace (S (n - 1)) with n by lia. unfold coef.
      destruct (Nat.eqb_spec n n2); [exfalso; apply Ng; exists n1, n2, t; auto|].
      destruct (Nat.eqb_spec n n1); [exfalso; apply Ng; exists n1, n2, t; auto|]. reflexivity. }
  assert (OG : one_gap (nv - 1) rem).
  { intros a b p Ha Hb Hab Hp Np. pose proof (desc_lt _ _ D _ Ha). pose proof (desc_lt _ _ D _ Hb).
    destruct (lt_dec p b) as [|Q]; [assumption|exfalso].
    assert (p <> b) by (intros ->; contradiction).
    apply Np. replace p with (S p - 1)%nat by lia. apply CG; [lia|].
    apply (OU (S a) (S b)); try lia; apply CG; try lia; rewrite Nat.sub_succ, Nat.sub_0_r; assumption. }
  assert (RPL : List.length rp = (nv - 1 - List.length rem)%nat).
  { assert (X : exists r0, In r0 (firsts [] rows)).
    { rewrite RW. destruct eqs as [|[[n1 n2] t] eqs']; [congruence|]. eexists. cbn [map firsts existsb]. left. reflexivity. }
    destruct X as [r0 Hr0]. rewrite (LEN (removes rem (fst r0))).
    - rewrite (removes_length rem (nv - 1)); rewrite ?(RL r0) by (eapply firsts_sub; exact Hr0); auto.
    - rewrite M, map_map. cbn [fst]. apply in_map_iff. exists r0. auto. }
  destruct (place_right rem (nv - 1) rp D OG) as [PR PZ]; [intros p Hp; apply nth_overflow; lia|].
  pose proof (desc_len _ _ D) as DL.
  split; [rewrite app_length, reinsert_length, repeat_length, RPL; lia|]. split; [|split].
  - intros n Hn Ng. destruct n as [|p]; [reflexivity|]. cbn [volt]. rewrite nth_app_zeros, PR by lia. unfold expected.
    apply CG in Ng; [|lia]. rewrite Nat.sub_succ, Nat.sub_0_r in Ng. rewrite (proj2 (existsb_In p rem) Ng). reflexivity.
  - intros p Hp. rewrite nth_app_zeros. apply PZ. exact Hp.
  - intros pre n1 n2 t post E First. unfold wf_eqns in W. rewrite E in W. apply Forall_app in W. destruct W as [Wp W].
    pose proof (Forall_inv W) as W1. cbv beta iota in W1. destruct W1 as (B1 & B2 & B3).
    assert (HF : In (line nv n1 n2, t) (firsts [] rows)).
    { rewrite RW, E, map_app, firsts_app. cbn [map]. apply in_or_app. right. cbn [firsts app].
      destruct (existsb _ _) eqn:X; [|left; reflexivity]. exfalso.
      apply existsb_exists in X. destruct X as [s [Hs Dp]]. apply in_map_iff in Hs. destruct Hs as [[[m1 m2] u] [<- Hin]]. cbn [fst] in Dp.
      rewrite Forall_forall in Wp. destruct (Wp _ Hin) as (C1 & C2 & C3).
      apply (First m1 m2 u Hin). apply (dependent_pair nv); auto. }
    destruct (In_nth _ _ ([], 0) HF) as (k & Hk & Nk).
    assert (S1 := SAT k). rewrite M, map_map in S1. cbn [fst] in S1. rewrite map_length in S1. specialize (S1 Hk).
    rewrite (nth_indep _ [] (removes rem (fst ([], 0)))) in S1 by (rewrite map_length; exact Hk).
    rewrite (map_nth (fun r => removes rem (fst r))) in S1. rewrite Nk in S1. cbn [fst] in S1.
    rewrite map_map in S1. cbn [snd] in S1. rewrite (nth_indep _ 0 (snd ([] : list R, 0))) in S1 by (rewrite map_length; exact Hk).
    rewrite (map_nth (fun r => snd r)) in S1. rewrite Nk in S1. cbn [snd] in S1.
    rewrite (dot_removes rem (nv - 1)) in S1; [|exact D|rewrite line_length; lia|].
    2:{ intros q Hq. apply (proj1 (C q (desc_lt _ _ D _ Hq)) Hq (line nv n1 n2, t) HF). }
    rewrite <- S1, <- dot_line with (nv := nv) by assumption. apply dot_ext. intros p Hp. rewrite line_length in Hp.
    rewrite nth_app_zeros, PR by lia. symmetry. apply (nth_put rem (nv - 1) rp p D).
Qed.
Print Assumptions C42_guess_reached.

(** A diode from node 3 to ground, nodes 1 and 2 without a guess: the 0.425 V of the
    diode are given to node 2. *)
Definition inv1 (M : list (list R)) (T : list R) : option (list R) :=
  match M, T with [[a]], [t] => if Req_b a 0 then None else Some [t / a] | _, _ => None end.
Lemma inv1_solves : solves inv1.
Proof.
  intros M T rp H. unfold inv1 in H. destruct M as [|[|a [|]] [|]]; try discriminate. destruct T as [|t [|]]; try discriminate.
  destruct (Req_b_spec a 0) as [E|E]; [discriminate|]. inversion H; subst. split.
  - intros r [<-|[]]. reflexivity.
  - intros k Hk. simpl in Hk. assert (k = 0)%nat by lia. subst. unfold dot. simpl. field. exact E.
Qed.
Theorem C42_refuted : forall g : R, let es := [mkG false false [(1, 2)]%nat None; mkG false true [(3, 0)]%nat (Some (GList [g]))] in
  equations es = Ok [(3%nat, 0%nat, g)] /\ get_dc_guess inv1 4 es = Ok (Some [0; g; 0]).
Proof.
  intros g es. split; [reflexivity|]. unfold get_dc_guess, es.
  cbn [existsb g_nl orb negb equations g_guess bindr port_eqns Nat.eqb guess_at nth_error app has_guess g_ports].
  unfold system, line. cbn [map seq Nat.sub Nat.eqb List.length].
  cbn [dedup nth firstn existsb fst]. cbn [drop_columns forallb fst nth].
  assert (Z : Req_b 0 0 = true) by (apply Req_b_iff; reflexivity).
  assert (O : Req_b 1 0 = false) by (destruct (Req_b_spec 1 0); [lra|reflexivity]).
  rewrite O. cbn [andb]. rewrite Z. cbn [andb forallb map remove_nth firstn skipn app fst snd nth]. rewrite Z.
  cbn [andb remove_nth firstn skipn app fst snd map inv1]. rewrite O. unfold reinsert. cbn [fold_left ins firstn skipn app v_eq filter g_vde List.length repeat].
  do 4 f_equal. field.
Qed.
Print Assumptions C42_refuted.
(** One node without a guess: the theorem applies. *)
Example C42_example : forall x, let es := [mkG false false [(1, 2)]%nat None; mkG false true [(2, 0)]%nat (Some (GList [17/40]))] in
  get_dc_guess inv1 3 es = Ok (Some x) -> volt x 1 = 0 /\ volt x 2 = 17/40.
Proof.
  intros x es G.
  destruct (C42_guess_reached inv1 3 es [(2%nat, 0%nat, 17/40)] x inv1_solves eq_refl) as (_ & A & _ & B); auto.
  - discriminate.
  - repeat constructor; lia.
  - intros a b n H1 H2 Na Nb (n1 & n2 & t & [E|[]] & O). inversion E; subst. destruct O; lia || (apply Nb; exists 2%nat, 0%nat, (17/40); simpl; split; auto; lia).
  - split.
    + apply A; [lia|]. intros (n1 & n2 & t & [E|[]] & O). inversion E; subst. lia.
    + specialize (B [] 2%nat 0%nat (17/40) [] eq_refl). cbn [volt] in *. rewrite <- B; [ring|]. intros ? ? ? [].
Qed.
Example C42_example_returns : exists x, get_dc_guess inv1 3 [mkG false false [(1, 2)]%nat None; mkG false true [(2, 0)]%nat (Some (GList [17/40]))] = Ok (Some x).
Proof.
  unfold get_dc_guess. cbn [existsb g_nl orb negb equations g_guess bindr port_eqns Nat.eqb guess_at nth_error app has_guess g_ports].
  unfold system, line. cbn [map seq Nat.sub Nat.eqb List.length].
  cbn [dedup nth firstn existsb fst]. cbn [drop_columns forallb fst nth].
  assert (Z : Req_b 0 0 = true) by (apply Req_b_iff; reflexivity).
  assert (O : Req_b 1 0 = false) by (destruct (Req_b_spec 1 0); [lra|reflexivity]).
  rewrite O. cbn [andb]. rewrite Z. cbn [andb forallb map remove_nth firstn skipn app fst snd nth inv1]. rewrite O. eauto.
Qed.


(** * C107: shorted ports *)

Definition live_ports (ports : list (nat * nat)) : list (nat * nat) := filter (fun p => negb (fst p =? snd p)%nat) ports.
Fixpoint zip_eqns (ports : list (nat * nat)) (l : list R) : list eqn :=
  match ports, l with p :: ps, t :: l' => (fst p, snd p, t) :: zip_eqns ps l' | _, _ => [] end.

(** The k-th port that is not shorted gets the k-th guess, not its own. *)
Theorem C107_actual : forall ports pre l, (List.length (live_ports ports) <= List.length l)%nat ->
  port_eqns (GList (pre ++ l)) (List.length pre) ports = Ok (zip_eqns (live_ports ports) l).
Proof.
  induction ports as [|[n1 n2] ps IH]; intros pre l H; [reflexivity|].
  unfold live_ports in *. cbn [port_eqns filter fst snd] in *. destruct (n1 =? n2)%nat; cbn [negb] in *; [apply IH; exact H|].
  destruct l as [|t l]; cbn [List.length] in H; [lia|].
  cbn [guess_at]. rewrite nth_error_app2, Nat.sub_diag by lia. cbn [nth_error bindr].
  specialize (IH (pre ++ [t]) l ltac:(lia)). rewrite app_length, <- app_assoc, Nat.add_1_r in IH. cbn [app List.length] in IH.
  rewrite IH. reflexivity.
Qed.
Print Assumptions C107_actual.

(** A transistor whose first port is shorted (EKV: drain and bulk together): the
    gate gets the guess of the drain. *)
Theorem C107_refuted : forall d g s gd gg gs rest, g <> d -> s <> d ->
  port_eqns (GList (gd :: gg :: gs :: rest)) 0 [(d, d); (g, d); (s, d)] = Ok [(g, d, gd); (s, d, gg)].
Proof.
  intros d g s gd gg gs rest H1 H2. rewrite (C107_actual _ [] (gd :: gg :: gs :: rest)); unfold live_ports; cbn [filter fst snd];
    rewrite Nat.eqb_refl, (proj2 (Nat.eqb_neq g d) H1), (proj2 (Nat.eqb_neq s d) H2); cbn [negb List.length]; [reflexivity|lia].
Qed.
Print Assumptions C107_refuted.

(** Without a shorted port before it, each port gets its own guess. *)
Theorem C107_own_guess : forall ports l k n1 n2 t es, port_eqns (GList l) 0 ports = Ok es ->
  (List.length (live_ports ports) <= List.length l)%nat ->
  nth_error ports k = Some (n1, n2) -> n1 <> n2 -> nth_error l k = Some t ->
  (forall i p, (i < k)%nat -> nth_error ports i = Some p -> fst p <> snd p) -> In (n1, n2, t) es.
Proof.
  intros ports l k n1 n2 t es H L Hp N Ht Hb. pose proof (C107_actual ports [] l L) as CA; cbn [app List.length] in CA; rewrite CA in H; clear CA. inversion H; subst. clear H.
  revert l k L Hp Ht Hb. induction ports as [|[a b] ps IH]; intros l k L Hp Ht Hb; [destruct k; discriminate|].
  unfold live_ports in *. cbn [filter fst snd] in *. destruct k as [|k].
  - inversion Hp; subst. rewrite (proj2 (Nat.eqb_neq n1 n2) N) in *. destruct l as [|u l]; [discriminate|]. inversion Ht; subst.
    left. reflexivity.
  - assert (AB := Hb O (a, b) ltac:(lia) eq_refl). cbn [fst snd] in AB. rewrite (proj2 (Nat.eqb_neq a b) AB) in *. cbn [negb] in *.
    destruct l as [|u l]; [destruct k; discriminate|]. cbn [zip_eqns List.length] in *. right. apply (IH l k); auto; [lia|].
    intros i p Hi Hip. apply (Hb (S i) p); [lia|exact Hip].
Qed.
Print Assumptions C107_own_guess.
Example C107_example : port_eqns (GList [1; 2; 3]) 0 [(4, 5); (6, 5); (5, 5)]%nat = Ok [(4%nat, 5%nat, 1); (6%nat, 5%nat, 2)].
Proof. reflexivity. Qed.

(** * C108: diodes with an initial condition *)

Lemma equations_err : forall e es, In e es -> (exists r n1 n2 ps, g_guess e = Some (GNum r) /\ g_ports e = (n1, n2) :: ps /\ n1 <> n2) ->
  (forall e', In e' es -> match g_guess e' with Some (GList l) => (List.length (live_ports (g_ports e')) <= List.length l)%nat | _ => True end) ->
  equations es = Err TypeError.
Proof.
  intros e es Hin (r & n1 & n2 & ps & G & P & N) Wl. induction es as [|a es IH]; [contradiction|].
  cbn [equations]. assert (Wl' : forall e', In e' es -> match g_guess e' with Some (GList l) => (List.length (live_ports (g_ports e')) <= List.length l)%nat | _ => True end) by (intros; apply Wl; right; assumption).
  assert (NE : forall g ports, port_eqns (GNum g) 0 ports = Ok [] \/ port_eqns (GNum g) 0 ports = Err TypeError).
  { intros g ports. induction ports as [|[a1 a2] ps' IHp]; [left; reflexivity|]. cbn [port_eqns]. destruct (a1 =? a2)%nat; [exact IHp|right; reflexivity]. }
  destruct Hin as [E|Hin].
  - subst a. rewrite G, P. cbn [port_eqns]. rewrite (proj2 (Nat.eqb_neq n1 n2) N). reflexivity.
  - specialize (IH Hin Wl'). assert (Wa := Wl a (or_introl eq_refl)). destruct (g_guess a) as [[l|q]|] eqn:Ga; [| |exact IH].
    + pose proof (C107_actual (g_ports a) [] l Wa) as CA; cbn [app List.length] in CA; rewrite CA; clear CA. cbn [bindr]. rewrite IH. reflexivity.
    + destruct (NE q (g_ports a)) as [X|X]; rewrite X; cbn [bindr]; [rewrite IH|]; reflexivity.
Qed.

(** A circuit with a diode or a tunnel junction for which an initial condition was
    given has no operating point: building the guess fails. *)
Theorem C108_refuted : forall solve nv es e r n1 n2, In e es -> e = mkG false true [(n1, n2)] (Some (GNum r)) -> n1 <> n2 ->
  (forall e', In e' es -> match g_guess e' with Some (GList l) => (List.length (live_ports (g_ports e')) <= List.length l)%nat | _ => True end) ->
  get_dc_guess solve nv es = Err TypeError.
Proof.
  intros solve nv es e r n1 n2 Hin He N Wl. unfold get_dc_guess.
  assert (X : existsb g_nl es = true) by (apply existsb_exists; exists e; subst; auto).
  rewrite X. cbn [negb]. rewrite (equations_err e es Hin); auto. subst e. cbn [g_guess g_ports]. eauto 8.
Qed.
Print Assumptions C108_refuted.
(** Without such elements the guess is computed. *)
Theorem C108_lists : forall solve nv es,
  (forall e, In e es -> match g_guess e with Some (GList l) => (List.length (live_ports (g_ports e)) <= List.length l)%nat | Some (GNum _) => False | None => True end) ->
  exists x, get_dc_guess solve nv es = Ok x.
Proof.
  intros solve nv es H. unfold get_dc_guess. destruct (negb (existsb g_nl es)); [eauto|].
  assert (E : exists eqs, equations es = Ok eqs).
  { clear -H. induction es as [|a es IH]; [simpl; eauto|]. cbn [equations].
    destruct IH as [eqs IH]; [intros; apply H; right; assumption|].
    specialize (H a (or_introl eq_refl)). destruct (g_guess a) as [[l|q]|]; [|contradiction|eauto].
    pose proof (C107_actual (g_ports a) [] l H) as CA; cbn [app List.length] in CA; rewrite CA; clear CA. cbn [bindr]. rewrite IH. cbn [bindr]. eauto. }
  destruct E as [eqs E]. rewrite E. cbn [bindr]. destruct (negb (has_guess es)); [eauto|].
  destruct (drop_columns _ _) as [rows2 rem]. destruct (solve _ _); eauto.
Qed.
Print Assumptions C108_lists.
Example C108_example : forall solve, get_dc_guess solve 3
  [mkG true false [(1, 0)]%nat (Some (GList [5])); mkG false true [(1, 2)]%nat (Some (GNum (7/10)))] = Err TypeError.
Proof. reflexivity. Qed.
