(** Property theorems about ahkab/utilities.py: combinations (C23), memoize
    (C24, C79). *)
From Coq Require Import List Bool Arith Lia Sorting.
From Verif Require Import Base BaseFacts Combos Memo.
Import ListNotations.

(** * C23 *)

(** Specification: order-preserving sublists. *)
Inductive sublist {A} : list A -> list A -> Prop :=
| sub_nil : forall l, sublist [] l
| sub_take : forall x s l, sublist s l -> sublist (x :: s) (x :: l)
| sub_skip : forall x s l, sublist s l -> sublist s (x :: l).

(** Pascal's triangle. *)
Fixpoint choose (n k : nat) : nat :=
  match n, k with
  | _, O => 1
  | O, S _ => 0
  | S n', S k' => choose n' k' + choose n' k
  end.

(** Lexicographic order on lists of positions. *)
Inductive lex : list nat -> list nat -> Prop :=
| lex_lt : forall x y s t, x < y -> lex (x :: s) (y :: t)
| lex_eq : forall x s t, lex s t -> lex (x :: s) (x :: t).

(** The enumeration, as a list. *)
Fixpoint combs {A} (k : nat) (l : list A) {struct l} : list (list A) :=
  match k, l with
  | O, _ => [[]]
  | S _, [] => []
  | S k', x :: t => map (cons x) (combs k' t) ++ combs k t
  end.

Lemma combs_0 : forall A (l : list A), combs 0 l = [[]].
Proof. destruct l; reflexivity. Qed.

Lemma combs_short : forall A (l : list A) k, length l < k -> combs k l = [].
Proof.
  induction l as [|x l IH]; intros [|k] H; simpl in *; try lia; auto.
  rewrite !IH by lia. reflexivity.
Qed.

Lemma combs_in : forall A (l : list A) k s, In s (combs k l) <-> sublist s l /\ length s = k.
Proof.
  induction l as [|x l IH]; intros k s.
  - destruct k as [|k]; simpl; split.
    + intros [<-|[]]. split; [constructor|reflexivity].
    + intros [H L]. destruct s; [auto|discriminate].
    + tauto.
    + intros [H L]. inversion H; subst. discriminate.
  - destruct k as [|k].
    + simpl. split.
      * intros [<-|[]]. split; [constructor|reflexivity].
      * intros [H L]. destruct s; [auto|discriminate].
    + simpl combs. rewrite in_app_iff, in_map_iff. split.
      * intros [(s' & <- & H)|H]; apply IH in H; destruct H as [H1 H2].
        -- split; [constructor; auto|simpl; congruence].
        -- split; [apply sub_skip; auto|auto].
      * intros [H L]. inversion H; subst.
        -- discriminate.
        -- left. exists s0. split; [reflexivity|]. apply IH. simpl in L. auto.
        -- right. apply IH. auto.
Qed.

Lemma combs_length : forall A (l : list A) k, length (combs k l) = choose (length l) k.
Proof.
  induction l as [|x l IH]; intros [|k]; simpl; auto.
  rewrite app_length, map_length, !IH. reflexivity.
Qed.

Lemma combs_map : forall A B (f : A -> B) l k, combs k (map f l) = map (map f) (combs k l).
Proof.
  induction l as [|x l IH]; intros [|k]; simpl; auto.
  rewrite map_app, !map_map, !IH, map_map. reflexivity.
Qed.

Lemma combs_head : forall n a k s, In s (combs k (seq a n)) -> Forall (fun p => a <= p) s.
Proof.
  intros n a k s H. apply combs_in in H. destruct H as [H _]. revert H.
  assert (G : forall (s l : list nat), sublist s l -> Forall (fun p => a <= p) l -> Forall (fun p => a <= p) s).
  { clear. induction 1; intros F; auto; inversion F; subst; auto. }
  intros H. apply (G _ _ H). apply Forall_forall. intros x Hx. apply in_seq in Hx. lia.
Qed.

Lemma combs_sorted : forall n a k, StronglySorted lex (combs k (seq a n)).
Proof.
  induction n as [|n IH]; intros a [|k]; simpl; try (repeat constructor).
  assert (APP : forall l1 l2 : list (list nat), StronglySorted lex l1 -> StronglySorted lex l2 ->
    (forall x y, In x l1 -> In y l2 -> lex x y) -> StronglySorted lex (l1 ++ l2)).
  { induction l1 as [|x l1 IH1]; intros l2 S1 S2 H; simpl; auto. inversion S1; subst.
    constructor.
    - apply IH1; auto. intros; apply H; auto. right; auto.
    - apply Forall_app. split; auto. apply Forall_forall. intros y Hy. apply H; [left|]; auto. }
  apply APP.
  - assert (M : forall l, StronglySorted lex l -> StronglySorted lex (map (cons a) l)).
    { induction 1 as [|x l S1 IH1 F]; simpl; constructor; auto.
      apply Forall_forall. intros y Hy. apply in_map_iff in Hy. destruct Hy as (z & <- & Hz).
      apply lex_eq. rewrite Forall_forall in F. auto. }
    apply M. apply IH.
  - apply IH.
  - intros x y Hx Hy. apply in_map_iff in Hx. destruct Hx as (x' & <- & _).
    pose proof (combs_head _ _ _ _ Hy) as F. apply combs_in in Hy. destruct Hy as [_ L].
    destruct y as [|b y]; [discriminate|]. inversion F; subst. constructor. lia.
Qed.

(** What an iterator will still yield. *)
Fixpoint rest {A} (c : comb A) : list (list A) :=
  let '(Comb L k i sub) := c in
  if 1 <? k then
    match skipn i L with
    | [] => []
    | x :: t => map (cons x) (match sub with Some s => rest s | None => combs (k - 1) t end) ++ combs k t
    end
  else combs 1 (skipn i L).

Fixpoint wfc {A} (c : comb A) : Prop :=
  let '(Comb L k i sub) := c in
  1 <= k /\
  if 1 <? k then k + i <= length L /\ match sub with Some s => wfc s /\ (let '(Comb _ k' _ _) := s in k' = k - 1) | None => True end
  else True.
Definition size_k {A} (c : comb A) : nat := let '(Comb _ k _ _) := c in k.

Lemma skipn_nth : forall A (L : list A) i, i < length L ->
  exists x, nth_error L i = Some x /\ skipn i L = x :: skipn (i + 1) L.
Proof.
  induction L as [|y L IH]; intros i H; simpl in H; [lia|].
  destruct i as [|i]; simpl.
  - exists y. split; [reflexivity|]. destruct L; reflexivity.
  - apply IH. lia.
Qed.

Lemma init_rest : forall A (L : list A) k, 1 <= k <= length L ->
  exists c, comb_init L k = Ok c /\ wfc c /\ size_k c = k /\ rest c = combs k L.
Proof.
  intros A L k H. unfold comb_init.
  replace (length L <? k) with false by (symmetry; apply Nat.ltb_ge; lia).
  replace (k =? 0) with false by (symmetry; apply Nat.eqb_neq; lia).
  eexists. split; [reflexivity|]. simpl. repeat split; try lia.
  - destruct (1 <? k); [|exact I]. split; [lia|exact I].
  - destruct (1 <? k) eqn:E.
    + apply Nat.ltb_lt in E. destruct L as [|x t]; simpl in H; [lia|].
      destruct k as [|k]; [lia|]. simpl. rewrite Nat.sub_0_r. reflexivity.
    + apply Nat.ltb_ge in E. replace k with 1 by lia. reflexivity.
Qed.

Lemma combs_nonempty : forall A (l : list A) k, k <= length l -> combs k l <> [].
Proof.
  induction l as [|x l IH]; intros [|k] H; simpl in *; try discriminate; try lia.
  intros E. apply app_eq_nil in E. destruct E as [E _]. apply map_eq_nil in E.
  apply (IH k); auto. lia.
Qed.

Definition next_ok {A} (c : comb A) (r : nres A) : Prop :=
  match rest c with
  | [] => exists c', r = Stop c' /\ wfc c' /\ size_k c' = size_k c /\ rest c' = []
  | y :: ys => exists c', r = Yield y c' /\ wfc c' /\ size_k c' = size_k c /\ rest c' = ys
  end.

Lemma next_spec : forall A k (c : comb A) fuel, size_k c = k -> wfc c -> 2 * k <= fuel ->
  next_ok c (comb_next fuel c).
Proof.
  intros A. induction k as [|k IH]; intros [L k0 i sub] fuel SK WF F; simpl in SK; subst k0.
  - simpl in WF. lia.
  - destruct fuel as [|fuel]; [lia|]. cbn [wfc] in WF. destruct WF as [_ WF].
    unfold next_ok. cbn [comb_next rest].
    destruct (1 <? S k) eqn:E.
    2:{ apply Nat.ltb_ge in E. assert (k = 0) by lia. subst k.
        destruct (lt_dec i (length L)) as [LT|GE].
        - destruct (skipn_nth _ L i LT) as (x & NE & SN). rewrite SN, NE. cbn [combs].
          rewrite combs_0. simpl. eexists. split; [reflexivity|]. simpl. auto.
        - rewrite skipn_all2 by lia.
          replace (nth_error L i) with (@None A) by (symmetry; apply nth_error_None; lia). simpl.
          eexists. split; [reflexivity|]. simpl. rewrite skipn_all2 by lia. auto. }
    apply Nat.ltb_lt in E. destruct WF as [KI WS].
    replace (S k - 1) with k in * by lia.
    destruct (skipn_nth _ L i ltac:(lia)) as (x & NE & SN). rewrite SN, NE.
    assert (SUB : exists s, (match sub with Some s => Ok s | None => comb_init (skipn (i + 1) L) k end) = Ok s /\
              wfc s /\ size_k s = k /\
              rest s = match sub with Some s => rest s | None => combs k (skipn (i + 1) L) end).
    { destruct sub as [s|].
      - exists s. destruct WS as [W1 W2]. destruct s. simpl in W2. auto.
      - apply init_rest. rewrite skipn_length. lia. }
    destruct SUB as (s & -> & W1 & W2 & W3). rewrite <- W3.
    pose proof (IH s fuel W2 W1 ltac:(lia)) as NX. unfold next_ok in NX.
    destruct (rest s) as [|y ys] eqn:RS.
    + destruct NX as (s' & -> & V1 & V2 & V3). cbn [map app].
      destruct (i <? length L - S k) eqn:B.
      * apply Nat.ltb_lt in B.
        destruct (init_rest A (skipn (i + 1 + 1) L) k) as (s2 & -> & U1 & U2 & U3).
        { rewrite skipn_length. lia. }
        destruct (skipn_nth _ L (i + 1) ltac:(lia)) as (x2 & NE2 & SN2).
        destruct fuel as [|fuel]; [lia|]. cbn [comb_next].
        replace (1 <? S k) with true by (symmetry; apply Nat.ltb_lt; lia). rewrite NE2.
        pose proof (IH s2 fuel U2 U1 ltac:(lia)) as NX. unfold next_ok in NX.
        rewrite SN2. cbn [combs].
        destruct (rest s2) as [|y ys] eqn:RS2.
        { exfalso. symmetry in U3. revert U3. apply combs_nonempty. rewrite skipn_length. lia. }
        rewrite <- U3. cbn [map app].
        destruct NX as (s3 & -> & T1 & T2 & T3).
        eexists. split; [reflexivity|]. cbn [wfc size_k rest].
        replace (1 <? S k) with true by (symmetry; apply Nat.ltb_lt; lia).
        rewrite SN2, T3. replace (S k - 1) with k by lia.
        repeat split; auto; try lia. destruct s3; simpl in T2; congruence.
      * apply Nat.ltb_ge in B. rewrite combs_short by (rewrite skipn_length; lia).
        eexists. split; [reflexivity|]. cbn [wfc size_k rest].
        replace (1 <? S k) with true by (symmetry; apply Nat.ltb_lt; lia).
        rewrite SN, V3. replace (S k - 1) with k by lia.
        rewrite combs_short by (rewrite skipn_length; lia).
        repeat split; auto; try lia. destruct s'; simpl in V2; congruence.
    + destruct NX as (s' & -> & V1 & V2 & V3). cbn [map app].
      eexists. split; [reflexivity|]. cbn [wfc size_k rest].
      replace (1 <? S k) with true by (symmetry; apply Nat.ltb_lt; lia).
      rewrite SN, V3. replace (S k - 1) with k by lia.
      repeat split; auto; try lia. destruct s'; simpl in V2; congruence.
Qed.

(** [m] more calls of next all stop. *)
Fixpoint stops {A} (m fuel : nat) (c : comb A) : Prop :=
  match m with
  | O => True
  | S m' => match comb_next fuel c with Stop c' => stops m' fuel c' | _ => False end
  end.

Lemma iter_spec : forall A n (c : comb A) fuel, wfc c -> 2 * size_k c <= fuel -> length (rest c) < n ->
  exists c', comb_iter n fuel c = Ok (rest c, true, c') /\ wfc c' /\ size_k c' = size_k c /\ rest c' = [].
Proof.
  induction n as [|n IH]; intros c fuel W F L; [lia|].
  pose proof (next_spec A (size_k c) c fuel eq_refl W F) as NX. unfold next_ok in NX. cbn [comb_iter].
  destruct (rest c) as [|y ys] eqn:R.
  - destruct NX as (c' & -> & W1 & W2 & W3). eauto.
  - destruct NX as (c' & -> & W1 & W2 & W3). simpl in L.
    destruct (IH c' fuel W1 ltac:(lia) ltac:(rewrite W3; lia)) as (c2 & E & V1 & V2 & V3).
    rewrite E, W3. simpl. eexists. split; [reflexivity|]. repeat split; auto. congruence.
Qed.

Theorem C23_constructor : forall A (L : list A) k,
  (exists c, comb_init L k = Ok c) <-> 1 <= k <= length L.
Proof.
  intros A L k. unfold comb_init. split.
  - intros [c H]. destruct (Nat.ltb_spec (length L) k); [discriminate|].
    destruct (Nat.eqb_spec k 0); [discriminate|]. lia.
  - intros H. destruct (init_rest A L k H) as (c & E & _). exists c. exact E.
Qed.
Print Assumptions C23_constructor.

(** The iteration yields [vals] and stops, and goes on stopping.  [ps] are the
    positions of the elements of each value, in lexicographic order; the values
    are all sublists of length k. *)
Theorem C23_combinations : forall A (L : list A) k fuel n d c,
  comb_init L k = Ok c -> 2 * k <= fuel -> choose (length L) k < n ->
  exists vals c', comb_iter n fuel c = Ok (vals, true, c') /\
    (forall s, In s vals <-> sublist s L /\ length s = k) /\
    length vals = choose (length L) k /\
    (exists ps, vals = map (map (fun p => nth p L d)) ps /\ StronglySorted lex ps /\
       Forall (fun s => sublist s (seq 0 (length L))) ps) /\
    forall m, stops m fuel c'.
Proof.
  intros A L k fuel n d c I F N.
  assert (K : 1 <= k <= length L) by (apply C23_constructor; eauto).
  destruct (init_rest A L k K) as (c0 & E & W & SK & RC). rewrite E in I. injection I as ->.
  destruct (iter_spec A n c fuel W ltac:(lia)) as (c' & IT & W' & SK' & RC').
  { rewrite RC, combs_length. exact N. }
  rewrite RC in IT. exists (combs k L), c'.
  assert (LM : L = map (fun p => nth p L d) (seq 0 (length L))).
  { clear. induction L as [|x L IH]; [reflexivity|]. cbn [length seq map nth]. f_equal.
    rewrite <- seq_shift, map_map. exact IH. }
  split; [exact IT|]. split; [intros s; apply combs_in|]. split; [apply combs_length|]. split.
  - exists (combs k (seq 0 (length L))). split; [|split].
    + rewrite <- combs_map, <- LM. reflexivity.
    + apply combs_sorted.
    + apply Forall_forall. intros s H. apply combs_in in H. tauto.
  - intros m. clear IT. rewrite <- SK' in SK. revert c' W' SK' SK RC'.
    induction m as [|m IH]; intros c' W' SK' SK RC'; [exact Logic.I|]. cbn [stops].
    pose proof (next_spec A (size_k c') c' fuel eq_refl W' ltac:(lia)) as NX. unfold next_ok in NX.
    rewrite RC' in NX. destruct NX as (c2 & -> & V1 & V2 & V3). apply IH; auto; congruence.
Qed.
Print Assumptions C23_combinations.

Example C23_example : exists c c', comb_init [7;8;9;10] 2 = Ok c /\
  comb_iter 100 4 c = Ok ([[7;8];[7;9];[7;10];[8;9];[8;10];[9;10]], true, c').
Proof. do 2 eexists. split; reflexivity. Qed.

(** * C24 *)
Section MemoProps.
  Context {K V : Type}.
  Variable eqb : K -> K -> bool.
  Hypothesis eqb_spec : forall a b, reflect (a = b) (eqb a b).

  (** The cache tells the truth about [f]. *)
  Definition truthful (f : K -> res V) (c : list (K * V)) : Prop :=
    NoDup (dkeys c) /\ forall k v, In (k, v) c -> f k = Ok v.

  Lemma dset_fresh_dkeys : forall (c : list (K * V)) k v, dget eqb c k = None ->
    dset eqb c k v = c ++ [(k, v)].
  Proof. intros. apply dset_new; assumption. Qed.

  Lemma call_truthful : forall f limit c k, truthful f c ->
    truthful f (snd (fst (memo_call eqb f limit c k))).
  Proof.
    intros f limit c k [ND T]. unfold memo_call. destruct (dget eqb c k) as [v|] eqn:G; simpl; [split; auto|].
    destruct (f k) as [v|e] eqn:F; simpl; [|split; auto].
    rewrite dset_fresh_dkeys by exact G.
    assert (TT : truthful f (c ++ [(k, v)])).
    { split.
      - unfold dkeys. rewrite map_app. simpl. apply dget_None_notin in G; [|exact eqb_spec].
        unfold dkeys in *. clear T. induction c as [|[k' v'] c IH]; simpl in *.
        + repeat constructor; auto.
        + inversion ND; subst. constructor.
          * rewrite in_app_iff. simpl. intros [H|[H|[]]]; [contradiction|]. subst. apply G; auto.
          * apply IH; auto.
      - intros k' v' H. apply in_app_iff in H. destruct H as [H|[H|[]]]; auto. congruence. }
    destruct limit as [n|]; [|exact TT]. destruct (_ <? _); [|exact TT].
    unfold popitem. rewrite removelast_last. split; auto.
  Qed.

  Definition within (limit : option nat) (c : list (K * V)) : Prop :=
    match limit with Some n => length c <= n | None => True end.

  Lemma call_within : forall f limit c k, within limit c ->
    within limit (snd (fst (memo_call eqb f limit c k))).
  Proof.
    intros f limit c k W. unfold memo_call. destruct (dget eqb c k) as [v|] eqn:G; simpl; auto.
    destruct (f k) as [v|e]; simpl; auto. rewrite dset_fresh_dkeys by exact G.
    destruct limit as [n|]; [|exact I]. unfold within in *.
    destruct (Nat.ltb_spec n (length (c ++ [(k, v)]))) as [H|H]; [|exact H].
    unfold popitem. rewrite removelast_last. exact W.
  Qed.
End MemoProps.

Theorem C24_transparent : forall K V (eqb : K -> K -> bool),
  (forall a b, reflect (a = b) (eqb a b)) ->
  forall (f : K -> res V) limit ks rs c,
  memo_calls eqb f limit [] ks = (rs, c) ->
  rs = map f ks /\ (forall n, limit = Some n -> length c <= n).
Proof.
  intros K V eqb ES f limit ks.
  assert (G : forall ks c0 rs c, truthful f c0 -> within limit c0 ->
    memo_calls eqb f limit c0 ks = (rs, c) -> rs = map f ks /\ within limit c).
  { clear ks. induction ks as [|k ks IH]; intros c0 rs c T W H; simpl in H.
    - injection H as <- <-. auto.
    - pose proof (call_truthful eqb ES f limit c0 k T) as T1.
      pose proof (call_within eqb ES f limit c0 k W) as W1.
      destruct (memo_call eqb f limit c0 k) as [[r c1] b] eqn:M. simpl in T1, W1.
      destruct (memo_calls eqb f limit c1 ks) as [rs2 c2] eqn:M2. injection H as <- <-.
      destruct (IH _ _ _ T1 W1 M2) as [-> W2]. split; [|exact W2]. simpl. f_equal.
      unfold memo_call in M. destruct (dget eqb c0 k) as [v|] eqn:D.
      + injection M as <- <- <-. symmetry. apply T. eapply dget_In; eauto.
      + destruct (f k); injection M as <- <- <-; reflexivity. }
  intros rs c H. destruct (G ks [] rs c) as [A B]; auto.
  - split; [constructor|]. intros k v [].
  - destruct limit; simpl; [lia|exact I].
  - split; [exact A|]. intros n ->. exact B.
Qed.
Print Assumptions C24_transparent.

(** A hit does not evaluate the function; the next call with the same arguments
    is a hit when there is room. *)
Theorem C24_hit : forall K V (eqb : K -> K -> bool), (forall a b, reflect (a = b) (eqb a b)) ->
  forall (f g : K -> res V) limit c k v,
  f k = Ok v -> (forall n, limit = Some n -> length c < n) -> truthful f c ->
  let c1 := snd (fst (memo_call eqb f limit c k)) in
  memo_call eqb g limit c1 k = (Ok v, c1, false).
Proof.
  intros K V eqb ES f g limit c k v F L T. cbv zeta.
  assert (G : dget eqb (snd (fst (memo_call eqb f limit c k))) k = Some v).
  { unfold memo_call. destruct (dget eqb c k) as [v0|] eqn:D; simpl.
    - destruct T as [_ T]. pose proof (T _ _ (dget_In eqb ES _ _ _ D)) as D2. congruence.
    - rewrite F. simpl. rewrite (dset_new eqb ES c k v D).
      assert (GG : dget eqb (c ++ [(k, v)]) k = Some v).
      { rewrite <- (dset_new eqb ES c k v D), (dget_dset eqb ES). destruct (ES k k); congruence. }
      destruct limit as [n|]; [|exact GG]. specialize (L n eq_refl).
      rewrite app_length. simpl length.
      replace (n <? length c + 1) with false by (symmetry; apply Nat.ltb_ge; lia). exact GG. }
  unfold memo_call at 1. rewrite G. reflexivity.
Qed.
Print Assumptions C24_hit.

(** * C79: a full cache makes room for the new result (the comment says FIFO) *)
Theorem C79_full_cache_refuted : forall K V (eqb : K -> K -> bool),
  (forall a b, reflect (a = b) (eqb a b)) ->
  forall (f : K -> res V) n c k,
  length c = n -> dget eqb c k = None ->
  snd (fst (memo_call eqb f (Some n) c k)) = c.
Proof.
  intros K V eqb ES f n c k L D. unfold memo_call. rewrite D. destruct (f k); [|reflexivity]. simpl.
  rewrite (dset_new eqb ES c k a D), app_length. simpl length.
  replace (n <? length c + 1) with true by (symmetry; apply Nat.ltb_lt; lia).
  unfold popitem. rewrite removelast_last. reflexivity.
Qed.
Print Assumptions C79_full_cache_refuted.

Example C24_example :
  memo_calls Nat.eqb (fun k => if k =? 9 then Err ValueError else Ok (k * k)) (Some 2) [] [3;4;3;9;5;5] =
  ([Ok 9; Ok 16; Ok 9; Err ValueError; Ok 25; Ok 25], [(3,9);(4,16)]).
Proof. reflexivity. Qed.
