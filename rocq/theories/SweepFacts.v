(** Facts about iterators, step adjustment and the DC sweep. *)
From Coq Require Import Reals String Ascii List Bool Arith ZArith Lia Lra Psatz.
From Verif Require Import Base Mna Newton NewtonFacts Sweep.
Import ListNotations.
Open Scope R_scope.

(** ** Iterators *)

(** The state after [i] calls of [next], for [i >= 1]. *)
Definition lin_at (a : axis) (i : nat) : axis :=
  mkAxis (ax_min a) (ax_inc a) (S i) (ax_min a + ax_inc a * INR i) (ax_points a).
Definition log_at (a : axis) (i : nat) : axis :=
  mkAxis (ax_min a) (ax_inc a) (S i) (ax_min a * ax_inc a ^ i) (ax_points a).

Lemma lin_next_at : forall a i, lin_next (lin_at a i) =
  if Rlt_b (INR (S i)) (ax_points a)
  then Some (ax_min a + ax_inc a * INR (S i), lin_at a (S i)) else None.
Proof.
  intros a i. unfold lin_next, axis_next, lin_at. cbn [ax_index ax_cur ax_inc ax_points ax_min].
  rewrite S_INR. cbn [Nat.eqb].
  replace (ax_min a + ax_inc a * INR i + ax_inc a) with (ax_min a + ax_inc a * (INR i + 1)) by lra.
  reflexivity.
Qed.

Lemma log_next_at : forall a i, log_next (log_at a i) =
  if Rlt_b (INR (S i)) (ax_points a)
  then Some (ax_min a * ax_inc a ^ S i, log_at a (S i)) else None.
Proof.
  intros a i. unfold log_next, axis_next, log_at. cbn [ax_index ax_cur ax_inc ax_points ax_min].
  cbn [Nat.eqb].
  replace (ax_min a * ax_inc a ^ i * ax_inc a) with (ax_min a * ax_inc a ^ S i) by (simpl; ring).
  reflexivity.
Qed.

(** [cnt p n]: the indices [0 .. n-1] are those below [p]. *)
Definition cnt (p : R) (n : nat) : Prop := INR n < p + 1 /\ p <= INR n.

Section Collect.
  Variable next : axis -> option (R * axis).
  Variable st : nat -> axis.
  Variable val : nat -> R.
  Variable p : R.
  Hypothesis next_at : forall i, next (st i) =
    if Rlt_b (INR (S i)) p then Some (val (S i), st (S i)) else None.

  Lemma collect_at : forall d fuel i n, cnt p n -> (S i + d = n)%nat -> (d < fuel)%nat ->
    collect next fuel (st i) = Some (map val (seq (S i) d)).
  Proof.
    induction d as [|d IH]; intros fuel i n C E F; destruct fuel as [|fuel]; try lia;
      cbn [collect]; rewrite next_at.
    - replace n with (S i) in C by lia. destruct C as [_ C].
      replace (Rlt_b (INR (S i)) p) with false; [reflexivity|]. symmetry. apply Rlt_b_false. exact C.
    - assert (L : INR (S i) < p).
      { destruct C as [C _]. assert (INR (S (S i)) <= INR n) by (apply le_INR; lia).
        rewrite S_INR in H. lra. }
      apply Rlt_b_true in L. rewrite L. rewrite (IH fuel (S i) n C) by lia. reflexivity.
  Qed.
End Collect.

Lemma cnt_exists : forall p, 0 < p -> exists n, cnt p n /\ (n <= S (Z.to_nat (up p)))%nat /\ (0 < n)%nat.
Proof.
  intros p P. destruct (archimed p) as [U1 U2].
  assert (UP : (0 < up p)%Z) by (apply lt_IZR; lra).
  assert (I : INR (Z.to_nat (up p)) = IZR (up p)) by (rewrite INR_IZR_INZ, Z2Nat.id; auto; lia).
  destruct (Rle_dec p (IZR (up p) - 1)) as [L|L].
  - exists (Z.to_nat (up p) - 1)%nat. unfold cnt. rewrite minus_INR by lia. rewrite I. simpl.
    repeat split; try lra; try lia.
    assert (1 < up p)%Z by (apply lt_IZR; lra). lia.
  - exists (Z.to_nat (up p)). unfold cnt. rewrite I. repeat split; try lra; lia.
Qed.

Lemma cnt_INR : forall n, cnt (INR n) n.
Proof. intros. unfold cnt. lra. Qed.

Lemma lin_collect : forall a n fuel, ax_index a = 0%nat -> ax_cur a = ax_min a ->
  cnt (ax_points a) n -> (0 < n)%nat -> (n < fuel)%nat ->
  collect lin_next fuel a = Some (map (fun i => ax_min a + ax_inc a * INR i) (seq 0 n)).
Proof.
  intros a n fuel I0 C0 C N F. destruct n as [|n]; [lia|]. destruct fuel as [|fuel]; [lia|].
  cbn [collect]. unfold lin_next at 1, axis_next. rewrite I0, C0. cbn [Nat.eqb].
  replace (mkAxis (ax_min a) (ax_inc a) 1 (ax_min a) (ax_points a)) with (lin_at a 0).
  2:{ unfold lin_at. simpl. f_equal. lra. }
  rewrite (collect_at lin_next (lin_at a) (fun i => ax_min a + ax_inc a * INR i) (ax_points a)
            (lin_next_at a) n fuel 0 (S n) C) by lia.
  cbn [seq map]. f_equal. f_equal. simpl. lra.
Qed.

Lemma log_collect : forall a n fuel, ax_index a = 0%nat -> ax_cur a = ax_min a ->
  cnt (ax_points a) n -> (0 < n)%nat -> (n < fuel)%nat ->
  collect log_next fuel a = Some (map (fun i => ax_min a * ax_inc a ^ i) (seq 0 n)).
Proof.
  intros a n fuel I0 C0 C N F. destruct n as [|n]; [lia|]. destruct fuel as [|fuel]; [lia|].
  cbn [collect]. unfold log_next at 1, axis_next. rewrite I0, C0. cbn [Nat.eqb].
  replace (mkAxis (ax_min a) (ax_inc a) 1 (ax_min a) (ax_points a)) with (log_at a 0).
  2:{ unfold log_at. simpl. f_equal. lra. }
  rewrite (collect_at log_next (log_at a) (fun i => ax_min a * ax_inc a ^ i) (ax_points a)
            (log_next_at a) n fuel 0 (S n) C) by lia.
  cbn [seq map]. f_equal. f_equal. simpl. lra.
Qed.

Lemma log_inc_pow : forall mn mx n, 0 < mn -> 0 < mx -> (1 <= n)%nat ->
  mn * Rpower 10 ((log10 mx - log10 mn) / (INR (S n) - 1)) ^ n = mx.
Proof.
  intros mn mx n A B N. rewrite S_INR. replace (INR n + 1 - 1) with (INR n) by lra.
  assert (P : 0 < Rpower 10 ((log10 mx - log10 mn) / INR n)) by apply exp_pos.
  rewrite <- Rpower_pow by exact P. rewrite Rpower_mult.
  assert (NI : 0 < INR n) by (apply lt_0_INR; lia).
  replace ((log10 mx - log10 mn) / INR n * INR n) with (log10 mx - log10 mn) by (field; lra).
  unfold Rpower, log10.
  assert (L : 0 < ln 10) by (rewrite <- ln_1; apply ln_increasing; lra).
  replace ((ln mx / ln 10 - ln mn / ln 10) * ln 10) with (ln mx + - ln mn) by (field; lra).
  rewrite exp_plus, exp_Ropp, !exp_ln by assumption. field. lra.
Qed.

(** ** Step and points *)
Lemma int_frac : forall p, p = IZR (Int_part p) + frac_part p /\ 0 <= frac_part p < 1.
Proof.
  intros p. destruct (base_fp p). unfold frac_part in *. lra.
Qed.

Lemma Int_part_IZR : forall z, Int_part (IZR z) = z.
Proof.
  intros z. destruct (int_frac (IZR z)) as [A [B C]].
  assert (H : IZR (Int_part (IZR z)) <= IZR z < IZR (Int_part (IZR z)) + 1) by lra.
  destruct H as [H1 H2]. apply le_IZR in H1. rewrite <- plus_IZR in H2. apply lt_IZR in H2. lia.
Qed.

(** ** Sweep *)
Lemma set_dc_twice : forall es k v w, set_dc (set_dc es k v) k w = set_dc es k w.
Proof.
  induction es as [|e es IH]; intros k v w; destruct k as [|k]; try reflexivity.
  - destruct e; reflexivity.
  - specialize (IH k v w). unfold set_dc in *. simpl in *. rewrite IH. reflexivity.
Qed.

Lemma set_dc_id : forall es k e v, nth_error es k = Some e -> dc_of e = Some v -> set_dc es k v = es.
Proof.
  induction es as [|e0 es IH]; intros k e v N D; destruct k as [|k]; simpl in N; try discriminate.
  - injection N as ->. destruct e; simpl in D; try discriminate; injection D as ->; reflexivity.
  - unfold set_dc in *. simpl. f_equal. apply (IH k e v N D).
Qed.

Lemma find_source_spec : forall es isv name k r, find_source es isv name k = Some r ->
  exists e v, nth_error es (r - k) = Some e /\ dc_of e = Some v /\ (k <= r)%nat /\
    lower (lid e) = lower name.
Proof.
  induction es as [|e es IH]; intros isv name k r H; simpl in H; [discriminate|].
  destruct (String.eqb_spec (lower (lid e)) (lower name)) as [E|E]; simpl in H.
  - destruct (match e with EV _ _ _ _ _ => isv | EI _ _ _ _ _ => negb isv | _ => false end) eqn:Hit.
    + injection H as <-. rewrite Nat.sub_diag. exists e. simpl.
      destruct e; simpl in *; try discriminate; eauto 10.
    + destruct (IH _ _ _ _ H) as (e' & v & A & B & C & D). exists e', v.
      replace (r - k)%nat with (S (r - S k)) by lia. simpl. repeat split; auto; lia.
  - destruct (IH _ _ _ _ H) as (e' & v & A & B & C & D). exists e', v.
    replace (r - k)%nat with (S (r - S k)) by lia. simpl. repeat split; auto; lia.
Qed.

(** [sub l l']: [l] is [l'] with some items left out. *)
Inductive sub {A : Type} : list A -> list A -> Prop :=
| sub_nil : sub [] []
| sub_keep : forall a l l', sub l l' -> sub (a :: l) (a :: l')
| sub_skip : forall a l l', sub l l' -> sub l (a :: l').

Section SweepLoop.
  Context {X : Type}.
  Variable op : list lelem -> option X -> res (option X).
  Variable skip : bool.

  (** A row is right if its solution is the operating point of the circuit with
      the source set to the value of the row. *)
  Definition row_ok (es : list lelem) (k : nat) (rv : R * X) : Prop :=
    exists start, op (set_dc es k (fst rv)) start = Ok (Some (snd rv)).

  Lemma sweep_loop_spec : forall vals k es0 es x solved rows r es',
    (forall v, set_dc es k v = set_dc es0 k v) ->
    Forall (row_ok es0 k) rows ->
    (solved = Some true \/ (solved = None /\ rows = [])) ->
    sweep_loop op skip vals k es x solved rows = (r, es') ->
    (forall v, set_dc es' k v = set_dc es0 k v) /\
    match r with
    | Ok (s, rows') => exists new, rows' = rows ++ new /\ Forall (row_ok es0 k) rows' /\
        (exists done_, sub (map fst new) done_ /\ (s <> Some false -> done_ = vals) /\
                      exists rest, vals = done_ ++ rest) /\
        (s = Some true -> rows' <> [] \/ solved = Some true) /\
        (s = None -> rows' = [] /\ solved = None) /\
        (s = Some false -> skip = false)
    | Err _ => True
    end.
  Proof.
    induction vals as [|v vals IH]; intros k es0 es x solved rows r es' SE RO SO H; simpl in H.
    - injection H as <- <-. split; auto. exists []. rewrite app_nil_r. split; auto. split; auto.
      split; [exists []; repeat split; auto; [constructor|exists []; auto]|].
      destruct SO as [->|[-> ->]]; repeat split; auto; discriminate.
    - assert (SE' : forall w, set_dc (set_dc es k v) k w = set_dc es0 k w).
      { intros w. rewrite set_dc_twice. apply SE. }
      destruct (op (set_dc es k v) x) as [[y|]|e] eqn:O.
      + destruct (IH k es0 (set_dc es k v) (Some y) (Some true) (rows ++ [(v, y)]) r es' SE') as [A B].
        * apply Forall_app. split; auto. constructor; auto. exists x. cbn [fst snd]. rewrite <- SE. exact O.
        * auto.
        * exact H.
        * split; auto. destruct r as [[s rows']|]; auto.
          destruct B as (new & -> & F & (dn & S1 & S2 & rest & ->) & C1 & C2 & C3).
          exists ((v, y) :: new). rewrite <- app_assoc. split; auto. split.
          { rewrite <- app_assoc in F. exact F. }
          split.
          { exists (v :: dn). simpl. split; [constructor; auto|]. split; [intros Z; rewrite <- S2; auto|].
            exists rest. reflexivity. }
          repeat split; auto.
          -- intros _. left. destruct rows; discriminate.
          -- destruct (C2 H0). discriminate.
          -- destruct (C2 H0). discriminate.
      + destruct skip eqn:SK.
        * destruct (IH k es0 (set_dc es k v) None solved rows r es' SE' RO SO H) as [A B].
          split; auto. destruct r as [[s rows']|]; auto.
          destruct B as (new & -> & F & (dn & S1 & S2 & rest & ->) & C1 & C2 & C3).
          exists new. split; auto. split; auto. split; [|auto].
          exists (v :: dn). split; [apply sub_skip; auto|]. split; [intros Z; rewrite <- S2; auto|].
          exists rest. reflexivity.
        * injection H as <- <-. split; auto. exists []. rewrite app_nil_r. split; auto. split; auto.
          split; [exists []; split; [constructor|split; [congruence|exists (v :: vals); auto]]|].
          repeat split; auto; discriminate.
      + injection H as <- <-. auto.
  Qed.
End SweepLoop.
