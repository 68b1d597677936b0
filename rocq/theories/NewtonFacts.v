(** Facts about damping, convergence checks, the Newton loop and the assembly
    of the nonlinear terms. *)
From Coq Require Import Reals String Ascii List Bool Arith Lia Lra Permutation.
From Verif Require Import Base BaseFacts Nodes Circuit Rsum Mna MnaSpec MnaFacts DcSolve DcSolveFacts Newton.
Import ListNotations.
Open Scope R_scope.

Lemma Rlt_b_true : forall a b, Rlt_b a b = true <-> a < b.
Proof. intros. unfold Rlt_b. destruct (Rlt_dec a b); split; intros; auto; try discriminate; lra. Qed.
Lemma Rlt_b_false : forall a b, Rlt_b a b = false <-> b <= a.
Proof. intros. unfold Rlt_b. destruct (Rlt_dec a b); split; intros; auto; try discriminate; lra. Qed.
Lemma Rle_b_true : forall a b, Rle_b a b = true <-> a <= b.
Proof. intros. unfold Rle_b. destruct (Rle_dec a b); split; intros; auto; try discriminate; lra. Qed.

(** ** Damping *)
Definition exceeding (o : tdopts) (size : nat) (dx : vec) (ports : list (nat * nat)) : list R :=
  map (fun p => d_max o / port_move size dx p)
      (filter (fun p => Rlt_b (d_max o) (port_move size dx p)) ports).

Definition lmin (a : R) (l : list R) : R := fold_right Rmin a l.

Lemma Rmin_if : forall a b, (if Rlt_b a b then a else b) = Rmin b a.
Proof.
  intros. unfold Rlt_b, Rmin. destruct (Rlt_dec a b), (Rle_dec b a); auto; lra.
Qed.

Lemma lmin_step : forall l a b, lmin (Rmin a b) l = Rmin b (lmin a l).
Proof.
  induction l as [|c l IH]; intros a b; simpl; [apply Rmin_comm|].
  rewrite IH. rewrite !Rmin_assoc, (Rmin_comm c b). reflexivity.
Qed.

(** The loop computes the minimum of its starting value and of the limits of
    the ports that move too much. *)
Lemma td_loop_min : forall o size dx ports td td_new, td <= td_new ->
  td_loop o size dx ports td td_new = lmin td (exceeding o size dx ports).
Proof.
  intros o size dx. induction ports as [|p ports IH]; intros td tn H; [reflexivity|].
  cbn [td_loop]. unfold exceeding. simpl. rewrite Rmin_if.
  destruct (Rlt_b (d_max o) (port_move size dx p)).
  - rewrite IH by apply Rmin_r. simpl. rewrite lmin_step. reflexivity.
  - rewrite IH by apply Rmin_r. rewrite Rmin_left by assumption. reflexivity.
Qed.

Lemma td_first_range : forall o n, 0 < td_first o n <= 1.
Proof.
  intros o [k|]; unfold td_first; [|lra].
  destruct (negb (d_first o)); [lra|]. destruct (k <? 10)%nat; [lra|]. destruct (k <? 20)%nat; lra.
Qed.

Lemma lmin_spec : forall l a, lmin a l <= a /\ (forall b, In b l -> lmin a l <= b) /\
  (lmin a l = a \/ In (lmin a l) l).
Proof.
  induction l as [|c l IH]; intros a; simpl.
  - repeat split; auto; try lra; intros b [].
  - destruct (IH a) as (A & B & C). fold (lmin a l) in *. repeat split.
    + eapply Rle_trans; [apply Rmin_r|auto].
    + intros b [<-|Hb]; [apply Rmin_l|]. eapply Rle_trans; [apply Rmin_r|auto].
    + unfold Rmin. destruct (Rle_dec c (lmin a l)); auto. destruct C as [->|]; auto.
Qed.

Lemma lmin_pos : forall l a, 0 < a -> (forall b, In b l -> 0 < b) -> 0 < lmin a l.
Proof.
  intros l a H K. destruct (lmin_spec l a) as (_ & _ & [->|I]); auto.
Qed.

Lemma lmin_perm : forall l l' a, Permutation l l' -> lmin a l = lmin a l'.
Proof.
  intros l l' a P. induction P; simpl; auto; [congruence| |congruence].
  rewrite !Rmin_assoc, (Rmin_comm y x). reflexivity.
Qed.

Lemma get_td_lmin : forall o size dx ports n,
  get_td o size dx ports n =
    lmin (td_first o n) (if d_lock o then exceeding o size dx ports else []).
Proof.
  intros. unfold get_td. destruct (d_lock o); [|reflexivity].
  apply td_loop_min. apply td_first_range.
Qed.

Lemma port_move_pos : forall size dx p, 0 <= port_move size dx p.
Proof.
  intros size dx [a b]. unfold port_move. destruct (a =? 0)%nat; [apply Rabs_pos|].
  destruct (b =? 0)%nat; apply Rabs_pos.
Qed.

Lemma get_td_range : forall o size dx ports n, 0 < d_max o ->
  0 < get_td o size dx ports n <= 1.
Proof.
  intros o size dx ports n H. rewrite get_td_lmin. pose proof (td_first_range o n) as [A B].
  split.
  - apply lmin_pos; auto. intros b I. destruct (d_lock o); [|destruct I].
    unfold exceeding in I. apply in_map_iff in I. destruct I as (p & <- & I).
    apply filter_In in I. destruct I as [_ I]. apply Rlt_b_true in I.
    apply Rdiv_lt_0_compat; lra.
  - apply Rle_trans with (td_first o n); [apply (proj1 (lmin_spec _ _))|auto].
Qed.

Lemma get_td_limits : forall o size dx ports n p, 0 < d_max o -> d_lock o = true -> In p ports ->
  get_td o size dx ports n * port_move size dx p <= d_max o.
Proof.
  intros o size dx ports n p H L I. pose proof (get_td_range o size dx ports n H) as [A B].
  pose proof (port_move_pos size dx p) as P.
  destruct (Rlt_b (d_max o) (port_move size dx p)) eqn:E.
  - pose proof E as E'. apply Rlt_b_true in E'.
    assert (G : get_td o size dx ports n <= d_max o / port_move size dx p).
    { rewrite get_td_lmin, L. apply (proj1 (proj2 (lmin_spec _ _))). unfold exceeding.
      apply (in_map (fun q => d_max o / port_move size dx q)). apply filter_In; auto. }
    apply Rle_trans with (d_max o / port_move size dx p * port_move size dx p).
    + apply Rmult_le_compat_r; lra.
    + right. field. lra.
  - apply Rlt_b_false in E. nra.
Qed.

(** ** Convergence *)
Lemma allclose_spec : forall n a b rt at_, allclose n a b rt at_ = true <->
  (forall i, (i < n)%nat -> Rabs (a i - b i) <= at_ + rt * Rabs (b i)).
Proof.
  induction n as [|n IH]; intros; simpl; [split; auto; intros; lia|].
  rewrite andb_true_iff, IH, Rle_b_true. split.
  - intros [A B] i Hi. destruct (Nat.eq_dec i n) as [->|]; auto. apply A. lia.
  - intros A. split; auto.
Qed.

Lemma custom_check_spec : forall n x dx r er ea eres,
  custom_check n x dx r er ea eres = true <->
  (forall i, (i < n)%nat ->
     Rabs (dx i) <= ea + er * Rabs (x i + dx i) /\ Rabs (r i) <= eres).
Proof.
  intros. unfold custom_check. destruct (Nat.eqb_spec n 0) as [->|N].
  - split; auto. intros _ i Hi. lia.
  - rewrite andb_true_iff, !allclose_spec. split.
    + intros [A B] i Hi. specialize (A i Hi). specialize (B i Hi). unfold vzero in B.
      rewrite Rmult_0_l, Rplus_0_r, Rminus_0_r in B.
      replace (x i - (x i + dx i)) with (- dx i) in A by lra. rewrite Rabs_Ropp in A. auto.
    + intros H. split; intros i Hi; destruct (H i Hi) as [A B].
      * replace (x i - (x i + dx i)) with (- dx i) by lra. rewrite Rabs_Ropp. auto.
      * unfold vzero. rewrite Rmult_0_l, Rplus_0_r, Rminus_0_r. auto.
Qed.

(** ** The Newton loop *)
Section NewtonFacts.
  Variable size : nat.
  Variable solve : mat -> vec -> option vec.
  Variable nonlinear : bool.
  Variable JT : vec -> mat * vec.
  Variable td : vec -> nat -> R.
  Variable check : vec -> vec -> vec -> bool.

  Notation loop := (newton_loop size solve nonlinear JT td check).

  Lemma newton_loop_bound : forall left it mna T x last y r c n,
    loop left it mna T x last = NRet y r c n ->
    (it <= n <= it + left)%nat /\ (c = false -> n = (it + left)%nat) /\
    (last = None -> it < n)%nat.
  Proof.
    induction left as [|left IH]; intros it mna T x last y r c n H; simpl in H.
    - destruct last; [|discriminate]. injection H as <- <- <- <-.
      split; [lia|]. split; [lia|discriminate].
    - destruct (solve _ _) as [dx|]; [|discriminate].
      destruct (negb nonlinear); [injection H as <- <- <- <-; repeat split; try lia; discriminate|].
      destruct (check _ dx _); [injection H as <- <- <- <-; repeat split; try lia; discriminate|].
      apply IH in H. destruct H as (A & B & C). repeat split; try lia.
      intros Z. specialize (B Z). lia.
  Qed.

  (** A converged run: the last round, from [x] to [y]. *)
  Lemma newton_loop_conv : forall left it mna T x last y r n,
    loop left it mna T x last = NRet y r true n ->
    exists x1 dx, r = residual size nonlinear JT mna T x1 /\
      solve (jac nonlinear JT mna x1) (fun i => - r i) = Some dx /\
      y = (fun i => x1 i + td dx n * dx i) /\
      (nonlinear = true -> check y dx r = true).
  Proof.
    induction left as [|left IH]; intros it mna T x last y r n H; simpl in H;
      [destruct last; discriminate|].
    destruct (solve _ _) as [dx|] eqn:S1; [|discriminate].
    destruct nonlinear eqn:NL; simpl in H.
    - destruct (check _ dx _) eqn:C.
      + injection H as <- <- <-. exists x, dx. auto.
      + apply IH in H. exact H.
    - injection H as <- <- <-. exists x, dx. repeat split; auto. discriminate.
  Qed.
End NewtonFacts.

(** The linear case: one round, and it solves the system. *)
Lemma newton_linear : forall size solve JT td check maxit mna T x,
  (forall dx n, td dx n = 1) ->
  (forall A b y, solve A b = Some y -> forall i, (i < size)%nat -> row size A i y = b i) ->
  (0 < maxit)%nat ->
  match mdn_solver size solve false JT td check maxit mna T (Some (size, x)) with
  | NRet y r c n => c = true /\ n = 1%nat /\
      (forall i, (i < size)%nat -> row size mna i y + T i = 0) /\
      (forall i, r i = row size mna i x + T i)
  | NCaught => exists b, solve (fun i j => mna i j + 0) b = None
  | NOther _ => False
  end.
Proof.
  intros size solve JT td check maxit mna T x TD SS MX. unfold mdn_solver. rewrite Nat.eqb_refl.
  destruct maxit as [|k]; [lia|]. simpl.
  destruct (solve _ _) as [dx|] eqn:E.
  - repeat split; auto.
    + intros i Hi. specialize (SS _ _ _ E i Hi). unfold residual, jac in SS.
      assert (Q : row size (fun i j => mna i j + 0) i dx = row size mna i dx).
      { unfold row. apply rsum_ext. intros; lra. }
      rewrite Q in SS.
      assert (L : row size mna i (fun j => x j + td dx 1%nat * dx j) = row size mna i x + row size mna i dx).
      { unfold row. rewrite <- rsum_plus. apply rsum_ext. intros. rewrite TD. lra. }
      rewrite L, SS. lra.
    + intros i. unfold residual. lra.
  - eauto.
Qed.

(** ** Assembly of the nonlinear terms *)
Definition gdlt (r n : nat) : R := if (n =? 0)%nat then 0 else dlt r (n - 1).

Lemma upd_T_val : forall p x t r,
  upd_T p x t r = t r + (gdlt r (fst (np_out p)) - gdlt r (snd (np_out p)))
                        * np_i p (map (drive_v x) (np_drive p)).
Proof.
  intros p x t r. unfold upd_T, gdlt. destruct (np_out p) as [n1 n2]. simpl.
  unfold Rminus at 1. fold (vadd t (n1 - 1) (np_i p (map (drive_v x) (np_drive p)))).
  destruct (n1 =? 0)%nat, (n2 =? 0)%nat; try lra;
  repeat match goal with |- context [vset ?f ?a (?f ?a + ?v)] => fold (vadd f a v) end;
  rewrite ?vadd_val; lra.
Qed.

(** What the derivatives [g] of a port make of a variation [d] of the unknowns. *)
Fixpoint gsum (g : nat -> R) (dports : list (nat * nat)) (k : nat) (d : vec) : R :=
  match dports with
  | [] => 0
  | p :: ds => g k * drive_v d p + gsum g ds (S k) d
  end.

Lemma upd_J_val : forall n1 n2 g d size ds k j r,
  Forall (fun p => fst p <= size /\ snd p <= size)%nat ds ->
  row size (upd_J n1 n2 g ds k j) r d
  = row size j r d + (gdlt r n1 - gdlt r n2) * gsum g ds k d.
Proof.
  intros n1 n2 g d size. induction ds as [|[p0 p1] ds IH]; intros k j r F; cbn [upd_J gsum]; [lra|].
  inversion F as [|? ? F1 F2]; subst. simpl in F1. rewrite IH by assumption.
  unfold drive_v; simpl. unfold gdlt.
  destruct (Nat.eqb_spec n1 0), (Nat.eqb_spec n2 0), (Nat.eqb_spec p0 0), (Nat.eqb_spec p1 0);
    rewrite ?row_madd by lia; lra.
Qed.

Definition port_ok (size : nat) (p : nlport) : Prop :=
  Forall (fun q => fst q <= size /\ snd q <= size)%nat (np_drive p).

Lemma J_and_T_spec : forall size ports x d r, Forall (port_ok size) ports ->
  row size (fst (J_and_T ports x)) r d =
    lsum (fun p => (gdlt r (fst (np_out p)) - gdlt r (snd (np_out p)))
           * gsum (np_g p (map (drive_v x) (np_drive p))) (np_drive p) 0 d) ports /\
  snd (J_and_T ports x) r =
    lsum (fun p => (gdlt r (fst (np_out p)) - gdlt r (snd (np_out p)))
           * np_i p (map (drive_v x) (np_drive p))) ports.
Proof.
  intros size ports x d r F.
  assert (G : forall st,
    row size (fst (fold_left (upd_port x) ports st)) r d = row size (fst st) r d +
    lsum (fun p => (gdlt r (fst (np_out p)) - gdlt r (snd (np_out p)))
           * gsum (np_g p (map (drive_v x) (np_drive p))) (np_drive p) 0 d) ports /\
    snd (fold_left (upd_port x) ports st) r = snd st r +
    lsum (fun p => (gdlt r (fst (np_out p)) - gdlt r (snd (np_out p)))
           * np_i p (map (drive_v x) (np_drive p))) ports).
  { induction ports as [|p ports IH]; intros st; simpl; [split; lra|].
    inversion F as [|? ? F1 F2]; subst. destruct (IH F2 (upd_port x st p)) as [A B].
    rewrite A, B. unfold upd_port; simpl. rewrite upd_J_val by assumption. rewrite upd_T_val.
    split; lra. }
  unfold J_and_T. destruct (G (mzero, vzero)) as [A B]. rewrite A, B. simpl.
  split; [|unfold vzero; lra].
  assert (Z : row size mzero r d = 0) by (unfold row; apply rsum_0; intros; unfold mzero; lra).
  rewrite Z. lra.
Qed.

(** ** Time-dependent sources *)

(** A circuit at a time instant: every time-dependent independent source becomes
    a constant one with its value at that time. *)
Definition freeze (tv : lelem -> R) (e : lelem) : lelem :=
  match e with
  | EV id n1 n2 _ true => EV id n1 n2 (tv e) false
  | EI id n1 n2 _ true => EI id n1 n2 (tv e) false
  | _ => e
  end.

Lemma freeze_as_celem : forall tv es, map as_celem (map (freeze tv) es) = map as_celem es.
Proof.
  intros tv es. rewrite map_map. apply map_ext. intros e.
  destruct e as [| | | |id n1 n2 dc []|id n1 n2 dc []| | | | |]; reflexivity.
Qed.

Lemma freeze_vde : forall tv e, is_vde (freeze tv e) = is_vde e.
Proof. intros tv e. destruct e as [| | | |id n1 n2 dc []|id n1 n2 dc []| | | | |]; reflexivity. Qed.

Lemma freeze_vde_index : forall tv es s, vde_index (map (freeze tv) es) s = vde_index es s.
Proof. intros. unfold vde_index. rewrite freeze_as_celem. reflexivity. Qed.

Lemma freeze_n_vde : forall tv es, n_vde (map (freeze tv) es) = n_vde es.
Proof.
  intros tv es. induction es as [|e es IH]; auto.
  change (map (freeze tv) (e :: es)) with (freeze tv e :: map (freeze tv) es).
  rewrite !n_vde_cons, freeze_vde, IH. reflexivity.
Qed.

Lemma freeze_wf : forall tv nv es, wf_circ nv es -> wf_circ nv (map (freeze tv) es).
Proof.
  intros tv nv es W. unfold wf_circ in *. induction W as [|e es We W IH]; constructor; auto.
  destruct e as [| | | |id n1 n2 dc []|id n1 n2 dc []| | | | |]; exact We.
Qed.

(** Closed forms of the constant terms. *)
Definition cN1 (i : nat) (e : lelem) : R :=
  match e with EI _ n1 n2 dc false => (dlt i n1 - dlt i n2) * dc | _ => 0 end.

Fixpoint cN2 (nv i k : nat) (es : list lelem) : R :=
  match es with
  | [] => 0
  | e :: es' =>
      (match e with EV _ _ _ dc false => dlt i (nv + k) * - dc | _ => 0 end)
      + cN2 nv i (if is_vde e then S k else k) es'
  end.

Lemma pass1_vec : forall es m v i,
  snd (fold_left stamp1 es (m, v)) i = v i + lsum (cN1 i) es.
Proof.
  induction es as [|e es IH]; intros m v i; [simpl; lra|].
  change (fold_left stamp1 (e :: es) (m, v)) with (fold_left stamp1 es (stamp1 (m, v) e)).
  destruct e as [| | | |id n1 n2 dc []|id n1 n2 dc []| | | | |];
    cbn [stamp1 lsum cN1]; rewrite IH; rewrite ?vadd_val; lra.
Qed.

Lemma pass1_mat : forall tv es m v v',
  fst (fold_left stamp1 (map (freeze tv) es) (m, v')) = fst (fold_left stamp1 es (m, v)).
Proof.
  intros tv. induction es as [|e es IH]; intros m v v'; [reflexivity|].
  cbn [map fold_left]. destruct e as [| | | |id n1 n2 dc []|id n1 n2 dc []| | | | |];
    cbn [freeze stamp1]; apply IH.
Qed.

Lemma pass2_mat : forall tv nv all es k m v v' r,
  pass2 nv all es k (m, v) = Ok r ->
  exists w, pass2 nv (map (freeze tv) all) (map (freeze tv) es) k (m, v') = Ok (fst r, w).
Proof.
  intros tv nv all. induction es as [|e es IH]; intros k m v v' r H.
  - injection H as <-. exists v'. reflexivity.
  - cbn [map]. destruct e as [| | | |id n1 n2 dc []|id n1 n2 dc []| | | | |];
      cbn [pass2 freeze is_vde stamp_vde bindr] in *; eauto.
    rewrite freeze_vde_index. destruct (vde_index all src) as [j|]; cbn [bindr] in *; [|discriminate].
    destruct (j <=? k)%nat; cbn [bindr] in *; [eauto|discriminate].
Qed.

Lemma pass2_vec : forall nv all es k m v r i,
  pass2 nv all es k (m, v) = Ok r -> (forall j, (nv + k <= j)%nat -> v j = 0) ->
  snd r i = v i + cN2 nv i k es.
Proof.
  intros nv all. induction es as [|e es IH]; intros k m v r i H Z.
  - injection H as <-. simpl. lra.
  - assert (Z' : forall j, (nv + S k <= j)%nat -> v j = 0) by (intros; apply Z; lia).
    destruct e as [| | | |id n1 n2 dc []|id n1 n2 dc []| | | | |];
      cbn [pass2 is_vde stamp_vde bindr cN2] in *;
      try (rewrite (IH _ _ _ _ i H) by assumption; lra).
    + rewrite (IH _ _ _ _ i H); [|intros j Hj; rewrite vset_other by lia; apply Z'; lia].
      unfold vset, dlt. destruct (Nat.eqb_spec i (nv + k)) as [->|]; [|lra].
      rewrite (Z (nv + k)%nat) by lia. lra.
    + destruct (vde_index all src) as [j|]; cbn [bindr] in *; [|discriminate].
      destruct (j <=? k)%nat; cbn [bindr] in *; [|discriminate].
      rewrite (IH _ _ _ _ i H) by assumption. lra.
Qed.

Lemma pass3_freeze : forall tv nv all es m r, pass3 nv all es m = Ok r ->
  pass3 nv (map (freeze tv) all) (map (freeze tv) es) m = Ok r.
Proof.
  intros tv nv all. induction es as [|e es IH]; intros m r H; [exact H|].
  cbn [map]. destruct e as [| | | |id n1 n2 dc []|id n1 n2 dc []| | | | |];
    cbn [pass3 freeze stampF bindr] in *; auto.
  rewrite freeze_vde_index. destruct (vde_index all src); cbn [bindr] in *; [auto|discriminate].
Qed.

Definition tN1 (tv : lelem -> R) (i : nat) (e : lelem) : R :=
  match e with EI _ n1 n2 _ true => (gdlt i n1 - gdlt i n2) * tv e | _ => 0 end.

Fixpoint tN2 (tv : lelem -> R) (nv i k : nat) (es : list lelem) : R :=
  match es with
  | [] => 0
  | e :: es' =>
      (match e with EV _ _ _ _ true => dlt i (nv - 1 + k) * - tv e | _ => 0 end)
      + tN2 tv nv i (if is_vde e then S k else k) es'
  end.

Lemma tt_loop_val : forall tv nv es k v i, wf_circ nv es ->
  (forall j, (nv - 1 + k <= j)%nat -> v j = 0) ->
  tt_loop nv tv es k v i = v i + lsum (tN1 tv i) es + tN2 tv nv i k es.
Proof.
  intros tv nv. induction es as [|e es IH]; intros k v i W Z; [simpl; lra|].
  inversion W as [|? ? We W']; subst. destruct We as (W1 & W2 & _ & _).
  assert (Z' : forall j, (nv - 1 + S k <= j)%nat -> v j = 0) by (intros; apply Z; lia).
  destruct e as [| | | |id n1 n2 dc []|id n1 n2 dc []| | | | |];
    cbn [tt_loop is_vde lsum tN1 tN2]; try (rewrite IH by assumption; lra).
  - rewrite IH; [|assumption|intros j Hj; rewrite vset_other by lia; apply Z'; lia].
    unfold vset, dlt. destruct (Nat.eqb_spec i (nv - 1 + k)) as [->|]; [|lra].
    rewrite (Z (nv - 1 + k)%nat) by lia. lra.
  - simpl in W1, W2. rewrite IH; [|assumption|].
    + unfold gdlt. set (t := tv _).
      unfold Rminus at 1.
      destruct (Nat.eqb_spec n1 0), (Nat.eqb_spec n2 0); try lra;
      repeat match goal with |- context [vset ?f ?a (?f ?a + ?v)] => fold (vadd f a v) end;
      rewrite ?vadd_val; lra.
    + intros j Hj. destruct (Nat.eqb_spec n1 0), (Nat.eqb_spec n2 0);
        rewrite ?vset_other by lia; apply Z; lia.
Qed.

(** The system solved at a time instant is the one of the frozen circuit. *)
Lemma frozen_system : forall tv nv es m N, wf_circ nv es -> (0 < nv)%nat ->
  generate_mna_and_N nv es = Ok (m, N) ->
  exists N', generate_mna_and_N nv (map (freeze tv) es) = Ok (m, N') /\
    forall i, reduce_vec N' i = reduce_vec N i + time_term nv tv es i.
Proof.
  intros tv nv es m N W NV G. unfold generate_mna_and_N in *.
  destruct (pass2 nv es es 0 (fold_left stamp1 es (mzero, vzero))) as [[m2 v2]|] eqn:P2; [|discriminate].
  cbn [bindr fst snd] in G. destruct (pass3 nv es es m2) as [m3|] eqn:P3; [|discriminate].
  cbn [bindr] in G. injection G as <- <-.
  destruct (fold_left stamp1 es (mzero, vzero)) as [m1 v1] eqn:P1.
  destruct (fold_left stamp1 (map (freeze tv) es) (mzero, vzero)) as [m1' v1'] eqn:P1'.
  assert (M1 : m1' = m1).
  { pose proof (pass1_mat tv es mzero vzero vzero) as Q. rewrite P1, P1' in Q. exact Q. }
  subst m1'.
  destruct (pass2_mat tv nv es es 0 m1 v1 v1' (m2, v2) P2) as [w Pw]. cbn [fst] in Pw.
  rewrite Pw. cbn [bindr fst snd]. rewrite (pass3_freeze tv nv es es m2 m3 P3). cbn [bindr].
  exists w. split; [reflexivity|]. intros i.
  assert (V1 : forall i, v1 i = lsum (cN1 i) es).
  { intros j. pose proof (pass1_vec es mzero vzero j) as Q. rewrite P1 in Q. cbn [snd] in Q.
    rewrite Q. unfold vzero. lra. }
  assert (V1' : forall i, v1' i = lsum (cN1 i) (map (freeze tv) es)).
  { intros j. pose proof (pass1_vec (map (freeze tv) es) mzero vzero j) as Q. rewrite P1' in Q. cbn [snd] in Q.
    rewrite Q. unfold vzero. lra. }
  assert (HI : forall es' j, wf_circ nv es' -> (nv <= j)%nat -> lsum (cN1 j) es' = 0).
  { intros es' j Wf Hj. apply lsum_0. intros e I. unfold wf_circ in Wf.
    rewrite Forall_forall in Wf. destruct (Wf e I) as (A & B & _ & _).
    destruct e as [| | | |id n1 n2 dc []|id n1 n2 dc []| | | | |]; simpl in *; auto.
    rewrite !dlt_other by lia. lra. }
  pose proof (pass2_vec nv es es 0 m1 v1 (m2, v2) (S i) P2) as Q.
  pose proof (pass2_vec nv _ _ 0 m1 v1' _ (S i) Pw) as Q'. cbn [snd] in Q, Q'.
  unfold reduce_vec. rewrite Q, Q', V1, V1'.
  2:{ intros j Hj. rewrite V1'. apply HI; [apply freeze_wf; auto|lia]. }
  2:{ intros j Hj. rewrite V1. apply HI; [auto|lia]. }
  unfold time_term. rewrite tt_loop_val by (auto; intros; reflexivity).
  unfold vzero.
  assert (L1 : lsum (cN1 (S i)) (map (freeze tv) es) = lsum (cN1 (S i)) es + lsum (tN1 tv i) es).
  { clear. induction es as [|e es IH]; simpl; [lra|]. rewrite IH.
    assert (E : cN1 (S i) (freeze tv e) = cN1 (S i) e + tN1 tv i e).
    { destruct e as [| | | |id n1 n2 dc []|id n1 n2 dc []| | | | |]; simpl; try lra.
      set (t := tv _). unfold gdlt, dlt.
      destruct (Nat.eqb_spec n1 0), (Nat.eqb_spec n2 0), (Nat.eqb_spec i (n1 - 1)), (Nat.eqb_spec i (n2 - 1));
      destruct n1, n2; simpl; try lia; try lra;
      repeat match goal with |- context [(?a =? ?b)%nat] => destruct (Nat.eqb_spec a b); try lia end; lra. }
    rewrite E. lra. }
  assert (L2 : forall k, cN2 nv (S i) k (map (freeze tv) es) = cN2 nv (S i) k es + tN2 tv nv i k es).
  { clear - NV. induction es as [|e es IH]; intros k; [simpl; lra|].
    cbn [map cN2 tN2]. rewrite freeze_vde, IH.
    assert (D : dlt (S i) (nv + k) = dlt i (nv - 1 + k)).
    { unfold dlt. destruct (Nat.eqb_spec (S i) (nv + k)), (Nat.eqb_spec i (nv - 1 + k)); auto; lia. }
    destruct e as [| | | |id n1 n2 dc []|id n1 n2 dc []| | | | |]; cbn [freeze]; try lra;
    rewrite D; lra. }
  rewrite L1, L2. lra.
Qed.
