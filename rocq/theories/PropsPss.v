(** Periodic steady state: the shooting method (C46, C47) and the brute-force method
    (C48, C118). *)
From Coq Require Import Reals List Bool Arith Lia Lra Psatz.
From Verif Require Import Base Rsum Mna Newton Sweep PropsSweep Pss.
Import ListNotations.
Open Scope R_scope.

(** * Specification *)

(** What numpy promises when it does not raise: the solution, and the only one. *)
Definition solves (n : nat) (solve : mat -> vec -> option vec) := forall A b x, solve A b = Some x ->
  (forall i, (i < n)%nat -> row n A i x = b i) /\
  (forall y, (forall i, (i < n)%nat -> row n A i y = b i) -> forall i, (i < n)%nat -> y i = x i).
Definition msolves (n : nat) (msolve : mat -> mat -> option mat) := forall A B X, msolve A B = Some X ->
  forall i j, (i < n)%nat -> (j < n)%nat -> rsum n (fun k => A i k * X k j) = B i j.
Definition inverts (n : nat) (inv : mat -> option mat) := forall A W, inv A = Some W ->
  forall i j, (i < n)%nat -> (j < n)%nat -> rsum n (fun k => A i k * W k j) = dlt i j.

(** The index before [k] on a circle of [N]. *)
Definition before (N k : nat) : nat := match k with O => (N - 1)%nat | S k' => k' end.

(** The discretised equation of sample [k] at time [t], row [i], with the rate of
    change [(x - xp) / step]. *)
Definition euler_eq (n : nat) (mna D : mat) (Tf : vec) (Tt : R -> vec) (ports : list nlport)
    (step t : R) (x xp : vec) (i : nat) : R :=
  row n mna i x + row n D i (fun j => (x j - xp j) / step) + snd (J_and_T ports x) i + Tf i + Tt t i.

(** * Linear algebra *)
Lemma row_ext : forall n A B i x y, (forall j, (j < n)%nat -> A i j = B i j) -> (forall j, (j < n)%nat -> x j = y j) ->
  row n A i x = row n B i y.
Proof. intros. unfold row. apply rsum_ext. intros j Hj. rewrite H, H0; auto. Qed.
Lemma row_ext_v : forall n A i x y, (forall j, (j < n)%nat -> x j = y j) -> row n A i x = row n A i y.
Proof. intros. apply row_ext; auto. Qed.
Lemma row_plus_v : forall n A i x y, row n A i (vplus x y) = row n A i x + row n A i y.
Proof. intros. unfold row, vplus. rewrite <- rsum_plus. apply rsum_ext; intros; ring. Qed.
Lemma row_neg_v : forall n A i x, row n A i (vneg x) = - row n A i x.
Proof. intros. unfold row, vneg. rewrite <- rsum_opp. apply rsum_ext; intros; ring. Qed.
Lemma row_scale_v : forall n A i c x, row n A i (vscale c x) = c * row n A i x.
Proof. intros. unfold row, vscale. rewrite <- rsum_scal. apply rsum_ext; intros; ring. Qed.
Lemma row_zero_v : forall n A i, row n A i vzero = 0.
Proof. intros. unfold row, vzero. apply rsum_0. intros; ring. Qed.
Lemma row_plus_m : forall n A B i x, row n (mplus A B) i x = row n A i x + row n B i x.
Proof. intros. unfold row, mplus. rewrite <- rsum_plus. apply rsum_ext; intros; ring. Qed.
Lemma row_scale_m : forall n A i c x, row n (mscale c A) i x = c * row n A i x.
Proof. intros. unfold row, mscale. rewrite <- rsum_scal. apply rsum_ext; intros; ring. Qed.
Lemma row_neg_m : forall n A i x, row n (mneg A) i x = - row n A i x.
Proof. intros. unfold row, mneg. rewrite <- rsum_opp. apply rsum_ext; intros; ring. Qed.
Lemma row_eye : forall n i x, (i < n)%nat -> row n eye i x = x i.
Proof.
  intros. unfold row, eye. rewrite (rsum_ext n _ (fun j => dlt j i * x j)); [apply rsum_dlt; auto|].
  intros. rewrite dlt_sym. reflexivity.
Qed.
(** [A (B x) = (A B) x]. *)
Lemma row_mmul : forall n A B i x, row n A i (mvec n B x) = row n (mmul n A B) i x.
Proof.
  intros. unfold row, mvec, mmul, row.
  transitivity (rsum n (fun j => rsum n (fun k => A i j * (B j k * x k)))).
  - apply rsum_ext. intros. rewrite <- rsum_scal. reflexivity.
  - rewrite rsum_swap. apply rsum_ext. intros. rewrite <- rsum_scal_r. apply rsum_ext. intros. ring.
Qed.

(** * C46: the shooting update *)
Section C46.
  Variable n : nat.
  Variable solve : mat -> vec -> option vec.
  Variable msolve : mat -> mat -> option mat.
  Variable inv : mat -> option mat.
  Hypothesis Hs : solves n solve.
  Hypothesis Hm : msolves n msolve.
  Hypothesis Hi : inverts n inv.
  Variable MB : mat.

  Definition eqv (x y : vec) := forall i, (i < n)%nat -> x i = y i.

  (** One homogeneous pass. *)
  Fixpoint hom (l : list (mat * vec)) (v w : vec) : Prop :=
    match l with
    | [] => eqv v w
    | (A, _) :: l' => exists u, (forall i, (i < n)%nat -> row n A i u + row n MB i v = 0) /\ hom l' u w
    end.
  (** The trajectory of the linearised steps from [v]. *)
  Fixpoint traj (l : list (mat * vec)) (v : vec) (ds : list vec) (w : vec) : Prop :=
    match l, ds with
    | [], [] => eqv v w
    | (A, T) :: l', d :: ds' => (forall i, (i < n)%nat -> row n A i d + row n MB i v + T i = 0) /\ traj l' d ds' w
    | _, _ => False
    end.

  Lemma hom_zero : forall l, hom l vzero vzero.
  Proof.
    induction l as [|[A T] l IH]; simpl; [intros i H; reflexivity|].
    exists vzero. split; [|exact IH]. intros. rewrite !row_zero_v. lra.
  Qed.
  Lemma hom_plus : forall l v w v' w', hom l v w -> hom l v' w' -> hom l (vplus v v') (vplus w w').
  Proof.
    induction l as [|[A T] l IH]; simpl; intros v w v' w' H H'.
    - intros i Hi'. unfold vplus. rewrite H, H'; auto.
    - destruct H as (u & H1 & H2), H' as (u' & H1' & H2').
      exists (vplus u u'). split; [|apply IH; auto].
      intros. rewrite !row_plus_v. specialize (H1 i H). specialize (H1' i H). lra.
  Qed.
  Lemma hom_chain3 : forall l v w, chain3 n solve MB l v = Some w -> hom l v w.
  Proof.
    induction l as [|[A T] l IH]; simpl; intros v w H.
    - injection H as <-. intros i _. reflexivity.
    - destruct (solve A (mvec n MB v)) as [y|] eqn:E; [|discriminate].
      exists (vneg y). split; [|apply IH; auto].
      intros i Hi'. rewrite row_neg_v. destruct (Hs _ _ _ E) as [E1 _]. rewrite E1 by auto. unfold mvec. lra.
  Qed.

  Lemma trajectory : forall l z m P v w acc q,
    chain1 n msolve MB l m = Some P -> sum2 n solve MB l acc = Some q -> hom l v w ->
    exists ds e, traj l (vplus (mvec n m z) v) ds e /\ length ds = length l /\
      (forall i, (i < n)%nat -> e i = mvec n P z i + w i + q i - acc i).
  Proof.
    induction l as [|[A T] l IH]; simpl; intros z m P v w acc q HP Hq Hw.
    - injection HP as <-. injection Hq as <-. exists [], (vplus (mvec n m z) v).
      split; [intros i _; reflexivity|]. split; [reflexivity|]. intros i Hi'. unfold vplus. rewrite Hw by auto. lra.
    - destruct (msolve A (mmul n MB m)) as [y|] eqn:Ey; [|discriminate].
      destruct (solve A T) as [t0|] eqn:Et; [|discriminate].
      destruct (chain3 n solve MB l (vneg t0)) as [t|] eqn:Ec; [|discriminate].
      destruct Hw as (u & Hu & Hw).
      assert (Hw' : hom l (vplus u (vneg t0)) (vplus w t)) by (apply hom_plus; [exact Hw|apply hom_chain3; exact Ec]).
      destruct (IH z (mneg y) P _ _ _ q HP Hq Hw') as (ds & e & H1 & H2 & H3).
      exists (vplus (mvec n (mneg y) z) (vplus u (vneg t0)) :: ds), e. repeat split.
      + intros i Hi'. rewrite !row_plus_v, row_neg_v, !row_mmul.
        destruct (Hs _ _ _ Et) as [E1 _]. rewrite E1 by auto.
        assert (E2 : row n (mmul n A (mneg y)) i z = - row n (mmul n MB m) i z).
        { rewrite <- row_neg_m. apply row_ext; [|reflexivity]. intros j Hj. unfold mmul at 1, mneg.
          rewrite (rsum_ext n _ (fun k => - (A i k * y k j))) by (intros; ring).
          rewrite rsum_opp. rewrite (Hm _ _ _ Ey) by auto. reflexivity. }
        rewrite E2. specialize (Hu i Hi'). lra.
      + exact H1.
      + simpl. rewrite H2. reflexivity.
      + intros i Hi'. rewrite H3 by auto. unfold vplus. lra.
  Qed.

  (** The steps computed from [prev] follow the trajectory. *)
  Lemma unique_step : forall A b x T v v' d y, solve A b = Some x -> eqv v v' ->
    (forall i, (i < n)%nat -> row n A i d + row n MB i v + T i = 0) ->
    (forall i, (i < n)%nat -> row n A i y + row n MB i v' + T i = 0) -> eqv d y.
  Proof.
    intros A b x T v v' d y E Ev Hd Hy i Hi'.
    destruct (Hs _ _ _ E) as [E1 E2].
    assert (F : forall j, (j < n)%nat -> vplus x (vplus d (vneg y)) j = x j).
    { apply E2. intros j Hj. rewrite !row_plus_v, row_neg_v. rewrite E1 by auto.
      specialize (Hd j Hj). specialize (Hy j Hj). rewrite (row_ext_v n MB j v v' Ev) in Hd. lra. }
    specialize (F i Hi'). unfold vplus, vneg in F. lra.
  Qed.

  (** The equations of consecutive samples. *)
  Fixpoint chain_eqs (l : list (mat * vec)) (prev : vec) (ds : list vec) : Prop :=
    match l, ds with
    | [], [] => True
    | (A, T) :: l', d :: ds' => (forall i, (i < n)%nat -> row n A i d + row n MB i prev + T i = 0) /\ chain_eqs l' d ds'
    | _, _ => False
    end.

  Lemma dx_follow : forall l prev v ds out e z q,
    dx_loop n solve MB (firstn (pred (length l)) l) prev = Some out ->
    sum2 n solve MB l z = Some q -> l <> [] ->
    traj l v ds e -> eqv v prev ->
    chain_eqs l prev (out ++ [e]).
  Proof.
    induction l as [|[A T] l IH]; intros prev v ds out e z q Ho Hq Hl Ht Hv; [congruence|].
    cbn [sum2] in Hq. destruct (solve A T) as [t0|] eqn:Et; [|discriminate].
    destruct (chain3 n solve MB l (vneg t0)) as [t|] eqn:Ec; [|discriminate].
    destruct ds as [|d ds]; [destruct Ht|]. destruct Ht as [Hd Ht].
    destruct l as [|[A' T'] l].
    - simpl in Ho. injection Ho as <-. destruct ds; [|destruct Ht]. simpl in Ht. simpl. split; [|exact Logic.I].
      intros i Hi'. rewrite <- (row_ext_v n A i d e Ht), <- (row_ext_v n MB i v prev Hv). auto.
    - cbn [length pred firstn dx_loop] in Ho. unfold compute_dx in Ho.
      destruct (solve A (vplus (mvec n MB prev) T)) as [y|] eqn:Ey; [|discriminate].
      destruct (dx_loop n solve MB (firstn (length l) ((A', T') :: l)) (vneg y)) as [out'|] eqn:Eo; [|discriminate].
      injection Ho as <-.
      assert (Hy : forall i, (i < n)%nat -> row n A i (vneg y) + row n MB i prev + T i = 0).
      { intros i Hi'. rewrite row_neg_v. destruct (Hs _ _ _ Ey) as [E1 _]. rewrite E1 by auto.
        unfold vplus, mvec. lra. }
      cbn [chain_eqs app]. split; [exact Hy|].
      refine (IH (vneg y) d ds out' e _ q Eo Hq _ Ht _); [discriminate|].
      exact (unique_step A T t0 T v prev d (vneg y) Et Hv Hd Hy).
  Qed.

  Lemma chain_eqs_nth : forall l prev ds, chain_eqs l prev ds -> length ds = length l /\
    forall k dflt, (k < length l)%nat -> forall i, (i < n)%nat ->
      row n (fst (nth k l dflt)) i (nth k ds vzero)
      + row n MB i (match k with O => prev | S k' => nth k' ds vzero end) + snd (nth k l dflt) i = 0.
  Proof.
    induction l as [|[A T] l IH]; intros prev ds H; destruct ds as [|d ds]; simpl in H; try contradiction.
    - split; [reflexivity|]. intros. simpl in H0. lia.
    - destruct H as [H1 H2]. destruct (IH _ _ H2) as [L E]. split; [simpl; congruence|].
      intros k dflt Hk i Hi'. destruct k as [|k]; [simpl; apply H1; auto|].
      simpl in Hk. specialize (E k dflt ltac:(lia) i Hi'). destruct k; exact E.
  Qed.

  Lemma chain_eqs_last : forall l prev out e z, eqv e z -> chain_eqs l prev (out ++ [e]) -> chain_eqs l prev (out ++ [z]).
  Proof.
    induction l as [|[A T] l IH]; intros prev out e z He C; destruct out as [|o out]; simpl in *; try contradiction.
    - destruct C as [C1 C2]. split.
      + intros i Hi'. rewrite <- (row_ext_v n A i e z He). auto.
      + destruct l as [|[A' T'] l]; exact C2.
    - destruct C as [C1 C2]. split; [exact C1|]. exact (IH _ _ _ _ He C2).
  Qed.

  (** Every linearised step equation holds, around the whole circle. *)
  Theorem C46_cyclic : forall l ds, updates n solve msolve inv MB l = Some ds ->
    (0 < length l)%nat ->
    length ds = length l /\
    forall k dflt, (k < length l)%nat -> forall i, (i < n)%nat ->
      row n (fst (nth k l dflt)) i (nth k ds vzero)
      + row n MB i (nth (before (length l) k) ds vzero) + snd (nth k l dflt) i = 0.
  Proof.
    intros l ds H Hl. unfold updates, compute_dxN in H.
    destruct (chain1 n msolve MB l eye) as [P|] eqn:EP; [|discriminate].
    destruct (sum2 n solve MB l vzero) as [q|] eqn:Eq; [|discriminate].
    destruct (inv (mplus eye (mneg P))) as [W|] eqn:EW; [|discriminate].
    set (z := mvec n W q) in *.
    destruct (dx_loop n solve MB (firstn (pred (length l)) l) z) as [out|] eqn:Eo; [|discriminate].
    injection H as <-.
    assert (Hz : forall i, (i < n)%nat -> z i = mvec n P z i + q i).
    { intros i Hi'.
      assert (F : row n (mplus eye (mneg P)) i z = q i).
      { unfold z. rewrite row_mmul. rewrite <- (row_eye n i q Hi'). apply row_ext; [|reflexivity].
        intros j Hj. unfold mmul. rewrite (Hi _ _ EW) by auto. reflexivity. }
      rewrite row_plus_m, row_neg_m, row_eye in F by auto. unfold mvec at 1. lra. }
    destruct (trajectory l z eye P vzero vzero vzero q EP Eq (hom_zero l)) as (tr & e & H1 & H2 & H3).
    assert (He : eqv e z).
    { intros i Hi'. rewrite H3, (Hz i Hi') by auto. unfold vzero. lra. }
    assert (Hv : eqv (vplus (mvec n eye z) vzero) z).
    { intros i Hi'. unfold vplus, mvec, vzero. rewrite row_eye by auto. lra. }
    assert (Hne : l <> []) by (destruct l; [simpl in Hl; lia|discriminate]).
    pose proof (dx_follow l z _ tr out e vzero q Eo Eq Hne H1 Hv) as C.
    (* the last sample is [z] itself *)
    assert (C' : chain_eqs l z (out ++ [z])).
    { exact (chain_eqs_last l z out e z He C). }
    destruct (chain_eqs_nth _ _ _ C') as [L E]. split; [exact L|].
    intros k dflt Hk i Hi'. specialize (E k dflt Hk i Hi').
    destruct k as [|k]; [|exact E]. cbn [before].
    replace (nth (length l - 1) (out ++ [z]) vzero) with z; [exact E|].
    rewrite app_length in L. simpl in L.
    rewrite app_nth2 by lia. replace (length l - 1 - length out)%nat with 0%nat by lia. reflexivity.
  Qed.
End C46.
Print Assumptions C46_cyclic.

Section Shoot.
  Variable n : nat.
  Variable solve : mat -> vec -> option vec.
  Variable msolve : mat -> mat -> option mat.
  Variable inv : mat -> option mat.
  Hypothesis Hs : solves n solve.
  Hypothesis Hm : msolves n msolve.
  Hypothesis Hi : inverts n inv.
  Variables mna D : mat.
  Variable Tf : vec.
  Variable Tt : R -> vec.
  Variable ports : list nlport.
  Variable step : R.

  Notation stp := (shoot_step n solve msolve inv mna D Tf Tt ports step).
  Notation eq_ := (euler_eq n mna D Tf Tt ports step).

  Lemma rate_split : forall i x xp,
    row n D i (fun j => (x j - xp j) / step) = C1 step * row n D i x + C0 step * row n D i xp.
  Proof.
    intros. unfold row. rewrite <- !rsum_scal, <- rsum_plus. apply rsum_ext. intros. unfold C1, C0, Rdiv. ring.
  Qed.

  Lemma point_T : forall t x xp i, snd (point n mna D Tf Tt ports step t x xp) i = eq_ t x xp i.
  Proof.
    intros. unfold point, euler_eq. destruct (J_and_T ports x) as [J T]. cbn [snd]. rewrite rate_split.
    unfold vplus, mvec. rewrite !row_scale_m. ring.
  Qed.

  Lemma points_from_spec : forall xs k0 xp,
    length (points_from n mna D Tf Tt ports step k0 xp xs) = length xs /\
    forall k dflt, (k < length xs)%nat ->
      nth k (points_from n mna D Tf Tt ports step k0 xp xs) dflt
      = point n mna D Tf Tt ports step (INR (k0 + k) * step) (nth k xs vzero)
          (match k with O => xp | S k' => nth k' xs vzero end).
  Proof.
    induction xs as [|x xs IH]; intros k0 xp; cbn [points_from length].
    - split; [reflexivity|]. intros; lia.
    - destruct (IH (S k0) x) as [L E]. split; [congruence|].
      intros k dflt Hk. destruct k as [|k]; cbn [nth].
      + rewrite Nat.add_0_r. reflexivity.
      + rewrite E by lia. replace (S k0 + k)%nat with (k0 + S k)%nat by lia. destruct k; reflexivity.
  Qed.

  Lemma last_nth : forall (xs : list vec) d, last xs d = nth (length xs - 1) xs d.
  Proof.
    induction xs as [|x xs IH]; intros; [reflexivity|].
    destruct xs as [|y xs]; [reflexivity|]. change (last (x :: y :: xs) d) with (last (y :: xs) d). rewrite IH.
    cbn [length nth]. replace (S (S (length xs)) - 1)%nat with (S (length xs)) by lia.
    replace (S (length xs) - 1)%nat with (length xs) by lia. reflexivity.
  Qed.

  Lemma lin_points_spec : forall xs,
    length (lin_points n mna D Tf Tt ports step xs) = length xs /\
    forall k dflt, (k < length xs)%nat ->
      nth k (lin_points n mna D Tf Tt ports step xs) dflt
      = point n mna D Tf Tt ports step (INR k * step) (nth k xs vzero) (nth (before (length xs) k) xs vzero).
  Proof.
    intros. unfold lin_points. destruct (points_from_spec xs 0 (last xs vzero)) as [L E].
    split; [exact L|]. intros k dflt Hk. rewrite E by auto. rewrite last_nth. destruct k; reflexivity.
  Qed.

  (** In every iteration, what each sample misses of its own (nonlinear) equation is
      what the update would add to first order. *)
  Theorem C46_residual : forall td xs dxs xs', stp td xs = Some (dxs, xs') -> (0 < length xs)%nat ->
    length dxs = length xs /\
    forall k i, (k < length xs)%nat -> (i < n)%nat ->
      let x := nth k xs vzero in let dx := nth k dxs vzero in
      let xp := nth (before (length xs) k) xs vzero in let dxp := nth (before (length xs) k) dxs vzero in
      eq_ (INR k * step) x xp i
      + (row n mna i dx + row n D i (fun j => (dx j - dxp j) / step) + row n (fst (J_and_T ports x)) i dx) = 0.
  Proof.
    intros td xs dxs xs' H Hl. unfold shoot_step in H.
    destruct (updates n solve msolve inv (MB D step) (lin_points n mna D Tf Tt ports step xs)) as [ds|] eqn:E; [|discriminate].
    injection H as -> _.
    destruct (lin_points_spec xs) as [L P].
    destruct (C46_cyclic n solve msolve inv Hs Hm Hi (MB D step) _ _ E) as [Ld C]; [rewrite L; exact Hl|].
    rewrite L in Ld, C. split; [exact Ld|]. intros k i Hk Hi' x dx xp dxp.
    specialize (C k (mzero, vzero) Hk i Hi'). rewrite P in C by auto.
    fold x xp dx dxp in C. rewrite point_T in C. rewrite rate_split.
    unfold point in C. destruct (J_and_T ports x) as [J T]. cbn [fst] in C |- *.
    unfold MB in C. rewrite !row_plus_m, !row_scale_m in C. lra.
  Qed.

  (** So the samples that the method leaves alone satisfy the equations. *)
  Theorem C46_fixed_point : forall td xs dxs xs', stp td xs = Some (dxs, xs') -> (0 < length xs)%nat ->
    (forall k i, (k < length xs)%nat -> (i < n)%nat -> nth k dxs vzero i = 0) ->
    forall k i, (k < length xs)%nat -> (i < n)%nat ->
      eq_ (INR k * step) (nth k xs vzero) (nth (before (length xs) k) xs vzero) i = 0.
  Proof.
    intros td xs dxs xs' H Hl Z k i Hk Hi'.
    destruct (C46_residual td xs dxs xs' H Hl) as [_ E]. specialize (E k i Hk Hi'). cbv zeta in E.
    assert (Hp : (before (length xs) k < length xs)%nat) by (destruct k; simpl; lia).
    rewrite (row_ext_v n mna i _ vzero), (row_ext_v n D i _ vzero), (row_ext_v n _ i (nth k dxs vzero) vzero) in E.
    - rewrite !row_zero_v in E. lra.
    - intros. apply Z; auto.
    - intros. rewrite !Z by auto. unfold vzero, Rdiv. ring.
    - intros. apply Z; auto.
  Qed.

  Lemma damp_nth : forall td dxs xs, length dxs = length xs -> length (damp td dxs xs) = length xs /\
    forall k i, (k < length xs)%nat -> nth k (damp td dxs xs) vzero i = td (nth k dxs vzero) * nth k dxs vzero i + nth k xs vzero i.
  Proof.
    induction dxs as [|d dxs IH]; intros xs L; destruct xs as [|x xs]; try discriminate; cbn [damp length].
    - split; [reflexivity|]. intros; lia.
    - destruct (IH xs) as [L' E]; [simpl in L; congruence|]. split; [congruence|].
      intros k i Hk. destruct k as [|k]; cbn [nth]; [reflexivity|]. apply E. lia.
  Qed.
End Shoot.
Print Assumptions C46_residual.
Print Assumptions C46_fixed_point.

(** Without nonlinear elements nothing is damped. *)
Lemma td_no_ports : forall o n dx, get_td o n dx [] None = 1.
Proof. intros. unfold get_td. destruct (d_lock o); reflexivity. Qed.

(** Without nonlinear elements a single iteration, from any samples, gives the exact
    solution of the discretised equations. *)
Theorem C46_linear : forall n solve msolve inv, solves n solve -> msolves n msolve -> inverts n inv ->
  forall mna D Tf Tt step o xs dxs xs', (0 < length xs)%nat ->
  shoot_step n solve msolve inv mna D Tf Tt [] step (fun dx => get_td o n dx [] None) xs = Some (dxs, xs') ->
  length xs' = length xs /\
  forall k i, (k < length xs)%nat -> (i < n)%nat ->
    euler_eq n mna D Tf Tt [] step (INR k * step) (nth k xs' vzero) (nth (before (length xs) k) xs' vzero) i = 0.
Proof.
  intros n solve msolve inv Hs Hm Hi mna D Tf Tt step o xs dxs xs' Hl H.
  destruct (C46_residual n solve msolve inv Hs Hm Hi mna D Tf Tt [] step _ xs dxs xs' H Hl) as [Ld E].
  assert (X : xs' = damp (fun dx => get_td o n dx [] None) dxs xs).
  { unfold shoot_step in H. destruct updates as [ds|]; [|discriminate]. injection H as -> <-. reflexivity. }
  destruct (damp_nth (fun dx => get_td o n dx [] None) dxs xs Ld) as [L' V]. rewrite <- X in L', V.
  split; [exact L'|]. intros k i Hk Hi'. specialize (E k i Hk Hi'). cbv zeta in E.
  assert (Hp : (before (length xs) k < length xs)%nat) by (destruct k; simpl; lia).
  unfold euler_eq in *. change (J_and_T [] (nth k xs' vzero)) with (mzero, vzero).
  change (J_and_T [] (nth k xs vzero)) with (mzero, vzero) in E. cbn [fst snd] in *.
  assert (V1 : forall j, nth k xs' vzero j = nth k dxs vzero j + nth k xs vzero j).
  { intros j. rewrite V by auto. rewrite td_no_ports. ring. }
  assert (V2 : forall j, nth (before (length xs) k) xs' vzero j = nth (before (length xs) k) dxs vzero j + nth (before (length xs) k) xs vzero j).
  { intros j. rewrite V by auto. rewrite td_no_ports. ring. }
  rewrite (row_ext_v n mna i (nth k xs' vzero) (vplus (nth k dxs vzero) (nth k xs vzero))) by (intros; apply V1).
  rewrite (row_ext_v n D i (fun j => (nth k xs' vzero j - nth (before (length xs) k) xs' vzero j) / step)
    (vplus (fun j => (nth k dxs vzero j - nth (before (length xs) k) dxs vzero j) / step)
           (fun j => (nth k xs vzero j - nth (before (length xs) k) xs vzero j) / step))).
  2:{ intros j _. rewrite V1, V2. unfold vplus, Rdiv. ring. }
  rewrite !row_plus_v.
  assert (Z : row n mzero i (nth k dxs vzero) = 0) by (unfold row, mzero; apply rsum_0; intros; ring).
  rewrite Z in E. lra.
Qed.
Print Assumptions C46_linear.

(** ** The loop *)
Section Loop.
  Variable stp : list vec -> option (list vec * list vec).
  Variable small : list vec -> list vec -> bool.
  (** [k] consecutive iterations that pass the test lead from [a] to [b]. *)
  Fixpoint settled (k : nat) (a b : list vec) : Prop :=
    match k with
    | O => a = b
    | S k' => exists dxs c, stp a = Some (dxs, c) /\ small dxs c = true /\ settled k' c b
    end.
  Lemma settled_snoc : forall k a b dxs c, settled k a b -> stp b = Some (dxs, c) -> small dxs c = true -> settled (S k) a c.
  Proof.
    induction k as [|k IH]; intros a b dxs c H Hc Hsm.
    - simpl in H. subst b. exists dxs, c. repeat split; auto.
    - destruct H as (d1 & c1 & H1 & H2 & H3). exists d1, c1. split; [exact H1|]. split; [exact H2|]. exact (IH _ _ _ _ H3 Hc Hsm).
  Qed.
End Loop.

(** A solution is returned only after four consecutive iterations that passed the
    test. *)
Theorem C46_four : forall n solve msolve inv mna D Tf Tt ports step td small left xs r,
  shoot_loop n solve msolve inv mna D Tf Tt ports step td small left 0 xs = SDone (Some r) ->
  exists y, settled (shoot_step n solve msolve inv mna D Tf Tt ports step td) small 4 y r.
Proof.
  intros n solve msolve inv mna D Tf Tt ports step td small.
  set (stp := shoot_step n solve msolve inv mna D Tf Tt ports step td).
  assert (G : forall left conv xs r, (conv <= 3)%nat -> (exists y, settled stp small conv y xs) ->
    shoot_loop n solve msolve inv mna D Tf Tt ports step td small left conv xs = SDone (Some r) ->
    exists y, settled stp small 4 y r).
  { induction left as [|left IH]; intros conv xs r Hc [y Hy] H; cbn [shoot_loop] in H; fold stp in H;
      destruct (stp xs) as [[dxs xs']|] eqn:E; try discriminate;
      destruct (small dxs xs') eqn:Sm; cbn [andb] in H; try discriminate;
      destruct (conv =? 3)%nat eqn:C3; try discriminate.
    - injection H as <-. apply Nat.eqb_eq in C3. subst conv. exists y. exact (settled_snoc stp small 3 y xs dxs xs' Hy E Sm).
    - injection H as <-. apply Nat.eqb_eq in C3. subst conv. exists y. exact (settled_snoc stp small 3 y xs dxs xs' Hy E Sm).
    - apply Nat.eqb_neq in C3. apply (IH (S conv) xs' r); [lia| |exact H].
      exists y. exact (settled_snoc stp small conv y xs dxs xs' Hy E Sm).
    - apply (IH 0%nat xs' r); [lia| |exact H]. exists xs'. reflexivity.
    - apply (IH 0%nat xs' r); [lia| |exact H]. exists xs'. reflexivity. }
  intros left xs r H. apply (G left 0%nat xs r); [lia| |exact H]. exists xs. reflexivity.
Qed.
Print Assumptions C46_four.

(** The iterations keep the number of samples. *)
Lemma shoot_step_length : forall n solve msolve inv mna D Tf Tt ports step td xs dxs xs',
  solves n solve -> msolves n msolve -> inverts n inv -> (0 < length xs)%nat ->
  shoot_step n solve msolve inv mna D Tf Tt ports step td xs = Some (dxs, xs') -> length xs' = length xs.
Proof.
  intros n solve msolve inv mna D Tf Tt ports step td xs dxs xs' Hs Hm Hi Hl H.
  destruct (C46_residual n solve msolve inv Hs Hm Hi mna D Tf Tt ports step _ xs dxs xs' H Hl) as [Ld _].
  unfold shoot_step in H. destruct updates as [ds|]; [|discriminate]. injection H as -> <-.
  exact (proj1 (damp_nth td dxs xs Ld)).
Qed.

(** * C47: the loop of the shooting method *)

(** Without nonlinear elements, whatever is returned satisfies all the equations; the
    one of the first sample has the last sample, one step earlier, before it. *)
Theorem C47_wrap : forall n solve msolve inv, solves n solve -> msolves n msolve -> inverts n inv ->
  forall mna D Tf Tt step o small left conv xs r, (0 < length xs)%nat ->
  shoot_loop n solve msolve inv mna D Tf Tt [] step (fun dx => get_td o n dx [] None) small left conv xs = SDone (Some r) ->
  length r = length xs /\
  forall k i, (k < length xs)%nat -> (i < n)%nat ->
    euler_eq n mna D Tf Tt [] step (INR k * step) (nth k r vzero) (nth (before (length xs) k) r vzero) i = 0.
Proof.
  intros n solve msolve inv Hs Hm Hi mna D Tf Tt step o small.
  induction left as [|left IH]; intros conv xs r Hl H; cbn [shoot_loop] in H.
  - destruct (shoot_step _ _ _ _ _ _ _ _ _ _ _ _) as [[dxs xs']|] eqn:E; try discriminate.
    destruct (_ && _); [|discriminate]. injection H as <-.
    exact (C46_linear n solve msolve inv Hs Hm Hi mna D Tf Tt step o xs dxs xs' Hl E).
  - destruct (shoot_step _ _ _ _ _ _ _ _ _ _ _ _) as [[dxs xs']|] eqn:E; try discriminate.
    destruct (_ && _).
    + injection H as <-. exact (C46_linear n solve msolve inv Hs Hm Hi mna D Tf Tt step o xs dxs xs' Hl E).
    + pose proof (shoot_step_length _ _ _ _ _ _ _ _ _ _ _ _ _ _ Hs Hm Hi Hl E) as L.
      rewrite <- L in *. exact (IH _ _ _ Hl H).
Qed.
Print Assumptions C47_wrap.

(** The samples are at 0, step, .., period, so the loop is one step too long. *)
Theorem C47_length : forall period points d, 0 < period -> (2 <= points)%nat ->
  exists step, check_step_and_points None (Some points) period d = Ok (points, step) /\
    0 < step /\ INR (points - 1) * step = period /\ INR points * step = period + step.
Proof.
  intros period points d Hp Hn. destruct (C16_points_given period points d Hp Hn) as (st & E & P & Q).
  exists st. split; [exact E|]. split; [exact P|]. rewrite minus_INR by lia. simpl (INR 1). split; [exact Q|]. lra.
Qed.
Print Assumptions C47_length.

(** A solver for one unknown. *)
Definition solve1 (A : mat) (b : vec) : option vec := if Req_EM_T (A 0%nat 0%nat) 0 then None else Some (fun _ => b 0%nat / A 0%nat 0%nat).
Definition msolve1 (A B : mat) : option mat := if Req_EM_T (A 0%nat 0%nat) 0 then None else Some (fun _ _ => B 0%nat 0%nat / A 0%nat 0%nat).
Definition inv1 (A : mat) : option mat := if Req_EM_T (A 0%nat 0%nat) 0 then None else Some (fun _ _ => / A 0%nat 0%nat).
Lemma solves1 : solves 1 solve1.
Proof.
  intros A b x H. unfold solve1 in H. destruct Req_EM_T as [|N]; [discriminate|]. injection H as <-. split.
  - intros i Hi. destruct i; [|lia]. unfold row. simpl. field. exact N.
  - intros y Hy i Hi. destruct i; [|lia]. specialize (Hy 0%nat ltac:(lia)). unfold row in Hy. simpl in Hy.
    rewrite <- Hy. field. exact N.
Qed.
Lemma msolves1 : msolves 1 msolve1.
Proof.
  intros A B X H i j Hi Hj. unfold msolve1 in H. destruct Req_EM_T as [|N]; [discriminate|]. injection H as <-.
  destruct i; [|lia]. destruct j; [|lia]. simpl. field. exact N.
Qed.
Lemma inverts1 : inverts 1 inv1.
Proof.
  intros A W H i j Hi Hj. unfold inv1 in H. destruct Req_EM_T as [|N]; [discriminate|]. injection H as <-.
  destruct i; [|lia]. destruct j; [|lia]. simpl. rewrite dlt_same. field. exact N.
Qed.

(** One node: a conductance 1 S and a capacitor 1 F to ground, fed by a current source
    [(1 + cos (2 pi t)) / 2], of period 1; three points. *)
Definition one_m : mat := fun _ _ => 1.
Definition wave : R -> vec := fun t _ => - ((1 + cos (2 * PI * t)) / 2).
Lemma wave_0 : wave 0 0%nat = -1.
Proof. unfold wave. rewrite Rmult_0_r, cos_0. lra. Qed.
Lemma wave_half : wave (1/2) 0%nat = 0.
Proof. unfold wave. replace (2 * PI * (1/2)) with PI by lra. rewrite cos_PI. lra. Qed.
Lemma wave_1 : wave 1 0%nat = -1.
Proof. unfold wave. rewrite Rmult_1_r, cos_2PI. lra. Qed.

Notation rc_step o := (shoot_step 1 solve1 msolve1 inv1 one_m one_m vzero wave [] (1/2) (fun dx => get_td o 1 dx [] None)).
Notation rc_loop o := (shoot_loop 1 solve1 msolve1 inv1 one_m one_m vzero wave [] (1/2) (fun dx => get_td o 1 dx [] None)).

Lemma rc_equations : forall r,
  (forall k i, (k < 3)%nat -> (i < 1)%nat ->
    euler_eq 1 one_m one_m vzero wave [] (1/2) (INR k * (1/2)) (nth k r vzero) (nth (before 3 k) r vzero) i = 0) ->
  nth 0 r vzero 0%nat = 15/19 /\ nth 1 r vzero 0%nat = 10/19 /\ nth 2 r vzero 0%nat = 13/19.
Proof.
  intros r H.
  pose proof (H 0%nat 0%nat ltac:(lia) ltac:(lia)) as E0.
  pose proof (H 1%nat 0%nat ltac:(lia) ltac:(lia)) as E1.
  pose proof (H 2%nat 0%nat ltac:(lia) ltac:(lia)) as E2.
  unfold euler_eq in *. cbn [before] in *. change (3 - 1)%nat with 2%nat in E0.
  replace (INR 0 * (1/2)) with 0 in E0 by (simpl; lra). replace (INR 1 * (1/2)) with (1/2) in E1 by (simpl; lra).
  replace (INR 2 * (1/2)) with 1 in E2 by (simpl; lra).
  rewrite wave_0 in E0. rewrite wave_half in E1. rewrite wave_1 in E2.
  unfold row, one_m, vzero in *. simpl in E0, E1, E2.
  unfold vzero in *. repeat split; lra.
Qed.

Lemma rc_step_some : forall o a b c, exists dxs xs', rc_step o [a; b; c] = Some (dxs, xs').
Proof.
  intros. unfold shoot_step, lin_points. cbn [points_from last].
  unfold updates, compute_dxN, point.
  repeat change (J_and_T [] _) with (mzero, vzero). cbv iota zeta.
  set (A := mplus mzero (mplus one_m (mscale (C1 (1/2)) one_m))).
  assert (HA : A 0%nat 0%nat = 3) by (unfold A, mplus, mzero, one_m, mscale, C1; lra).
  assert (HB : MB one_m (1/2) 0%nat 0%nat = -2) by (unfold MB, mscale, C0, one_m; lra).
  assert (S1 : forall b', solve1 A b' = Some (fun _ => b' 0%nat / A 0%nat 0%nat)).
  { intros. unfold solve1. destruct Req_EM_T; [lra|reflexivity]. }
  assert (S2 : forall b', msolve1 A b' = Some (fun _ _ => b' 0%nat 0%nat / A 0%nat 0%nat)).
  { intros. unfold msolve1. destruct Req_EM_T; [lra|reflexivity]. }
  cbn [chain1 sum2 chain3]. rewrite !S2. cbn [chain1]. rewrite !S1.
  unfold inv1. destruct Req_EM_T as [E|E].
  - exfalso. unfold mplus, mneg, mmul, eye in E. cbn [rsum] in E. rewrite dlt_same, HA, HB in E. lra.
  - cbn [length pred firstn dx_loop]. unfold compute_dx. rewrite !S1. cbn [app]. eauto.
Qed.

Lemma rc_still : forall o a b c dxs xs', rc_step o [a; b; c] = Some (dxs, xs') ->
  (forall k i, (k < 3)%nat -> (i < 1)%nat ->
    euler_eq 1 one_m one_m vzero wave [] (1/2) (INR k * (1/2)) (nth k [a; b; c] vzero) (nth (before 3 k) [a; b; c] vzero) i = 0) ->
  length dxs = 3%nat /\ nth 0 dxs vzero 0%nat = 0 /\ nth 1 dxs vzero 0%nat = 0 /\ nth 2 dxs vzero 0%nat = 0.
Proof.
  intros o a b c dxs xs' H E.
  destruct (C46_residual 1 _ _ _ solves1 msolves1 inverts1 one_m one_m vzero wave [] (1/2) _ _ _ _ H) as [L F]; [simpl; lia|].
  split; [exact L|]. change (length [a; b; c]) with 3%nat in F. cbv zeta in F.
  pose proof (F 0%nat 0%nat ltac:(lia) ltac:(lia)) as F0. rewrite (E 0%nat 0%nat) in F0 by lia.
  pose proof (F 1%nat 0%nat ltac:(lia) ltac:(lia)) as F1. rewrite (E 1%nat 0%nat) in F1 by lia.
  pose proof (F 2%nat 0%nat ltac:(lia) ltac:(lia)) as F2. rewrite (E 2%nat 0%nat) in F2 by lia.
  repeat change (J_and_T [] _) with (mzero, vzero) in *. cbn [before fst] in *. change (3 - 1)%nat with 2%nat in *.
  unfold row, one_m, mzero in *. cbn [rsum] in *. repeat split; lra.
Qed.

Lemma len3 : forall (l : list vec), length l = 3%nat -> exists a b c, l = [a; b; c].
Proof. intros [|a [|b [|c [|d l]]]] H; try discriminate. eauto. Qed.

Lemma norm_all_0 : forall l, length l = 3%nat ->
  nth 0 l vzero 0%nat = 0 -> nth 1 l vzero 0%nat = 0 -> nth 2 l vzero 0%nat = 0 -> norm_all 1 l = 0.
Proof.
  intros l L E0 E1 E2. destruct (len3 l L) as (a & b & c & ->). simpl in E0, E1, E2.
  unfold norm_all. cbn [fold_left vmax]. rewrite E0, E1, E2. unfold Rlt_b.
  rewrite Rabs_R0, Rmax_left by lra. repeat (destruct Rlt_dec; try reflexivity).
Qed.
Lemma vmax_nonneg : forall m v, 0 <= vmax m v.
Proof. induction m; intros; simpl; [lra|]. apply Rle_trans with (vmax m v); [apply IHm|apply Rmax_l]. Qed.
Lemma norm_all_nonneg : forall n l, 0 <= norm_all n l.
Proof.
  intros n l. unfold norm_all.
  assert (G : forall m, 0 <= m -> 0 <= fold_left (fun m v => if Rlt_b m (vmax n v) then vmax n v else m) l m).
  { induction l as [|v l IH]; intros m Hm; simpl; [exact Hm|]. apply IH. destruct (Rlt_b m (vmax n v)); [apply vmax_nonneg|exact Hm]. }
  apply G. lra.
Qed.

(** From any samples the method converges on this circuit. *)
Lemma rc_exact : forall o a b c dxs xs', rc_step o [a; b; c] = Some (dxs, xs') ->
  exists a' b' c', xs' = [a'; b'; c'] /\
  (forall k i, (k < 3)%nat -> (i < 1)%nat ->
    euler_eq 1 one_m one_m vzero wave [] (1/2) (INR k * (1/2)) (nth k xs' vzero) (nth (before 3 k) xs' vzero) i = 0).
Proof.
  intros o a b c dxs xs' H.
  destruct (C46_linear 1 _ _ _ solves1 msolves1 inverts1 one_m one_m vzero wave (1/2) o [a; b; c] dxs xs') as [L E]; [simpl; lia|exact H|].
  destruct (len3 xs' L) as (a' & b' & c' & X). exists a', b', c'. split; [exact X|exact E].
Qed.

Lemma rc_settles : forall o er ea, 0 <= er -> 0 < ea -> forall left conv a b c,
  (forall k i, (k < 3)%nat -> (i < 1)%nat ->
    euler_eq 1 one_m one_m vzero wave [] (1/2) (INR k * (1/2)) (nth k [a; b; c] vzero) (nth (before 3 k) [a; b; c] vzero) i = 0) ->
  (conv <= 3)%nat -> (3 - conv <= left)%nat ->
  exists r, rc_loop o (small_test 1 er ea) left conv [a; b; c] = SDone (Some r).
Proof.
  intros o er ea Her Hea. induction left as [|left IH]; intros conv a b c E Hc Hl; cbn [shoot_loop];
    destruct (rc_step_some o a b c) as (dxs & xs' & H); rewrite H;
    destruct (rc_still _ _ _ _ _ _ H E) as (L & Z0 & Z1 & Z2);
    assert (Sm : small_test 1 er ea dxs xs' = true)
      by (unfold small_test; rewrite (norm_all_0 dxs L Z0 Z1 Z2); unfold Rlt_b; destruct Rlt_dec as [|F]; [reflexivity|];
          exfalso; apply F; pose proof (Rmult_le_pos er (norm_all 1 xs') Her (norm_all_nonneg 1 xs')); lra);
    rewrite Sm; cbn [andb]; destruct (conv =? 3)%nat eqn:C3; try (eexists; reflexivity).
  - apply Nat.eqb_neq in C3. lia.
  - apply Nat.eqb_neq in C3. destruct (rc_exact _ _ _ _ _ _ H) as (a' & b' & c' & -> & E'). apply IH; [exact E'|lia|lia].
Qed.

(** REFUTED: the source has period 1, the samples 0 and 2 are at the times 0 and 1;
    from any samples the method converges, always to values that differ at the two
    times. *)
Theorem C47_refuted : exists (Tt : R -> vec) points period step,
  check_step_and_points None (Some points) period 100 = Ok (points, step) /\
  INR (points - 1) * step = period /\ (forall t i, Tt (t + period) i = Tt t i) /\
  solves 1 solve1 /\ msolves 1 msolve1 /\ inverts 1 inv1 /\
  forall o er ea start, 0 <= er -> 0 < ea -> length start = points ->
  let run left := shoot_loop 1 solve1 msolve1 inv1 one_m one_m vzero Tt [] step (fun dx => get_td o 1 dx [] None)
                    (small_test 1 er ea) left 0 start in
  (exists r, run 10%nat = SDone (Some r)) /\
  forall left r, run left = SDone (Some r) -> nth 0 r vzero 0%nat <> nth (points - 1) r vzero 0%nat.
Proof.
  exists wave, 3%nat, 1, (1/2).
  split. { unfold check_step_and_points. cbn [Nat.eqb]. replace (INR 3 - 1) with 2 by (simpl; lra). reflexivity. }
  split; [simpl; lra|].
  split. { intros t i. unfold wave. replace (2 * PI * (t + 1)) with (2 * PI * t + 2 * INR 1 * PI) by (simpl; ring). rewrite cos_period. reflexivity. }
  split; [exact solves1|]. split; [exact msolves1|]. split; [exact inverts1|].
  intros o er ea start Her Hea L run. split.
  - destruct (len3 start L) as (a & b & c & ->). unfold run. cbn [shoot_loop].
    destruct (rc_step_some o a b c) as (dxs & xs' & H). rewrite H.
    change (0 =? 3)%nat with false. rewrite andb_false_r.
    destruct (rc_exact _ _ _ _ _ _ H) as (a' & b' & c' & -> & E').
    change (exists r, rc_loop o (small_test 1 er ea) 9 (if small_test 1 er ea dxs [a'; b'; c'] then 1%nat else 0%nat) [a'; b'; c'] = SDone (Some r)).
    apply rc_settles; auto; destruct small_test; lia.
  - intros left r H. unfold run in H.
    destruct (C47_wrap 1 _ _ _ solves1 msolves1 inverts1 one_m one_m vzero wave (1/2) o (small_test 1 er ea) left 0 start r ltac:(lia) H) as [_ E].
    rewrite L in E. destruct (rc_equations r E) as (E0 & _ & E2). change (3 - 1)%nat with 2%nat. rewrite E0, E2. lra.
Qed.
Print Assumptions C47_refuted.

(** * C48: the brute-force system *)
Lemma rsum_blocks : forall n p f, rsum (p * n) f = rsum p (fun c => rsum n (fun j => f (c * n + j)%nat)).
Proof.
  intros n p f. induction p as [|p IH]; [reflexivity|].
  replace (S p * n)%nat with (p * n + n)%nat by lia. rewrite rsum_app, IH. reflexivity.
Qed.

Lemma rsum_two : forall p a b f, (a < p)%nat -> (b < p)%nat -> a <> b ->
  (forall c, (c < p)%nat -> c <> a -> c <> b -> f c = 0) -> rsum p f = f a + f b.
Proof.
  intros p a b f Ha Hb Hab Z.
  rewrite (rsum_ext p f (fun c => (if (c =? a)%nat then f c else 0) + (if (c =? b)%nat then f c else 0))).
  - rewrite rsum_plus, !rsum_single by auto. reflexivity.
  - intros c Hc. destruct (Nat.eqb_spec c a), (Nat.eqb_spec c b); subst; try lra; try congruence. rewrite Z by auto. lra.
Qed.

Lemma div_block : forall n k i, (i < n)%nat -> ((k * n + i) / n = k)%nat.
Proof. intros. rewrite Nat.div_add_l by lia. rewrite Nat.div_small by auto. lia. Qed.
Lemma mod_block : forall n k i, (i < n)%nat -> ((k * n + i) mod n = i)%nat.
Proof. intros. rewrite Nat.add_comm, Nat.mod_add by lia. apply Nat.mod_small; auto. Qed.

Section C48.
  Variables n points : nat.
  Variables mna D : mat.
  Variable step : R.
  Hypothesis Hn : (0 < n)%nat.
  Hypothesis Hp : (2 <= points)%nat.

  Lemma set_sub_same : forall li ci m b i j, (i < n)%nat -> (j < n)%nat ->
    set_sub n (li * n) (ci * n) m b (li * n + i)%nat (ci * n + j)%nat = b i j.
  Proof.
    intros. unfold set_sub.
    replace (li * n <=? li * n + i)%nat with true by (symmetry; apply Nat.leb_le; lia).
    replace (li * n + i <? li * n + n)%nat with true by (symmetry; apply Nat.ltb_lt; lia).
    replace (ci * n <=? ci * n + j)%nat with true by (symmetry; apply Nat.leb_le; lia).
    replace (ci * n + j <? ci * n + n)%nat with true by (symmetry; apply Nat.ltb_lt; lia).
    cbn [andb]. f_equal; lia.
  Qed.
  Lemma in_block : forall l li i, (i < n)%nat -> (l * n <= li * n + i < l * n + n)%nat -> l = li.
  Proof. intros. nia. Qed.
  Lemma set_sub_other : forall l c li ci m b i j, (i < n)%nat -> (j < n)%nat -> (l, c) <> (li, ci) ->
    set_sub n (l * n) (c * n) m b (li * n + i)%nat (ci * n + j)%nat = m (li * n + i)%nat (ci * n + j)%nat.
  Proof.
    intros. unfold set_sub.
    destruct ((l * n <=? li * n + i)%nat && (li * n + i <? l * n + n)%nat) eqn:E1; [|reflexivity].
    destruct ((c * n <=? ci * n + j)%nat && (ci * n + j <? c * n + n)%nat) eqn:E2; [|reflexivity].
    apply andb_true_iff in E1, E2. rewrite Nat.leb_le, Nat.ltb_lt in E1, E2.
    apply in_block in E1, E2; auto. subst. congruence.
  Qed.

  Definition entry (b : option mat) (i j : nat) : R := match b with Some m => m i j | None => 0 end.
  Notation putm := (put n points mna D step).
  Lemma put_other : forall l c li ci m i j, (i < n)%nat -> (j < n)%nat -> (l, c) <> (li, ci) ->
    putm m (l, c) (li * n + i)%nat (ci * n + j)%nat = m (li * n + i)%nat (ci * n + j)%nat.
  Proof. intros. unfold put. cbn [fst snd]. destruct block; [|reflexivity]. apply set_sub_other; auto. Qed.
  Lemma pair_dec : forall a b : nat * nat, {a = b} + {a <> b}.
  Proof. decide equality; apply Nat.eq_dec. Qed.
  Lemma fold_out : forall li ci i j, (i < n)%nat -> (j < n)%nat -> forall L m, ~ In (li, ci) L ->
    fold_left putm L m (li * n + i)%nat (ci * n + j)%nat = m (li * n + i)%nat (ci * n + j)%nat.
  Proof.
    intros li ci i j Hi Hj. induction L as [|[l c] L IH]; intros m NI; cbn [fold_left]; [reflexivity|].
    rewrite IH by (intro; apply NI; right; auto). apply put_other; auto. intro E. apply NI. left. exact E.
  Qed.
  Lemma fold_in : forall li ci i j, (i < n)%nat -> (j < n)%nat -> forall L m, In (li, ci) L ->
    m (li * n + i)%nat (ci * n + j)%nat = 0 \/ m (li * n + i)%nat (ci * n + j)%nat = entry (block points mna D step li ci) i j ->
    fold_left putm L m (li * n + i)%nat (ci * n + j)%nat = entry (block points mna D step li ci) i j.
  Proof.
    intros li ci i j Hi Hj. induction L as [|[l c] L IH]; intros m HI Hm; cbn [fold_left]; [destruct HI|].
    assert (K : (l, c) = (li, ci) -> putm m (l, c) (li * n + i)%nat (ci * n + j)%nat = entry (block points mna D step li ci) i j).
    { intro E. injection E as -> ->. unfold put. cbn [fst snd].
      destruct (block points mna D step li ci); cbn [entry] in *; [apply set_sub_same; auto|destruct Hm; auto]. }
    destruct (in_dec pair_dec (li, ci) L) as [HL|NL].
    - apply IH; [exact HL|]. destruct (pair_dec (l, c) (li, ci)) as [E|E]; [right; auto|]. rewrite put_other by auto. exact Hm.
    - rewrite fold_out by auto. apply K. destruct HI; [assumption|contradiction].
  Qed.

  (** The blocks of the matrix. *)
  Lemma CMAT_entry : forall li ci i j, (li < points)%nat -> (ci < points)%nat -> (i < n)%nat -> (j < n)%nat ->
    CMAT n points mna D step (li * n + i)%nat (ci * n + j)%nat = entry (block points mna D step li ci) i j.
  Proof.
    intros. unfold CMAT. apply fold_in; auto. apply in_prod; apply in_seq; lia.
  Qed.

  Lemma CMAT_row : forall li i x, (li < points)%nat -> (i < n)%nat ->
    row (points * n) (CMAT n points mna D step) (li * n + i) x
    = rsum points (fun ci => match block points mna D step li ci with Some b => row n b i (sample n x ci) | None => 0 end).
  Proof.
    intros li i x Hl Hi. unfold row at 1. rewrite rsum_blocks. apply rsum_ext. intros ci Hc.
    rewrite (rsum_ext n _ (fun j => entry (block points mna D step li ci) i j * sample n x ci j)).
    - destruct block; [reflexivity|]. cbn [entry]. apply rsum_0. intros. ring.
    - intros j Hj. rewrite CMAT_entry by auto. reflexivity.
  Qed.

  Lemma CMAT_row_first : forall i x, (i < n)%nat ->
    row (points * n) (CMAT n points mna D step) i x = sample n x 0 i - sample n x (points - 1) i.
  Proof.
    intros i x Hi. replace i with (0 * n + i)%nat at 1 by lia. rewrite CMAT_row by lia.
    rewrite (rsum_two points 0 (points - 1)); try lia.
    - unfold block. cbn [Nat.eqb]. replace (points - 1 =? 0)%nat with false by (symmetry; apply Nat.eqb_neq; lia).
      rewrite Nat.eqb_refl. rewrite row_neg_m, !row_eye by auto. lra.
    - intros c Hc N0 N1. unfold block. cbn [Nat.eqb].
      rewrite (proj2 (Nat.eqb_neq c 0) N0), (proj2 (Nat.eqb_neq c (points - 1)) N1). reflexivity.
  Qed.
  Lemma CMAT_row_other : forall k i x, (1 <= k < points)%nat -> (i < n)%nat ->
    row (points * n) (CMAT n points mna D step) (k * n + i) x
    = row n mna i (sample n x k) + row n D i (fun j => (sample n x k j - sample n x (k - 1) j) / step).
  Proof.
    intros k i x Hk Hi. rewrite CMAT_row by lia. rewrite (rsum_two points k (k - 1)); try lia.
    - unfold block. replace (k =? 0)%nat with false by (symmetry; apply Nat.eqb_neq; lia).
      rewrite Nat.eqb_refl. replace (k - 1 =? k)%nat with false by (symmetry; apply Nat.eqb_neq; lia).
      replace (S (k - 1)) with k by lia. rewrite Nat.eqb_refl.
      rewrite row_plus_m, !row_scale_m, rate_split. lra.
    - intros c Hc N0 N1. unfold block. replace (k =? 0)%nat with false by (symmetry; apply Nat.eqb_neq; lia).
      rewrite (proj2 (Nat.eqb_neq c k) N0). replace (S c =? k)%nat with false by (symmetry; apply Nat.eqb_neq; lia). reflexivity.
  Qed.

  Lemma blocks_0 : forall f i, (i < n)%nat -> blocks n f i = 0.
  Proof. intros. unfold blocks. rewrite Nat.div_small by auto. reflexivity. Qed.
  Lemma blocks_k : forall f k i, (1 <= k)%nat -> (i < n)%nat -> blocks n f (k * n + i)%nat = f k i.
  Proof.
    intros. unfold blocks. rewrite div_block, mod_block by auto.
    replace (k =? 0)%nat with false by (symmetry; apply Nat.eqb_neq; lia). reflexivity.
  Qed.

  Variable Tf : vec.
  Variable Tt : R -> vec.
  Variable ports : list nlport.

  (** The residual says that the first and the last sample agree, and that every other
      sample follows the one before it by an implicit Euler step. *)
  Theorem C48_residual : forall x,
    (forall i, (i < n)%nat ->
       bf_residual n points mna D step Tf Tt ports x i = sample n x 0 i - sample n x (points - 1) i) /\
    (forall k i, (1 <= k < points)%nat -> (i < n)%nat ->
       bf_residual n points mna D step Tf Tt ports x (k * n + i)%nat
       = euler_eq n mna D Tf Tt ports step (INR k * step) (sample n x k) (sample n x (k - 1)) i).
  Proof.
    intros x. split.
    - intros i Hi. unfold bf_residual, big_T, big_Tf, big_Tt. rewrite CMAT_row_first, !blocks_0 by auto. lra.
    - intros k i Hk Hi. unfold bf_residual, big_T, big_Tf, big_Tt. rewrite CMAT_row_other, !blocks_k by (auto; lia).
      unfold euler_eq. lra.
  Qed.

  (** The unknowns of the residual. *)
  Definition periodic_solution (x : vec) : Prop :=
    (forall i, (i < n)%nat -> sample n x 0 i = sample n x (points - 1) i) /\
    (forall k i, (1 <= k < points)%nat -> (i < n)%nat ->
       euler_eq n mna D Tf Tt ports step (INR k * step) (sample n x k) (sample n x (k - 1)) i = 0).

  Theorem C48_zero : forall x,
    (forall r, (r < points * n)%nat -> bf_residual n points mna D step Tf Tt ports x r = 0) <-> periodic_solution x.
  Proof.
    intros x. destruct (C48_residual x) as [R0 Rk]. split.
    - intro H. split.
      + intros i Hi. assert (E : bf_residual n points mna D step Tf Tt ports x i = 0) by (apply H; nia).
        rewrite R0 in E by auto. lra.
      + intros k i Hk Hi. rewrite <- Rk by auto. apply H. nia.
    - intros [P0 Pk] r Hr.
      assert (Er : r = ((r / n) * n + r mod n)%nat) by (rewrite Nat.mul_comm; apply Nat.div_mod; lia).
      assert (Hm : (r mod n < n)%nat) by (apply Nat.mod_upper_bound; lia).
      assert (Hq : (r / n < points)%nat) by (apply Nat.div_lt_upper_bound; lia).
      rewrite Er. destruct (Nat.eq_dec (r / n) 0) as [Z|Z].
      + rewrite Z. rewrite Nat.mul_0_l, Nat.add_0_l. rewrite R0 by auto. rewrite P0 by auto. lra.
      + rewrite Rk by (auto; lia). apply Pk; auto. lia.
  Qed.
End C48.
Print Assumptions C48_residual.
Print Assumptions C48_zero.

(** [J] is made of the derivatives of the single samples. *)
Lemma big_J_row : forall n points ports, (0 < n)%nat -> forall k i x dx, (1 <= k < points)%nat -> (i < n)%nat ->
  row (points * n) (big_J n ports x) (k * n + i) dx = row n (fst (J_and_T ports (sample n x k))) i (sample n dx k).
Proof.
  intros n points ports Hn k i x dx Hk Hi. unfold row at 1. rewrite rsum_blocks.
  rewrite (rsum_ext points _ (fun c => if (c =? k)%nat then row n (fst (J_and_T ports (sample n x k))) i (sample n dx c) else 0)).
  - rewrite rsum_single by lia. reflexivity.
  - intros c Hc. unfold big_J. rewrite div_block, mod_block by auto.
    replace (k =? 0)%nat with false by (symmetry; apply Nat.eqb_neq; lia).
    destruct (Nat.eqb_spec c k) as [->|N].
    + unfold row. apply rsum_ext. intros j Hj. rewrite div_block, mod_block by auto. rewrite Nat.eqb_refl. reflexivity.
    + apply rsum_0. intros j Hj. rewrite div_block by auto.
      replace (k =? c)%nat with false by (symmetry; apply Nat.eqb_neq; congruence). ring.
Qed.
Lemma big_J_row0 : forall n points ports, (0 < n)%nat -> forall i x dx, (i < n)%nat -> row (points * n) (big_J n ports x) i dx = 0.
Proof.
  intros. unfold row. apply rsum_0. intros. unfold big_J. rewrite (Nat.div_small i) by auto. simpl. ring.
Qed.

(** Every iteration solves the linearisation of these equations. *)
Theorem C48_newton : forall n points mna D step Tf Tt ports solve td, (0 < n)%nat -> (2 <= points)%nat ->
  solves (points * n) solve ->
  forall x dx x', bf_step n points mna D step Tf Tt ports solve td x = Some (dx, x') ->
  (forall i, (i < n)%nat -> sample n x 0 i + sample n dx 0 i = sample n x (points - 1) i + sample n dx (points - 1) i) /\
  (forall k i, (1 <= k < points)%nat -> (i < n)%nat ->
     euler_eq n mna D Tf Tt ports step (INR k * step) (sample n x k) (sample n x (k - 1)) i
     + (row n mna i (sample n dx k) + row n D i (fun j => (sample n dx k j - sample n dx (k - 1) j) / step)
        + row n (fst (J_and_T ports (sample n x k))) i (sample n dx k)) = 0).
Proof.
  intros n points mna D step Tf Tt ports solve td Hn Hp Hs x dx x' H. unfold bf_step in H.
  destruct (solve _ _) as [y|] eqn:E; [|discriminate]. injection H as -> _.
  destruct (Hs _ _ _ E) as [E1 _]. destruct (C48_residual n points mna D step Hn Hp Tf Tt ports x) as [R0 Rk]. split.
  - intros i Hi. assert (F := E1 i ltac:(nia)). unfold vneg in F. rewrite R0 in F by auto.
    rewrite row_plus_m, big_J_row0, CMAT_row_first in F by auto. lra.
  - intros k i Hk Hi. assert (F := E1 (k * n + i)%nat ltac:(nia)). unfold vneg in F. rewrite Rk in F by auto.
    rewrite row_plus_m, big_J_row, CMAT_row_other in F by auto. lra.
Qed.
Print Assumptions C48_newton.

Lemma min_td_1 : forall n points o dx, min_td n points (fun d => get_td o n d [] None) dx = 1.
Proof.
  intros. unfold min_td. rewrite td_no_ports, Rabs_R1.
  induction (seq 1 (points - 1)) as [|k l IH]; [reflexivity|]. cbn [fold_left].
  rewrite td_no_ports, Rabs_R1, Rmin_left by lra. exact IH.
Qed.

Lemma bf_step_periodic : forall n points mna D step Tf Tt solve o, (0 < n)%nat -> (2 <= points)%nat -> solves (points * n) solve ->
  forall x0 dx x', bf_step n points mna D step Tf Tt [] solve (fun dx => get_td o n dx [] None) x0 = Some (dx, x') ->
    periodic_solution n points mna D step Tf Tt [] x' /\ forall i, x' i = x0 i + dx i.
Proof.
  intros n points mna D step Tf Tt solve o Hn Hp Hs.
  intros x0 dx x' H. destruct (C48_newton n points mna D step Tf Tt [] solve _ Hn Hp Hs _ _ _ H) as [N0 Nk].
  assert (X1 : forall i, x' i = x0 i + dx i).
  { unfold bf_step in H. destruct (solve _ _); [|discriminate]. injection H as -> <-.
    intros. unfold vplus, vscale. rewrite min_td_1. ring. }
  split; [|exact X1].
  assert (X : forall k i, sample n x' k i = sample n x0 k i + sample n dx k i) by (intros; apply X1).
  split.
  - intros i Hi. rewrite !X. auto.
  - intros k i Hk Hi. specialize (Nk k i Hk Hi). unfold euler_eq in *.
    repeat change (J_and_T [] ?v) with (mzero, vzero) in *.
    change (J_and_T [] (sample n x' k)) with (mzero, vzero). cbn [fst snd] in *.
    rewrite (row_ext_v n mna i (sample n x' k) (vplus (sample n x0 k) (sample n dx k))) by (intros; apply X).
    rewrite (row_ext_v n D i (fun j => (sample n x' k j - sample n x' (k - 1) j) / step)
      (vplus (fun j => (sample n x0 k j - sample n x0 (k - 1) j) / step) (fun j => (sample n dx k j - sample n dx (k - 1) j) / step))).
    2:{ intros j _. rewrite !X. unfold vplus, Rdiv. ring. }
    rewrite !row_plus_v.
    assert (Z : row n mzero i (sample n dx k) = 0) by (unfold row, mzero; apply rsum_0; intros; ring).
    rewrite Z in Nk. lra.
Qed.
Lemma bf_periodic : forall n points mna D step Tf Tt solve o, (0 < n)%nat -> (2 <= points)%nat -> solves (points * n) solve ->
  forall check left x0 x,
    bf_loop n points mna D step Tf Tt [] solve (fun dx => get_td o n dx [] None) check left x0 = BDone (Some x) ->
    periodic_solution n points mna D step Tf Tt [] x.
Proof.
  intros n points mna D step Tf Tt solve o Hn Hp Hs.
  intros check.
  assert (G : forall x0 dx x', bf_step n points mna D step Tf Tt [] solve (fun dx => get_td o n dx [] None) x0 = Some (dx, x') ->
    periodic_solution n points mna D step Tf Tt [] x').
  { intros x0 dx x' H. exact (proj1 (bf_step_periodic n points mna D step Tf Tt solve o Hn Hp Hs _ _ _ H)). }
  induction left as [|left IH]; intros x0 x H; cbn [bf_loop] in H;
    destruct (bf_step _ _ _ _ _ _ _ _ _ _ x0) as [[dx x']|] eqn:F; try discriminate;
    destruct (check dx x'); try discriminate.
  - injection H as <-. exact (G _ _ _ F).
  - injection H as <-. exact (G _ _ _ F).
  - exact (IH _ _ H).
Qed.
(** Without nonlinear elements what the loop returns is an exact periodic solution over
    the requested period. *)
Theorem C48_linear : forall n points mna D period d Tf Tt solve o, (0 < n)%nat -> (2 <= points)%nat -> 0 < period ->
  solves (points * n) solve ->
  exists step, check_step_and_points None (Some points) period d = Ok (points, step) /\
    INR (points - 1) * step = period /\
    forall check left x0 x,
      bf_loop n points mna D step Tf Tt [] solve (fun dx => get_td o n dx [] None) check left x0 = BDone (Some x) ->
      periodic_solution n points mna D step Tf Tt [] x.
Proof.
  intros n points mna D period d Tf Tt solve o Hn Hp Hper Hs.
  destruct (C47_length period points d Hper Hp) as (step & E & _ & P & _). exists step. split; [exact E|]. split; [exact P|].
  intros check left x0 x. apply bf_periodic; assumption.
Qed.
Print Assumptions C48_linear.

(** Three samples of one unknown. *)
Example C48_example : forall x : vec,
  let r := bf_residual 1 3 one_m one_m (1/2) vzero wave [] x in
  r 0%nat = x 0%nat - x 2%nat /\ r 1%nat = 3 * x 1%nat - 2 * x 0%nat /\ r 2%nat = 3 * x 2%nat - 2 * x 1%nat - 1.
Proof.
  intros x r. unfold r.
  destruct (C48_residual 1 3 one_m one_m (1/2) ltac:(lia) ltac:(lia) vzero wave [] x) as [R0 Rk].
  split; [rewrite R0 by lia; reflexivity|].
  pose proof (Rk 1%nat 0%nat ltac:(lia) ltac:(lia)) as E1. change (1 * 1 + 0)%nat with 1%nat in E1.
  pose proof (Rk 2%nat 0%nat ltac:(lia) ltac:(lia)) as E2. change (2 * 1 + 0)%nat with 2%nat in E2.
  split; [rewrite E1|rewrite E2]; unfold euler_eq.
  - replace (INR 1 * (1/2)) with (1/2) by (simpl; lra). rewrite wave_half. change (J_and_T [] _) with (mzero, vzero).
    unfold row, one_m, vzero, sample. simpl. lra.
  - replace (INR 2 * (1/2)) with 1 by (simpl; lra). rewrite wave_1. change (J_and_T [] _) with (mzero, vzero).
    unfold row, one_m, vzero, sample. simpl. lra.
Qed.

(** * C118: the brute-force method on small circuits *)

(** As long as unknowns times points do not pass the limit for dense matrices
    (400), the analysis never returns: neither a solution nor the [None] of a failed
    one. *)
Theorem C118_small_fails : forall n points mna D step Tf Tt ports solve msolve td check limit max_iter x0,
  (1 < n * points <= limit)%nat ->
  let r := bf_solve n points mna D step Tf Tt ports solve msolve td check limit max_iter x0 in
  r = BSing \/ r = BErr ValueError.
Proof.
  intros n points mna D step Tf Tt ports solve msolve td check limit max_iter x0 H r. unfold r, bf_solve.
  replace (limit <? n * points)%nat with false by (symmetry; apply Nat.ltb_ge; lia).
  unfold bf_dense. destruct (msolve _ _); [right|left; reflexivity].
  rewrite (Nat.mul_comm points n). unfold max_rows. destruct (n * points)%nat as [|[|k]] eqn:E; try lia. reflexivity.
Qed.
Print Assumptions C118_small_fails.

(** Above the limit the loop is run, and it returns if the test passes. *)
Theorem C118_large : forall n points mna D step Tf Tt ports solve msolve td check limit max_iter x0 dx x,
  (limit < n * points)%nat ->
  bf_step n points mna D step Tf Tt ports solve td x0 = Some (dx, x) -> check dx x = true ->
  bf_solve n points mna D step Tf Tt ports solve msolve td check limit max_iter x0 = BDone (Some x).
Proof.
  intros n points mna D step Tf Tt ports solve msolve td check limit max_iter x0 dx x H E C. unfold bf_solve.
  apply Nat.ltb_lt in H. rewrite H. destruct max_iter; cbn [bf_loop]; rewrite E, C; reflexivity.
Qed.
Print Assumptions C118_large.

(** REFUTED: the default hundred points and 3 unknowns (a voltage divider with its
    source), with the default limit; whatever the matrices and the solvers. *)
Theorem C118_refuted : exists n points, points = 100%nat /\
  forall mna D step Tf Tt ports solve msolve td check max_iter x0 x,
  bf_solve n points mna D step Tf Tt ports solve msolve td check 400 max_iter x0 <> BDone x.
Proof.
  exists 3%nat, 100%nat. split; [reflexivity|]. intros. intro H.
  destruct (C118_small_fails 3 100 mna D step Tf Tt ports solve msolve td check 400 max_iter x0) as [E|E]; [simpl; lia| |];
    rewrite H in E; discriminate.
Qed.
Print Assumptions C118_refuted.
