(** Pole-zero analysis: C62, C119-C122. *)
From Coq Require Import Reals String List Bool Arith Lia Lra Psatz.
From Verif Require Import Base Rsum Mna MnaSpec MnaFacts DynFacts Newton NewtonFacts Pss PropsPss Pz.
Import ListNotations.
Open Scope R_scope.

(** * Specification *)
Definition nonzero (n : nat) (xr xi : vec) : Prop := exists i, (i < n)%nat /\ (xr i <> 0 \/ xi i <> 0).

(** [(M + s D) x = 0] with complex [s] and [x]. *)
Definition mode (N : nat) (M D : mat) (s : cx) (xr xi : vec) : Prop := forall i, (i < N)%nat ->
  row N M i xr + (fst s * row N D i xr - snd s * row N D i xi) = 0 /\
  row N M i xi + (fst s * row N D i xi + snd s * row N D i xr) = 0.
(** A natural frequency: the circuit without sources has a solution [x exp(s t)]. *)
Definition natural (N : nat) (M D : mat) (s : cx) : Prop := exists xr xi, nonzero N xr xi /\ mode N M D s xr xi.

(** A zero: with an input [a exp(s t)] on the source a solution [x exp(s t)] without
    output exists, the two not both null; [b] is the place of the source in the
    equations. *)
Definition blocks_output (N : nat) (M D : mat) (b : vec) (o : nat * nat) (s : cx) : Prop :=
  exists xr xi ar ai, (nonzero N xr xi \/ ar <> 0 \/ ai <> 0) /\
    (forall i, (i < N)%nat ->
      row N M i xr + (fst s * row N D i xr - snd s * row N D i xi) + ar * b i = 0 /\
      row N M i xi + (fst s * row N D i xi + snd s * row N D i xr) + ai * b i = 0) /\
    read_nodes (fst o) (snd o) xr = 0 /\ read_nodes (fst o) (snd o) xi = 0.

(** Frequencies in Hz are given, natural frequencies are in rad/s. *)
Definition rads (p : cx) : cx := (2 * PI * fst p, 2 * PI * snd p).

(** What numpy promises. *)
Definition eig (m : nat) (A : mat) (l : cx) (yr yi : vec) : Prop := forall a, (a < m)%nat ->
  row m A a yr = fst l * yr a - snd l * yi a /\ row m A a yi = fst l * yi a + snd l * yr a.
Definition eigenvalues (m : nat) (A : mat) (ls : list cx) : Prop := forall l,
  In l ls <-> exists yr yi, nonzero m yr yi /\ eig m A l yr yi.
Definition is_inverse (N : nat) (A W : mat) : Prop := forall i j, (i < N)%nat -> (j < N)%nat ->
  rsum N (fun k => A i k * W k j) = dlt i j /\ rsum N (fun k => W i k * A k j) = dlt i j.
Definition singular (m : nat) (A : mat) : Prop :=
  exists y, (exists a, (a < m)%nat /\ y a <> 0) /\ forall a, (a < m)%nat -> row m A a y = 0.
Definition distinct_vdes (es : list lelem) : Prop := NoDup (map (fun e => upper (lid e)) (vdes es)).
Definition no_coupling (es : list lelem) : Prop := Forall (fun e => match e with EK _ _ _ _ _ => False | _ => True end) es.
(** The circuit with a unit value on the source called [id] and the others off. *)
Definition drive (id : string) (e : lelem) : lelem :=
  match e with
  | EV i n1 n2 _ _ => EV i n1 n2 (if String.eqb i id then 1 else 0) false
  | EI i n1 n2 _ _ => EI i n1 n2 (if String.eqb i id then 1 else 0) false
  | e => e
  end.

(** * The algebra *)
Lemma all_or_some : forall m (f g : vec), (forall a, (a < m)%nat -> f a = 0 /\ g a = 0) \/ nonzero m f g.
Proof.
  induction m as [|m IH]; intros f g; [left; intros; lia|].
  destruct (IH f g) as [A|(a & Ha & H)]; [|right; exists a; split; [lia|exact H]].
  destruct (Req_EM_T (f m) 0) as [F|F], (Req_EM_T (g m) 0) as [G|G];
    try (right; exists m; split; [lia|]; tauto).
  left. intros a Ha. destruct (Nat.eq_dec a m) as [->|]; [auto|apply A; lia].
Qed.

Section MD.
  Variables N m : nat.
  Variables M D W : mat.
  Variable sh : R.
  Variable inj : nat -> vec.
  Variable rd : nat -> vec -> R.
  Variable val : nat -> R.
  Notation A := (mplus M (mscale sh D)).
  Hypothesis HD : forall i x, (i < N)%nat -> row N D i x = rsum m (fun b => val b * inj b i * rd b x).
  Hypothesis Hlin : forall a c x d y, (a < m)%nat -> rd a (fun i => c * x i + d * y i) = c * rd a x + d * rd a y.
  Hypothesis Hext : forall a x y, (a < m)%nat -> (forall i, (i < N)%nat -> x i = y i) -> rd a x = rd a y.
  Hypothesis Hinv : forall i j, (i < N)%nat -> (j < N)%nat ->
    rsum N (fun k => A i k * W k j) = dlt i j /\ rsum N (fun k => W i k * A k j) = dlt i j.

  Definition UV (y : vec) : vec := fun i => rsum m (fun b => val b * inj b i * y b).
  Notation tv := (TV N W).
  Definition tcm : mat := fun a b => rd a (tv (inj b)) * val b.

  Lemma rd_zero : forall a, (a < m)%nat -> rd a (fun _ => 0) = 0.
  Proof.
    intros a Ha. rewrite (Hext a _ (fun i => 0 * 0 + 0 * 0)) by (auto; intros; ring).
    rewrite (Hlin a 0 (fun _ => 0) 0 (fun _ => 0)) by auto. ring.
  Qed.
  Lemma rd_rsum : forall p a (c : nat -> R) (v : nat -> vec), (a < m)%nat ->
    rd a (fun i => rsum p (fun b => c b * v b i)) = rsum p (fun b => c b * rd a (v b)).
  Proof.
    induction p as [|p IH]; intros a c v Ha; cbn [rsum]; [apply rd_zero; auto|].
    rewrite (Hext a _ (fun i => 1 * rsum p (fun b => c b * v b i) + c p * v p i)) by (auto; intros; ring).
    rewrite (Hlin a 1 (fun i => rsum p (fun b => c b * v b i)) (c p) (v p)) by auto. rewrite IH by auto. ring.
  Qed.
  Lemma tv_UV : forall y i, tv (UV y) i = rsum m (fun b => (val b * y b) * tv (inj b) i).
  Proof.
    intros. unfold TV, mvec, row, UV.
    transitivity (rsum N (fun k => rsum m (fun b => -1 * (W i k * (val b * inj b k * y b))))).
    - rewrite <- rsum_scal. apply rsum_ext. intros k _. rewrite rsum_scal, <- rsum_scal. reflexivity.
    - rewrite rsum_swap. apply rsum_ext. intros b _. rewrite <- !rsum_scal. apply rsum_ext. intros. ring.
  Qed.
  Lemma rd_tv_UV : forall a y, (a < m)%nat -> rd a (tv (UV y)) = row m tcm a y.
  Proof.
    intros a y Ha. rewrite (Hext a _ (fun i => rsum m (fun b => (val b * y b) * tv (inj b) i))) by (auto; intros; apply tv_UV).
    rewrite (rd_rsum m a (fun b => val b * y b) (fun b => tv (inj b))) by auto.
    unfold row, tcm. apply rsum_ext. intros. ring.
  Qed.
  Lemma A_tv : forall b i, (i < N)%nat -> row N A i (tv b) = - b i.
  Proof.
    intros b i Hi.
    rewrite (row_ext_v N A i (tv b) (vneg (mvec N W b))) by (intros; unfold TV, vneg; ring).
    rewrite row_neg_v, row_mmul. f_equal. rewrite <- (row_eye N i b Hi). apply row_ext; [|reflexivity].
    intros j Hj. unfold mmul. apply Hinv; auto.
  Qed.
  Lemma solve_A : forall b x, (forall i, (i < N)%nat -> row N A i x = - b i) -> forall i, (i < N)%nat -> x i = tv b i.
  Proof.
    intros b x H i Hi. rewrite <- (row_eye N i x Hi).
    rewrite (row_ext N eye (mmul N W A) i x x) by (auto; intros j Hj; unfold mmul; symmetry; apply Hinv; auto).
    rewrite <- row_mmul. unfold TV, mvec. rewrite (row_ext_v N W i _ (vneg b)) by (intros; unfold vneg; auto).
    rewrite row_neg_v. lra.
  Qed.

  (** Response to reactive currents [y] and to the input [c b]. *)
  Definition resp (y : vec) (c : R) (b : vec) : vec := fun i => tv (UV y) i + c * tv b i.
  Lemma A_resp : forall y c b i, (i < N)%nat -> row N A i (resp y c b) = - UV y i - c * b i.
  Proof.
    intros. rewrite (row_ext_v N A i _ (vplus (tv (UV y)) (vscale c (tv b)))) by (intros; reflexivity).
    rewrite row_plus_v, row_scale_v, !A_tv by auto. ring.
  Qed.
  Lemma rd_resp : forall a y c b, (a < m)%nat -> rd a (resp y c b) = row m tcm a y + c * rd a (tv b).
  Proof.
    intros. rewrite (Hext a _ (fun i => 1 * tv (UV y) i + c * tv b i)) by (auto; intros; unfold resp; ring).
    rewrite (Hlin a 1 (tv (UV y)) c (tv b)) by auto. rewrite rd_tv_UV by auto. ring.
  Qed.
  Lemma solve_resp : forall x z c b, (forall i, (i < N)%nat -> row N A i x = - UV z i - c * b i) ->
    forall i, (i < N)%nat -> x i = resp z c b i.
  Proof.
    intros x z c b H i Hi. unfold resp.
    rewrite (solve_A (fun i => UV z i + c * b i) x) by (auto; intros; rewrite H by auto; ring).
    unfold TV, mvec. rewrite (row_ext_v N W i _ (vplus (UV z) (vscale c b))) by (intros; reflexivity).
    rewrite row_plus_v, row_scale_v. ring.
  Qed.
  Lemma A_split : forall i x, row N A i x = row N M i x + sh * row N D i x.
  Proof. intros. rewrite row_plus_m, row_scale_m. reflexivity. Qed.
  Lemma D_UV : forall i x, (i < N)%nat -> row N D i x = UV (fun b => rd b x) i.
  Proof. intros. apply HD; auto. Qed.
  Lemma UV_lin : forall c x d y i, UV (fun b => c * x b + d * y b) i = c * UV x i + d * UV y i.
  Proof. intros. unfold UV. rewrite <- !rsum_scal, <- rsum_plus. apply rsum_ext. intros. ring. Qed.
  Lemma UV_ext : forall x y i, (forall b, (b < m)%nat -> x b = y b) -> UV x i = UV y i.
  Proof. intros. unfold UV. apply rsum_ext. intros. rewrite H; auto. Qed.

  Definition sq (z : cx) : R := fst z * fst z + snd z * snd z.
  Lemma sq_pos : forall z : cx, fst z <> 0 \/ snd z <> 0 -> 0 < sq z.
  Proof.
    intros [a b] H. unfold sq. cbn [fst snd] in *.
    pose proof (Rle_0_sqr a). pose proof (Rle_0_sqr b). unfold Rsqr in *.
    destruct H as [H|H]; [assert (0 < a * a) by nra|assert (0 < b * b) by nra]; lra.
  Qed.
  Lemma cinv_mul : forall z : cx, fst z <> 0 \/ snd z <> 0 ->
    fst (cinv z) * fst z - snd (cinv z) * snd z = 1 /\ fst (cinv z) * snd z + snd (cinv z) * fst z = 0.
  Proof.
    intros z H. pose proof (sq_pos z H) as P. unfold cinv. cbn [fst snd]. fold (sq z).
    split; unfold Rdiv.
    - replace (fst z * / sq z * fst z - - snd z * / sq z * snd z) with (sq z * / sq z) by (unfold sq at 1; ring). apply Rinv_r. lra.
    - ring.
  Qed.
  Lemma cinv_nz : forall z : cx, fst z <> 0 \/ snd z <> 0 -> fst (cinv z) <> 0 \/ snd (cinv z) <> 0.
  Proof.
    intros z H. destruct (cinv_mul z H) as [E _]. destruct (Req_EM_T (fst (cinv z)) 0) as [F|F]; [|left; exact F].
    right. intro G. rewrite F, G in E. lra.
  Qed.
  Lemma cinv_cinv : forall z : cx, fst z <> 0 \/ snd z <> 0 -> cinv (cinv z) = z.
  Proof.
    intros z H. pose proof (sq_pos z H) as P. destruct z as [a b]. unfold sq in P. cbn [fst snd] in P.
    unfold cinv. cbn [fst snd]. f_equal; field; repeat split; intro E; nra.
  Qed.

  (** General correspondence: [b] is the input, [k] the gain from the reactive currents
      to it (nought for the poles). *)
  Section Zero.
    Variable b : vec.
    Variable tz : mat.               (* the matrix whose eigenvalues are taken *)
    Variable g : vec -> R.           (* input for given reactive currents *)
    Hypothesis Hg : forall y a, (a < m)%nat -> row m tz a y = row m tcm a y + g y * rd a (tv b).
    Hypothesis g_lin : forall c x d y, g (fun i => c * x i + d * y i) = c * g x + d * g y.

    Lemma forward : forall l yr yi, eig m tz l yr yi -> (fst l <> 0 \/ snd l <> 0) ->
      let s := (fst (cinv l) + sh, snd (cinv l)) in
      let xr := resp yr (g yr) b in let xi := resp yi (g yi) b in
      (forall i, (i < N)%nat ->
        row N M i xr + (fst s * row N D i xr - snd s * row N D i xi) + g yr * b i = 0 /\
        row N M i xi + (fst s * row N D i xi + snd s * row N D i xr) + g yi * b i = 0) /\
      (forall a, (a < m)%nat -> rd a xr = fst l * yr a - snd l * yi a /\ rd a xi = fst l * yi a + snd l * yr a).
    Proof.
      intros l yr yi E Hl s xr xi.
      assert (Rd : forall a, (a < m)%nat -> rd a xr = fst l * yr a - snd l * yi a /\ rd a xi = fst l * yi a + snd l * yr a).
      { intros a Ha. unfold xr, xi. rewrite !rd_resp, <- !Hg by auto. apply E; auto. }
      split; [|exact Rd].
      intros i Hi. pose proof (A_resp yr (g yr) b i Hi) as A1. pose proof (A_resp yi (g yi) b i Hi) as A2.
      fold xr in A1. fold xi in A2. rewrite A_split in A1, A2.
      assert (D1 : row N D i xr = fst l * UV yr i - snd l * UV yi i).
      { rewrite D_UV by auto. rewrite (UV_ext _ (fun b => fst l * yr b + (- snd l) * yi b)).
        - rewrite UV_lin. ring.
        - intros a Ha. rewrite (proj1 (Rd a Ha)). ring. }
      assert (D2 : row N D i xi = fst l * UV yi i + snd l * UV yr i).
      { rewrite D_UV by auto. rewrite (UV_ext _ (fun b => fst l * yi b + snd l * yr b)).
        - rewrite UV_lin. ring.
        - intros a Ha. rewrite (proj2 (Rd a Ha)). ring. }
      destruct (cinv_mul l Hl) as [C1 C2]. unfold s. cbn [fst snd].
      set (p := fst (cinv l)) in *. set (q := snd (cinv l)) in *.
      assert (E1 : p * row N D i xr - q * row N D i xi = UV yr i).
      { rewrite D1, D2. replace (p * (fst l * UV yr i - snd l * UV yi i) - q * (fst l * UV yi i + snd l * UV yr i))
          with ((p * fst l - q * snd l) * UV yr i - (p * snd l + q * fst l) * UV yi i) by ring. rewrite C1, C2. ring. }
      assert (E2 : p * row N D i xi + q * row N D i xr = UV yi i).
      { rewrite D1, D2. replace (p * (fst l * UV yi i + snd l * UV yr i) + q * (fst l * UV yr i - snd l * UV yi i))
          with ((p * fst l - q * snd l) * UV yi i + (p * snd l + q * fst l) * UV yr i) by ring. rewrite C1, C2. ring. }
      split; lra.
    Qed.

    (** Back: a solution with input [ar + i ai]. *)
    Lemma backward : forall (s : cx) xr xi ar ai,
      (forall i, (i < N)%nat ->
        row N M i xr + (fst s * row N D i xr - snd s * row N D i xi) + ar * b i = 0 /\
        row N M i xi + (fst s * row N D i xi + snd s * row N D i xr) + ai * b i = 0) ->
      let zr := fst s - sh in let zi := snd s in
      let yr := fun a => zr * rd a xr - zi * rd a xi in let yi := fun a => zr * rd a xi + zi * rd a xr in
      (forall i, (i < N)%nat -> xr i = resp yr ar b i /\ xi i = resp yi ai b i) /\
      (forall a, (a < m)%nat -> rd a xr = row m tcm a yr + ar * rd a (tv b) /\ rd a xi = row m tcm a yi + ai * rd a (tv b)).
    Proof.
      intros s xr xi ar ai H zr zi yr yi.
      assert (X : forall i, (i < N)%nat -> xr i = resp yr ar b i /\ xi i = resp yi ai b i).
      { intros i Hi. split; apply solve_resp; auto; intros j Hj; destruct (H j Hj) as [H1 H2]; rewrite A_split.
        - assert (U : UV yr j = zr * row N D j xr - zi * row N D j xi).
          { rewrite !D_UV by auto. rewrite (UV_ext yr (fun b => zr * rd b xr + (- zi) * rd b xi)) by (intros; unfold yr; ring).
            rewrite UV_lin. ring. }
          rewrite U. unfold zr, zi. lra.
        - assert (U : UV yi j = zr * row N D j xi + zi * row N D j xr).
          { rewrite !D_UV by auto. rewrite (UV_ext yi (fun b => zr * rd b xi + zi * rd b xr)) by (intros; unfold yi; ring).
            rewrite UV_lin. ring. }
          rewrite U. unfold zr, zi. lra. }
      split; [exact X|]. intros a Ha.
      rewrite <- !rd_resp by auto. split; apply Hext; auto; intros i Hi; apply X; auto.
    Qed.
  End Zero.

  Lemma resp_zero : forall y c b i, (forall a, (a < m)%nat -> y a = 0) -> c = 0 -> resp y c b i = 0.
  Proof.
    intros y c b i Hy ->. unfold resp. rewrite tv_UV. rewrite rsum_0; [ring|]. intros a Ha. rewrite Hy by auto. ring.
  Qed.

  (** Poles. *)
  Lemma poles_natural : forall s : cx, natural N M D s <->
    exists l yr yi, (fst l <> 0 \/ snd l <> 0) /\ nonzero m yr yi /\ eig m tcm l yr yi /\ s = (fst (cinv l) + sh, snd (cinv l)).
  Proof.
    intros s. split.
    - intros (xr & xi & NZ & Hm).
      destruct (backward vzero s xr xi 0 0) as [X Rd].
      { intros i Hi. destruct (Hm i Hi) as [H1 H2]. unfold vzero. split; lra. }
      set (zr := fst s - sh) in *. set (zi := snd s) in *.
      assert (NY : nonzero m (fun a => rd a xr) (fun a => rd a xi)).
      { destruct (all_or_some m (fun a => rd a xr) (fun a => rd a xi)) as [Z|Z]; [exfalso|exact Z].
        destruct NZ as (i & Hi & NZ). destruct (X i Hi) as [X1 X2].
        rewrite resp_zero in X1 by (auto; intros a Ha; destruct (Z a Ha) as [-> ->]; ring).
        rewrite resp_zero in X2 by (auto; intros a Ha; destruct (Z a Ha) as [-> ->]; ring).
        destruct NZ; contradiction. }
      assert (Hz : zr <> 0 \/ zi <> 0).
      { destruct (Req_EM_T zr 0) as [E|E]; [|left; exact E]. destruct (Req_EM_T zi 0) as [E'|E']; [exfalso|right; exact E'].
        destruct NY as (a & Ha & NY). destruct (Rd a Ha) as [R1 R2].
        assert (Z1 : row m tcm a (fun a0 => zr * rd a0 xr - zi * rd a0 xi) = 0).
        { unfold row. apply rsum_0. intros. rewrite E, E'. ring. }
        assert (Z2 : row m tcm a (fun a0 => zr * rd a0 xi + zi * rd a0 xr) = 0).
        { unfold row. apply rsum_0. intros. rewrite E, E'. ring. }
        rewrite Z1 in R1. rewrite Z2 in R2. destruct NY as [NY|NY]; apply NY; lra. }
      exists (cinv (zr, zi)), (fun a => rd a xr), (fun a => rd a xi).
      split; [apply cinv_nz; exact Hz|]. split; [exact NY|]. split.
      + intros a Ha. destruct (Rd a Ha) as [R1 R2]. destruct (cinv_mul (zr, zi) Hz) as [C1 C2]. cbn [fst snd] in C1, C2.
        rewrite (row_ext_v m tcm a _ (vplus (vscale zr (fun a => rd a xr)) (vscale (- zi) (fun a => rd a xi)))) in R1
          by (intros; unfold vplus, vscale; ring).
        rewrite (row_ext_v m tcm a _ (vplus (vscale zr (fun a => rd a xi)) (vscale zi (fun a => rd a xr)))) in R2
          by (intros; unfold vplus, vscale; ring).
        rewrite row_plus_v, !row_scale_v in R1, R2.
        set (p := fst (cinv (zr, zi))) in *. set (q := snd (cinv (zr, zi))) in *.
        set (tr := row m tcm a (fun a => rd a xr)) in *. set (ti := row m tcm a (fun a => rd a xi)) in *.
        split.
        * rewrite R1, R2. replace (p * (zr * tr + - zi * ti + 0 * rd a (tv vzero)) - q * (zr * ti + zi * tr + 0 * rd a (tv vzero)))
            with ((p * zr - q * zi) * tr - (p * zi + q * zr) * ti) by ring. rewrite C1, C2. ring.
        * rewrite R1, R2. replace (p * (zr * ti + zi * tr + 0 * rd a (tv vzero)) + q * (zr * tr + - zi * ti + 0 * rd a (tv vzero)))
            with ((p * zr - q * zi) * ti + (p * zi + q * zr) * tr) by ring. rewrite C1, C2. ring.
      + rewrite cinv_cinv by exact Hz. cbn [fst snd]. destruct s as [sr si]. unfold zr, zi. cbn [fst snd]. f_equal; ring.
    - intros (l & yr & yi & Hl & NY & E & ->).
      destruct (forward vzero tcm (fun _ => 0)) with (l := l) (yr := yr) (yi := yi) as [F1 F2]; auto; try (intros; ring).
      set (xr := resp yr 0 vzero) in *. set (xi := resp yi 0 vzero) in *.
      exists xr, xi. split.
      + assert (K : nonzero m (fun a => rd a xr) (fun a => rd a xi)).
        { destruct NY as (a & Ha & NY). exists a. split; [exact Ha|]. destruct (F2 a Ha) as [-> ->].
          destruct (Req_EM_T (fst l * yr a - snd l * yi a) 0) as [G1|G1]; [|left; exact G1].
          destruct (Req_EM_T (fst l * yi a + snd l * yr a) 0) as [G2|G2]; [exfalso|right; exact G2].
          destruct (cinv_mul l Hl) as [C1 C2]. set (p := fst (cinv l)) in *. set (q := snd (cinv l)) in *.
          assert (Y1 : yr a = 0).
          { replace (yr a) with ((p * fst l - q * snd l) * yr a - (p * snd l + q * fst l) * yi a) by (rewrite C1, C2; ring).
            replace ((p * fst l - q * snd l) * yr a - (p * snd l + q * fst l) * yi a)
              with (p * (fst l * yr a - snd l * yi a) - q * (fst l * yi a + snd l * yr a)) by ring. rewrite G1, G2. ring. }
          assert (Y2 : yi a = 0).
          { replace (yi a) with ((p * fst l - q * snd l) * yi a + (p * snd l + q * fst l) * yr a) by (rewrite C1, C2; ring).
            replace ((p * fst l - q * snd l) * yi a + (p * snd l + q * fst l) * yr a)
              with (p * (fst l * yi a + snd l * yr a) + q * (fst l * yr a - snd l * yi a)) by ring. rewrite G1, G2. ring. }
          destruct NY; contradiction. }
        destruct (all_or_some N xr xi) as [Z|Z]; [exfalso|exact Z].
        destruct K as (a & Ha & K). rewrite (Hext a xr (fun _ => 0)), (Hext a xi (fun _ => 0)) in K by (auto; intros; apply Z; auto).
        rewrite rd_zero in K by auto. destruct K; congruence.
      + intros i Hi. destruct (F1 i Hi) as [H1 H2]. unfold vzero in *. split; lra.
  Qed.

  (** Zeros. *)
  Lemma cdiv_eq : forall (z : cx) tr ti vr vi, (fst z <> 0 \/ snd z <> 0) ->
    vr = fst z * tr - snd z * ti -> vi = fst z * ti + snd z * tr ->
    tr = fst (cinv z) * vr - snd (cinv z) * vi /\ ti = fst (cinv z) * vi + snd (cinv z) * vr.
  Proof.
    intros z tr ti vr vi Hz -> ->. destruct (cinv_mul z Hz) as [C1 C2].
    set (p := fst (cinv z)) in *. set (q := snd (cinv z)) in *. split.
    - replace (p * (fst z * tr - snd z * ti) - q * (fst z * ti + snd z * tr))
        with ((p * fst z - q * snd z) * tr - (p * snd z + q * fst z) * ti) by ring. rewrite C1, C2. ring.
    - replace (p * (fst z * ti + snd z * tr) + q * (fst z * tr - snd z * ti))
        with ((p * fst z - q * snd z) * ti + (p * snd z + q * fst z) * tr) by ring. rewrite C1, C2. ring.
  Qed.

  Variable b : vec.
  Variable out : vec -> R.
  Hypothesis Olin : forall c x d y, out (fun i => c * x i + d * y i) = c * out x + d * out y.
  Hypothesis Oext : forall x y, (forall i, (i < N)%nat -> x i = y i) -> out x = out y.
  Definition rout : vec := fun c => out (tv (inj c)) * val c.
  Definition rin : R := out (tv b).
  Hypothesis Hrin : rin <> 0.
  Definition ztcm : mat := fun a c => tcm a c - rd a (tv b) * rout c / rin.
  Definition gain (y : vec) : R := - (rsum m (fun c => rout c * y c) / rin).

  Lemma out_rsum : forall p (c : nat -> R) (v : nat -> vec),
    out (fun i => rsum p (fun b => c b * v b i)) = rsum p (fun b => c b * out (v b)).
  Proof.
    induction p as [|p IH]; intros c v; cbn [rsum].
    - rewrite (Oext _ (fun i => 0 * 0 + 0 * 0)) by (intros; ring). rewrite (Olin 0 (fun _ => 0) 0 (fun _ => 0)). ring.
    - rewrite (Oext _ (fun i => 1 * rsum p (fun b => c b * v b i) + c p * v p i)) by (intros; ring).
      rewrite (Olin 1 (fun i => rsum p (fun b => c b * v b i)) (c p) (v p)). rewrite IH. ring.
  Qed.
  Lemma out_resp : forall y c, out (resp y c b) = rsum m (fun a => rout a * y a) + c * rin.
  Proof.
    intros. rewrite (Oext _ (fun i => 1 * tv (UV y) i + c * tv b i)) by (intros; unfold resp; ring).
    rewrite (Olin 1 (tv (UV y)) c (tv b)).
    rewrite (Oext (tv (UV y)) (fun i => rsum m (fun b => (val b * y b) * tv (inj b) i))) by (intros; apply tv_UV).
    rewrite (out_rsum m (fun b => val b * y b) (fun b => tv (inj b))).
    unfold rin. rewrite Rmult_1_l. f_equal. apply rsum_ext. intros. unfold rout. ring.
  Qed.
  Lemma ztcm_gain : forall y a, (a < m)%nat -> row m ztcm a y = row m tcm a y + gain y * rd a (tv b).
  Proof.
    intros y a _. unfold row, gain, Rdiv.
    replace (- (rsum m (fun c => rout c * y c) * / rin) * rd a (tv b))
      with ((- rd a (tv b) * / rin) * rsum m (fun c => rout c * y c)) by ring.
    rewrite <- rsum_scal, <- rsum_plus. apply rsum_ext. intros. unfold ztcm, Rdiv. ring.
  Qed.

  Lemma zeros_block : forall s : cx,
    (exists xr xi ar ai, (nonzero N xr xi \/ ar <> 0 \/ ai <> 0) /\
      (forall i, (i < N)%nat ->
        row N M i xr + (fst s * row N D i xr - snd s * row N D i xi) + ar * b i = 0 /\
        row N M i xi + (fst s * row N D i xi + snd s * row N D i xr) + ai * b i = 0) /\
      out xr = 0 /\ out xi = 0) <->
    exists l yr yi, (fst l <> 0 \/ snd l <> 0) /\ nonzero m yr yi /\ eig m ztcm l yr yi /\ s = (fst (cinv l) + sh, snd (cinv l)).
  Proof.
    intros s. split.
    - intros (xr & xi & ar & ai & NZ & Hm & O1 & O2).
      destruct (backward b s xr xi ar ai Hm) as [X Rd].
      set (z := (fst s - sh, snd s)). change (fst s - sh) with (fst z) in X, Rd. change (snd s) with (snd z) in X, Rd.
      set (yr := fun a => fst z * rd a xr - snd z * rd a xi) in *. set (yi := fun a => fst z * rd a xi + snd z * rd a xr) in *.
      assert (Gr : ar = gain yr).
      { rewrite (Oext xr (resp yr ar b)), out_resp in O1 by (intros; apply X; auto). unfold gain.
        apply Rmult_eq_reg_r with rin; [|exact Hrin]. unfold Rdiv. rewrite Ropp_mult_distr_l_reverse, Rmult_assoc, Rinv_l by exact Hrin. lra. }
      assert (Gi : ai = gain yi).
      { rewrite (Oext xi (resp yi ai b)), out_resp in O2 by (intros; apply X; auto). unfold gain.
        apply Rmult_eq_reg_r with rin; [|exact Hrin]. unfold Rdiv. rewrite Ropp_mult_distr_l_reverse, Rmult_assoc, Rinv_l by exact Hrin. lra. }
      assert (G0 : forall y, (forall a, (a < m)%nat -> y a = 0) -> gain y = 0).
      { intros y Hy. unfold gain. rewrite rsum_0; [unfold Rdiv; ring|]. intros a Ha. rewrite Hy by auto. ring. }
      assert (NY : nonzero m (fun a => rd a xr) (fun a => rd a xi)).
      { destruct (all_or_some m (fun a => rd a xr) (fun a => rd a xi)) as [Z|Z]; [exfalso|exact Z].
        assert (Zr : forall a, (a < m)%nat -> yr a = 0) by (intros a Ha; unfold yr; destruct (Z a Ha) as [-> ->]; ring).
        assert (Zi : forall a, (a < m)%nat -> yi a = 0) by (intros a Ha; unfold yi; destruct (Z a Ha) as [-> ->]; ring).
        pose proof (G0 yr Zr) as A0. pose proof (G0 yi Zi) as A1.
        destruct NZ as [(i & Hi & NZ)|NZ].
        - destruct (X i Hi) as [X1 X2]. rewrite resp_zero in X1 by (auto; congruence). rewrite resp_zero in X2 by (auto; congruence).
          destruct NZ; contradiction.
        - destruct NZ as [NZ|NZ]; apply NZ; congruence. }
      assert (Tr : forall a, (a < m)%nat -> rd a xr = row m ztcm a yr) by (intros a Ha; rewrite ztcm_gain, <- Gr by auto; apply Rd; auto).
      assert (Ti : forall a, (a < m)%nat -> rd a xi = row m ztcm a yi) by (intros a Ha; rewrite ztcm_gain, <- Gi by auto; apply Rd; auto).
      assert (Hz : fst z <> 0 \/ snd z <> 0).
      { destruct (Req_EM_T (fst z) 0) as [E|E]; [|left; exact E]. destruct (Req_EM_T (snd z) 0) as [E'|E']; [exfalso|right; exact E'].
        destruct NY as (a & Ha & NY).
        assert (Z1 : row m ztcm a yr = 0) by (unfold row, yr; apply rsum_0; intros; rewrite E, E'; ring).
        assert (Z2 : row m ztcm a yi = 0) by (unfold row, yi; apply rsum_0; intros; rewrite E, E'; ring).
        rewrite <- Tr in Z1 by auto. rewrite <- Ti in Z2 by auto. destruct NY; contradiction. }
      exists (cinv z), (fun a => rd a xr), (fun a => rd a xi).
      split; [apply cinv_nz; exact Hz|]. split; [exact NY|]. split.
      + intros a Ha. apply cdiv_eq; [exact Hz| |].
        * rewrite Tr at 1 by auto. rewrite (row_ext_v m ztcm a yr (vplus (vscale (fst z) (fun a => rd a xr)) (vscale (- snd z) (fun a => rd a xi))))
            by (intros; unfold yr, vplus, vscale; ring). rewrite row_plus_v, !row_scale_v. ring.
        * rewrite Ti at 1 by auto. rewrite (row_ext_v m ztcm a yi (vplus (vscale (fst z) (fun a => rd a xi)) (vscale (snd z) (fun a => rd a xr))))
            by (intros; unfold yi, vplus, vscale; ring). rewrite row_plus_v, !row_scale_v. ring.
      + rewrite cinv_cinv by exact Hz. unfold z. cbn [fst snd]. destruct s as [sr si]. cbn [fst snd]. f_equal; ring.
    - intros (l & yr & yi & Hl & NY & E & ->).
      destruct (forward b ztcm gain ztcm_gain l yr yi E Hl) as [F1 F2].
      exists (resp yr (gain yr) b), (resp yi (gain yi) b), (gain yr), (gain yi).
      split; [left|split; [exact F1|]].
      + set (xr := resp yr (gain yr) b) in *. set (xi := resp yi (gain yi) b) in *.
        destruct (all_or_some N xr xi) as [Z|Z]; [exfalso|exact Z].
        destruct NY as (a & Ha & NY). destruct (F2 a Ha) as [R1 R2].
        rewrite (Hext a xr (fun _ => 0)) in R1 by (auto; intros; apply Z; auto).
        rewrite (Hext a xi (fun _ => 0)) in R2 by (auto; intros; apply Z; auto). rewrite rd_zero in R1, R2 by auto.
        destruct (cdiv_eq l (yr a) (yi a) 0 0 Hl R1 R2) as [Y1 Y2]. destruct NY as [NY|NY]; apply NY; lra.
      + rewrite !out_resp. unfold gain. split; field; exact Hrin.
  Qed.
End MD.

(** * The reactive elements make up the dynamic matrix *)
Lemma mc_nodes_val : forall n1 n2 i, mc_nodes n1 n2 i = dlt (S i) n1 - dlt (S i) n2.
Proof.
  intros. unfold mc_nodes.
  assert (Q : forall n, n <> 0%nat -> dlt (S i) n = dlt i (n - 1)).
  { intros n Hn. unfold dlt. destruct (Nat.eqb_spec (S i) n), (Nat.eqb_spec i (n - 1)); try reflexivity; lia. }
  destruct (Nat.eqb_spec n1 0) as [->|H1], (Nat.eqb_spec n2 0) as [->|H2]; rewrite ?vadd_val, ?(dlt_other (S i) 0) by lia;
    rewrite ?Q by auto; unfold vzero; lra.
Qed.

Lemma read_sum : forall N n x, (n <= N)%nat -> rsum N (fun j => dlt (S j) n * x j) = (if (n =? 0)%nat then 0 else x (n - 1)%nat).
Proof.
  intros N n x H. destruct (Nat.eqb_spec n 0) as [->|Hn].
  - apply rsum_0. intros. rewrite dlt_other by lia. ring.
  - rewrite <- (rsum_dlt N (n - 1) x) by lia. apply rsum_ext. intros j Hj. f_equal. unfold dlt.
    destruct (Nat.eqb_spec (S j) n), (Nat.eqb_spec j (n - 1)); try reflexivity; lia.
Qed.
Lemma read_nodes_sum : forall N n1 n2 x, (n1 <= N)%nat -> (n2 <= N)%nat ->
  rsum N (fun j => (dlt (S j) n1 - dlt (S j) n2) * x j) = read_nodes n1 n2 x.
Proof.
  intros. rewrite (rsum_ext N _ (fun j => dlt (S j) n1 * x j - dlt (S j) n2 * x j)) by (intros; ring).
  rewrite rsum_minus, !read_sum by auto. reflexivity.
Qed.

Lemma cpl_none : forall nv all, no_coupling all -> forall id j, cpl nv all id j = 0.
Proof.
  intros nv all H id j. unfold cpl, flux. apply lsum_0. intros e He. unfold no_coupling in H. rewrite Forall_forall in H.
  specialize (H e He). destruct e; auto; contradiction.
Qed.

Lemma lsum_nth : forall A (f : A -> R) d l, lsum f l = rsum (length l) (fun b => f (nth b l d)).
Proof.
  induction l as [|a l IH]; [reflexivity|]. cbn [length]. rewrite rsum_shift. cbn [nth]. rewrite <- IH. reflexivity.
Qed.

Lemma react_row : forall nv all N i x, (1 <= nv)%nat -> no_coupling all -> forall es k, wf_circ nv es ->
  (nv + k + n_vde es <= S N)%nat ->
  rsum N (fun j => (lsum (cap_entry (S i) (S j)) es + ind_entry nv all (S i) (S j) k es) * x j)
  = lsum (fun r => r_val r * r_inj r i * r_read r x) (reactives nv es k).
Proof.
  intros nv all N i x Hnv NC. induction es as [|e es IH]; intros k Wf Hk.
  - simpl. apply rsum_0. intros; ring.
  - inversion Wf as [|? ? We Wes]; subst. destruct We as (W1 & W2 & _).
    rewrite n_vde_cons in Hk.
    specialize (IH (if is_vde e then S k else k) Wes).
    assert (Hk' : (nv + (if is_vde e then S k else k) + n_vde es <= S N)%nat) by (destruct (is_vde e); lia).
    specialize (IH Hk').
    assert (Split : rsum N (fun j => (lsum (cap_entry (S i) (S j)) (e :: es) + ind_entry nv all (S i) (S j) k (e :: es)) * x j)
      = rsum N (fun j => (cap_entry (S i) (S j) e + (match e with EL id _ _ l => dlt (S i) (nv + k) * (- l * dlt (S j) (nv + k) - cpl nv all id (S j)) | _ => 0 end)) * x j)
        + rsum N (fun j => (lsum (cap_entry (S i) (S j)) es + ind_entry nv all (S i) (S j) (if is_vde e then S k else k) es) * x j)).
    { rewrite <- rsum_plus. apply rsum_ext. intros j _. cbn [lsum ind_entry]. ring. }
    rewrite Split, IH. clear Split IH.
    assert (Z : forall f, (forall j, f j = 0) -> rsum N (fun j => f j * x j) = 0) by (intros f Hf; apply rsum_0; intros; rewrite Hf; ring).
    destruct e; cbn [reactives cap_entry is_vde] in *; try (rewrite Z by (intros; ring); lra).
    + (* capacitor *)
      cbn [lsum r_val r_inj r_read]. f_equal. rewrite mc_nodes_val. simpl in W1, W2.
      rewrite <- (read_nodes_sum N n1 n2 x) by lia. rewrite <- rsum_scal. apply rsum_ext. intros. ring.
    + (* inductor *)
      cbn [lsum r_val r_inj r_read]. f_equal. rewrite vadd_val.
      assert (Q : forall t, dlt (S t) (nv + k) = dlt t (nv - 1 + k)).
      { intros t. unfold dlt. destruct (Nat.eqb_spec (S t) (nv + k)), (Nat.eqb_spec t (nv - 1 + k)); try reflexivity; lia. }
      rewrite (rsum_ext N _ (fun j => (- l * dlt i (nv - 1 + k)) * (dlt j (nv - 1 + k) * x j))).
      * rewrite rsum_scal, rsum_dlt by lia. unfold vzero. ring.
      * intros j _. rewrite !Q, cpl_none by auto. ring.
Qed.

Lemma read_nodes_lin : forall n1 n2 c x d y, read_nodes n1 n2 (fun i => c * x i + d * y i) = c * read_nodes n1 n2 x + d * read_nodes n1 n2 y.
Proof. intros. unfold read_nodes. destruct (n1 =? 0)%nat, (n2 =? 0)%nat; ring. Qed.
Lemma read_nodes_ext : forall N n1 n2 x y, (n1 <= N)%nat -> (n2 <= N)%nat -> (forall i, (i < N)%nat -> x i = y i) ->
  read_nodes n1 n2 x = read_nodes n1 n2 y.
Proof.
  intros N n1 n2 x y H1 H2 E. unfold read_nodes.
  destruct (Nat.eqb_spec n1 0), (Nat.eqb_spec n2 0); rewrite ?E by lia; reflexivity.
Qed.

Lemma reactives_lin : forall nv es k, Forall (fun r => forall c x d y,
  r_read r (fun i => c * x i + d * y i) = c * r_read r x + d * r_read r y) (reactives nv es k).
Proof.
  intros nv es. induction es as [|e es IH]; intros k; [constructor|].
  cbn [reactives]. destruct e; auto; constructor; auto; cbn [r_read]; intros; apply read_nodes_lin.
Qed.
Lemma reactives_ext : forall nv N es k, (1 <= nv)%nat -> wf_circ nv es -> (nv + k + n_vde es <= S N)%nat ->
  Forall (fun r => forall x y, (forall i, (i < N)%nat -> x i = y i) -> r_read r x = r_read r y) (reactives nv es k).
Proof.
  intros nv N es. induction es as [|e es IH]; intros k Hnv Wf Hk; [constructor|].
  inversion Wf as [|? ? We Wes]; subst. destruct We as (W1 & W2 & _). rewrite n_vde_cons in Hk.
  assert (T : Forall (fun r => forall x y, (forall i, (i < N)%nat -> x i = y i) -> r_read r x = r_read r y)
                (reactives nv es (if is_vde e then S k else k))) by (apply IH; auto; destruct (is_vde e); lia).
  cbn [reactives]. destruct e; cbn [is_vde] in *; auto; constructor; auto; cbn [r_read]; intros x y E; simpl in W1, W2.
  - apply (read_nodes_ext N); auto; lia.
  - apply E. lia.
Qed.

(** * From the circuit to the algebra *)
Lemma freq_rads : forall shift l, rads (freq shift l) = (fst (cinv l) + shift, snd (cinv l)).
Proof.
  intros. unfold rads, freq. cbn [fst snd]. pose proof PI_RGT_0. f_equal; field; lra.
Qed.
Lemma rads_inj : forall p q, rads p = rads q -> p = q.
Proof.
  intros [p1 p2] [q1 q2] E. unfold rads in E. cbn [fst snd] in E. injection E as E1 E2. pose proof PI_RGT_0.
  f_equal; apply Rmult_eq_reg_l with (2 * PI); lra.
Qed.
Lemma cut_In : forall pm p l, In p (cut pm l) <-> In p l /\ cabs p < pm.
Proof.
  intros. unfold cut. rewrite filter_In. unfold Rlt_b. destruct (Rlt_dec (cabs p) pm); split; intros [A B]; split; auto; try discriminate; contradiction.
Qed.

(** The reduced dynamic matrix by its reactive elements. *)
Lemma dyn_react : forall nv es d, (1 <= nv)%nat -> wf_circ nv es -> no_coupling es -> distinct_vdes es ->
  generate_D 0 nv es = Ok d ->
  forall i x, row (nv - 1 + n_vde es) (reduce_mat d) i x
    = rsum (length (reactives nv es 0)) (fun b => r_val (nth b (reactives nv es 0) r0) * r_inj (nth b (reactives nv es 0) r0) i * r_read (nth b (reactives nv es 0) r0) x).
Proof.
  intros nv es d Hnv Wf NC ND G i x.
  assert (WK : Forall (wf_coupling es) es).
  { unfold no_coupling in NC. rewrite Forall_forall in *. intros e He. specialize (NC e He). destruct e; simpl; auto; contradiction. }
  destruct (dyn_ok nv es ND WK Wf) as (d' & H1 & H2). unfold generate_D in G. rewrite H1 in G. cbn [bindr] in G.
  unfold add_cmin in G. destruct (Rlt_dec 0 0) as [L|L]; [exfalso; lra|]. injection G as <-.
  rewrite <- (lsum_nth react (fun r => r_val r * r_inj r i * r_read r x) r0).
  rewrite <- (react_row nv es (nv - 1 + n_vde es)) by (auto; lia).
  unfold row, reduce_mat. apply rsum_ext. intros j _. rewrite H2. reflexivity.
Qed.

Lemma no_cmin : forall cmin nv es d0 dc, generate_D 0 nv es = Ok d0 -> generate_D cmin nv es = Ok dc -> cmin <= 0 -> dc = d0.
Proof.
  intros cmin nv es d0 dc H0 H Hc. unfold generate_D in *. destruct (dyn_loop nv es es 0 mzero) as [d|]; [|discriminate].
  cbn [bindr] in *. unfold add_cmin in *. destruct (Rlt_dec 0 0); [exfalso; lra|]. destruct (Rlt_dec 0 cmin); [exfalso; lra|]. congruence.
Qed.

Section Circuit.
  Variables (nv : nat) (es : list lelem) (M d0 dc : mat) (cmin shift : R).
  Notation rs := (reactives nv es 0).
  Notation N := (nv - 1 + n_vde es)%nat.
  Hypothesis Hnv : (1 <= nv)%nat.
  Hypothesis Wf : wf_circ nv es.
  Hypothesis NC : no_coupling es.
  Hypothesis ND : distinct_vdes es.
  Hypothesis G0 : generate_D 0 nv es = Ok d0.
  Hypothesis Gc : generate_D cmin nv es = Ok dc.
  Hypothesis HS : shift = 0 \/ cmin <= 0.
  Variable W : mat.
  Hypothesis HW : is_inverse N (mplus M (mscale shift (reduce_mat dc))) W.

  Lemma HW0 : is_inverse N (mplus M (mscale shift (reduce_mat d0))) W.
  Proof.
    destruct HS as [->|Hc].
    - intros i j Hi Hj. destruct (HW i j Hi Hj) as [A B]. split; [rewrite <- A|rewrite <- B]; apply rsum_ext; intros; unfold mplus, mscale; ring.
    - rewrite <- (no_cmin cmin nv es d0 dc) by auto. exact HW.
  Qed.
  Lemma Hlin_c : forall a c x d y, (a < length rs)%nat ->
    r_read (nth a rs r0) (fun i => c * x i + d * y i) = c * r_read (nth a rs r0) x + d * r_read (nth a rs r0) y.
  Proof.
    intros a c x d y Ha. pose proof (reactives_lin nv es 0) as F. rewrite Forall_forall in F. apply F. apply nth_In; auto.
  Qed.
  Lemma Hext_c : forall a x y, (a < length rs)%nat -> (forall i, (i < N)%nat -> x i = y i) -> r_read (nth a rs r0) x = r_read (nth a rs r0) y.
  Proof.
    intros a x y Ha E. assert (F := reactives_ext nv N es 0 Hnv Wf ltac:(lia)). rewrite Forall_forall in F. apply F; [apply nth_In; auto|exact E].
  Qed.

  Lemma poles_circuit : forall s, natural N M (reduce_mat d0) s <->
    exists l yr yi, (fst l <> 0 \/ snd l <> 0) /\ nonzero (length rs) yr yi /\ eig (length rs) (TCM N rs W) l yr yi /\
      s = (fst (cinv l) + shift, snd (cinv l)).
  Proof.
    intros s. exact (poles_natural N (length rs) M (reduce_mat d0) W shift (fun b => r_inj (nth b rs r0)) (fun b => r_read (nth b rs r0))
      (fun b => r_val (nth b rs r0)) (fun i x _ => dyn_react nv es d0 Hnv Wf NC ND G0 i x) Hlin_c Hext_c HW0 s).
  Qed.

  Lemma zeros_circuit : forall b o, (fst o < nv)%nat -> (snd o < nv)%nat -> ROUTIN N W b o <> 0 ->
    forall s, blocks_output N M (reduce_mat d0) b o s <->
    exists l yr yi, (fst l <> 0 \/ snd l <> 0) /\ nonzero (length rs) yr yi /\ eig (length rs) (ZTCM N rs W b o) l yr yi /\
      s = (fst (cinv l) + shift, snd (cinv l)).
  Proof.
    intros b o H1 H2 HR s.
    exact (zeros_block N (length rs) M (reduce_mat d0) W shift (fun b => r_inj (nth b rs r0)) (fun b => r_read (nth b rs r0))
      (fun b => r_val (nth b rs r0)) (fun i x _ => dyn_react nv es d0 Hnv Wf NC ND G0 i x) Hlin_c Hext_c HW0
      b (read_nodes (fst o) (snd o)) (read_nodes_lin (fst o) (snd o))
      (fun x y => read_nodes_ext N (fst o) (snd o) x y ltac:(lia) ltac:(lia)) HR s).
  Qed.
End Circuit.

Lemma freq_In : forall pm shift ls m A P, eigenvalues m A ls -> (forall l, In l ls -> fst l <> 0 \/ snd l <> 0) ->
  (forall s, P s <-> exists l yr yi, (fst l <> 0 \/ snd l <> 0) /\ nonzero m yr yi /\ eig m A l yr yi /\ s = (fst (cinv l) + shift, snd (cinv l))) ->
  forall p, In p (cut pm (map (freq shift) ls)) <-> cabs p < pm /\ P (rads p).
Proof.
  intros pm shift ls m A P HE NZ HP p. rewrite cut_In, in_map_iff. split.
  - intros [(l & <- & Hl) Hc]. split; [exact Hc|]. apply HP. pose proof Hl as Hl'. apply HE in Hl'. destruct Hl' as (yr & yi & H1 & H2).
    exists l, yr, yi. rewrite freq_rads. repeat split; auto; apply H2; auto.
  - intros [Hc H]. split; [|exact Hc]. apply HP in H. destruct H as (l & yr & yi & _ & H1 & H2 & H3).
    exists l. split; [|apply HE; eauto]. apply rads_inj. rewrite freq_rads. auto.
Qed.

Lemma nonsing_ev : forall m A ls, eigenvalues m A ls -> ~ singular m A -> forall l, In l ls -> fst l <> 0 \/ snd l <> 0.
Proof.
  intros m A ls HE NS l Hl. destruct (Req_EM_T (fst l) 0) as [E|E]; [|auto]. destruct (Req_EM_T (snd l) 0) as [E'|E']; [exfalso|auto].
  apply HE in Hl. destruct Hl as (yr & yi & (a & Ha & NZ) & H). apply NS. destruct NZ as [NZ|NZ].
  - exists yr. split; [eauto|]. intros c Hc. destruct (H c Hc) as [-> _]. rewrite E, E'. ring.
  - exists yi. split; [eauto|]. intros c Hc. destruct (H c Hc) as [_ ->]. rewrite E, E'. ring.
Qed.

Lemma run_once : forall inv ns ev pm N M D rs io fuel u shift r, (forall s, r <> PAgain s) ->
  pz_run inv ns ev pm N M D rs io fuel u shift = Some r -> exists shift' u', pz_once inv ns ev pm N M D rs io shift' u' = r.
Proof.
  intros inv ns ev pm N M D rs io. induction fuel as [|f IH]; intros u shift r NA H; [discriminate|].
  cbn [pz_run] in H. destruct (pz_once inv ns ev pm N M D rs io shift (u O)) eqn:E; try (injection H as <-; eauto; fail). eapply IH; eauto.
Qed.

(** * C62: poles are the natural frequencies *)
Definition numpy_ok (inv : mat -> option mat) (nonsing : nat -> mat -> bool) (eigvals : nat -> mat -> list cx) (N m : nat) : Prop :=
  (forall A W, inv A = Some W -> is_inverse N A W) /\
  (forall A, nonsing m A = true <-> ~ singular m A) /\
  (forall A, eigenvalues m A (eigvals m A)).

Theorem C62_poles : forall inv nonsing eigvals pz_max cmin nv es M d0 dc io shift u poles zeros,
  numpy_ok inv nonsing eigvals (nv - 1 + n_vde es) (length (reactives nv es 0)) ->
  (1 <= nv)%nat -> wf_circ nv es -> no_coupling es -> distinct_vdes es ->
  generate_D 0 nv es = Ok d0 -> generate_D cmin nv es = Ok dc -> shift = 0 \/ cmin <= 0 ->
  pz_once inv nonsing eigvals pz_max (nv - 1 + n_vde es) M (reduce_mat dc) (reactives nv es 0) io shift u = PDone poles zeros ->
  forall p, In p poles <->
    (cabs p < pz_max /\ natural (nv - 1 + n_vde es) M (reduce_mat d0) (rads p)).
Proof.
  intros inv nonsing eigvals pz_max cmin nv es M d0 dc io shift u poles zeros (HI & HN & HE) Hnv Wf NC ND G0 Gc HS H p.
  unfold pz_once in H. destruct (inv _) as [W|] eqn:EW; [|discriminate]. apply HI in EW.
  pose proof (poles_circuit nv es M d0 dc cmin shift Hnv Wf NC ND G0 Gc HS W EW) as HP.
  destruct (Nat.eqb_spec (length (reactives nv es 0)) 0) as [Z|Z].
  - injection H as <- <-. split; [intros []|]. intros [_ Q]. apply HP in Q.
    destruct Q as (l & yr & yi & _ & (a & Ha & _) & _). exfalso. rewrite Z in Ha. lia.
  - destruct (nonsing _ _) eqn:En; cbn [negb] in H; [|discriminate]. apply HN in En.
    assert (Q : poles = cut pz_max (map (freq shift) (eigvals (length (reactives nv es 0)) (TCM (nv - 1 + n_vde es) (reactives nv es 0) W)))).
    { destruct io as [[src o]|]; [|congruence]. destruct (forallb _ _).
      - destruct (Rlt_b _ _); [discriminate|congruence].
      - destruct (is_zero _); [discriminate|]. destruct (existsb _ _); [discriminate|congruence]. }
    subst poles. apply (freq_In pz_max shift _ _ _ _ (HE _) (nonsing_ev _ _ _ (HE _) En) HP).
Qed.

(** The whole analysis, whatever the number of restarts, without [cmin]. *)
Theorem C62_all : forall inv nonsing eigvals pz_max cmin nv es M d0 input fuel u shift poles zeros,
  numpy_ok inv nonsing eigvals (nv - 1 + n_vde es) (length (reactives nv es 0)) ->
  (1 <= nv)%nat -> wf_circ nv es -> no_coupling es -> distinct_vdes es ->
  generate_D 0 nv es = Ok d0 -> cmin <= 0 ->
  calculate_singularities inv nonsing eigvals pz_max cmin nv es M input fuel u shift = Some (PDone poles zeros) ->
  forall p, In p poles <->
    (cabs p < pz_max /\ natural (nv - 1 + n_vde es) M (reduce_mat d0) (rads p)).
Proof.
  intros inv nonsing eigvals pz_max cmin nv es M d0 input fuel u shift poles zeros HO Hnv Wf NC ND G0 Hc H.
  unfold calculate_singularities in H.
  assert (K : forall io, match generate_D cmin nv es with
     | Err e => Some (PErr e)
     | Ok d => pz_run inv nonsing eigvals pz_max (nv - 1 + n_vde es) M (reduce_mat d) (reactives nv es 0) io fuel u shift end = Some (PDone poles zeros) ->
     forall p, In p poles <-> (cabs p < pz_max /\ natural (nv - 1 + n_vde es) M (reduce_mat d0) (rads p))).
  { intros io Q. destruct (generate_D cmin nv es) as [dc|e] eqn:Gc; [|discriminate].
    apply run_once in Q; [|discriminate]. destruct Q as (shift' & u' & Q).
    apply (C62_poles inv nonsing eigvals pz_max cmin nv es M d0 dc io shift' u' poles zeros); auto. }
  destruct input as [[id o]|]; [|apply (K None); exact H].
  destruct (source_inj nv es 0 id) as [src|e]; [|discriminate]. apply (K (Some (src, o))). exact H.
Qed.
Print Assumptions C62_poles.
Print Assumptions C62_all.

(** * C119: zeros *)
Lemma source_is_drive : forall nv id i, (1 <= nv)%nat -> forall es k src, NoDup (map lid es) ->
  source_inj nv es k id = Ok src ->
  src i = lsum (cN1 (S i)) (map (drive id) es) + cN2 nv (S i) k (map (drive id) es).
Proof.
  intros nv id i Hnv.
  assert (Q : forall k, dlt (S i) (nv + k) = dlt i (nv - 1 + k)).
  { intros k. unfold dlt. destruct (Nat.eqb_spec (S i) (nv + k)), (Nat.eqb_spec i (nv - 1 + k)); try reflexivity; lia. }
  assert (Z : forall es k, ~ In id (map lid es) -> lsum (cN1 (S i)) (map (drive id) es) + cN2 nv (S i) k (map (drive id) es) = 0).
  { induction es as [|e es IH]; intros k Hn; [simpl; lra|]. simpl in Hn.
    cbn [map lsum cN2]. replace (is_vde (drive id e)) with (is_vde e) by (destruct e; reflexivity).
    specialize (IH (if is_vde e then S k else k) ltac:(tauto)).
    assert (E : String.eqb (lid e) id = false) by (apply String.eqb_neq; tauto).
    destruct e; cbn [drive cN1 lid] in *; rewrite ?E; lra. }
  induction es as [|e es IH]; intros k src ND H; [discriminate|].
  cbn [source_inj] in H. inversion ND as [|? ? Hn ND']; subst.
  cbn [map lsum cN2]. replace (is_vde (drive id e)) with (is_vde e) by (destruct e; reflexivity).
  destruct (String.eqb_spec (lid e) id) as [E|E].
  - rewrite <- E in *. specialize (Z es (if is_vde e then S k else k) Hn).
    destruct e; try discriminate; injection H as <-; cbn [drive cN1 lid is_vde] in *; rewrite String.eqb_refl.
    + rewrite vadd_val, Q. unfold vzero. lra.
    + rewrite mc_nodes_val. lra.
  - specialize (IH (if is_vde e then S k else k) src ND' H). apply String.eqb_neq in E.
    destruct e; cbn [drive cN1 lid is_vde] in *; rewrite ?E; lra.
Qed.

Lemma drive_wf : forall nv id es, wf_circ nv es -> wf_circ nv (map (drive id) es).
Proof.
  intros nv id es H. unfold wf_circ in *. rewrite Forall_map. eapply Forall_impl; [|exact H]. intros e He. destruct e; exact He.
Qed.

Lemma source_vec : forall nv id es src m Nv, (1 <= nv)%nat -> wf_circ nv es -> NoDup (map lid es) ->
  source_inj nv es 0 id = Ok src -> generate_mna_and_N nv (map (drive id) es) = Ok (m, Nv) ->
  forall i, src i = reduce_vec Nv i.
Proof.
  intros nv id es src m Nv Hnv Wf ND H G i. rewrite (source_is_drive nv id i Hnv es 0 src ND H).
  set (es' := map (drive id) es) in *. assert (Wf' : wf_circ nv es') by (apply drive_wf; auto). clearbody es'.
  unfold generate_mna_and_N in G.
  destruct (pass2 nv es' es' 0 (fold_left stamp1 es' (mzero, vzero))) as [[m2 v2]|] eqn:P2; [|discriminate].
  cbn [bindr fst snd] in G. destruct (pass3 nv es' es' m2) as [m3|]; [|discriminate]. cbn [bindr] in G. injection G as <- <-.
  destruct (fold_left stamp1 es' (mzero, vzero)) as [m1 v1] eqn:P1.
  assert (V1 : forall i, v1 i = lsum (cN1 i) es').
  { intros j. pose proof (pass1_vec es' mzero vzero j) as Q. rewrite P1 in Q. cbn [snd] in Q. rewrite Q. unfold vzero. lra. }
  pose proof (pass2_vec nv es' es' 0 m1 v1 (m2, v2) (S i) P2) as Q. cbn [snd] in Q. unfold reduce_vec. rewrite Q, V1; [lra|].
  intros j Hj. rewrite V1. apply lsum_0. intros e He. unfold wf_circ in Wf'. rewrite Forall_forall in Wf'.
  destruct (Wf' e He) as (A & B & _). destruct e as [| | | |? ? ? ? []|? ? ? ? []| | | | |]; simpl in *; auto. rewrite !dlt_other by lia. lra.
Qed.

Lemma blocks_ext : forall N M D b b' o s, (forall i, b i = b' i) -> blocks_output N M D b o s <-> blocks_output N M D b' o s.
Proof.
  intros N M D b b' o s E. unfold blocks_output. split; intros (xr & xi & ar & ai & NZ & H & O); exists xr, xi, ar, ai; repeat split; auto; try apply O;
    intros; destruct (H i) as [H1 H2]; auto; rewrite ?E, <- ?E in *; auto.
Qed.

(** The same with the vector of the source itself. *)
Lemma zeros_source : forall inv nonsing eigvals pz_max cmin nv es o src M d0 dc shift u poles zeros,
  numpy_ok inv nonsing eigvals (nv - 1 + n_vde es) (length (reactives nv es 0)) ->
  (1 <= nv)%nat -> wf_circ nv es -> no_coupling es -> distinct_vdes es ->
  (fst o < nv)%nat -> (snd o < nv)%nat -> reactives nv es 0 <> [] ->
  generate_D 0 nv es = Ok d0 -> generate_D cmin nv es = Ok dc -> shift = 0 \/ cmin <= 0 ->
  pz_once inv nonsing eigvals pz_max (nv - 1 + n_vde es) M (reduce_mat dc) (reactives nv es 0) (Some (src, o)) shift u = PDone poles zeros ->
  shift < 10 ^ 12 \/ zeros <> [] ->
  forall z, In z zeros <->
    (cabs z < pz_max /\ blocks_output (nv - 1 + n_vde es) M (reduce_mat d0) src o (rads z)).
Proof.
  intros inv nonsing eigvals pz_max cmin nv es o src M d0 dc shift u poles zeros (HI & HN & HE) Hnv Wf NC ND O1 O2 NE G0 Gc HS H HB z.
  unfold pz_once in H. destruct (inv _) as [W|] eqn:EW; [|discriminate]. apply HI in EW.
  destruct (Nat.eqb_spec (length (reactives nv es 0)) 0) as [Z|Z]; [destruct (reactives nv es 0); [contradiction|discriminate]|].
  destruct (nonsing _ _) eqn:En; cbn [negb] in H; [|discriminate].
  destruct (forallb _ _).
  { unfold Rlt_b in H. destruct (Rlt_dec shift (10 ^ 12)) as [L|L]; [discriminate|]. injection H as <- <-. destruct HB as [HB|HB]; contradiction. }
  unfold is_zero at 1 in H. destruct (Req_EM_T (ROUTIN (nv - 1 + n_vde es) W src o) 0) as [Er|Er]; [discriminate|].
  destruct (existsb _ _) eqn:Ex; [discriminate|]. injection H as <- <-.
  apply (freq_In pz_max shift _ (length (reactives nv es 0)) (ZTCM (nv - 1 + n_vde es) (reactives nv es 0) W src o)); [apply HE| |].
  - intros l Hl. assert (F : (is_zero (fst l) && is_zero (snd l))%bool = false).
    { destruct (is_zero (fst l) && is_zero (snd l))%bool eqn:F; [|reflexivity]. rewrite <- Ex. symmetry. apply existsb_exists. eauto. }
    unfold is_zero in F. destruct (Req_EM_T (fst l) 0); [|auto]. destruct (Req_EM_T (snd l) 0); [discriminate|auto].
  - apply (zeros_circuit nv es M d0 dc cmin shift); auto.
Qed.

Theorem C119_zeros : forall inv nonsing eigvals pz_max cmin nv es id o src M m Nv d0 dc shift u poles zeros,
  numpy_ok inv nonsing eigvals (nv - 1 + n_vde es) (length (reactives nv es 0)) ->
  (1 <= nv)%nat -> wf_circ nv es -> no_coupling es -> distinct_vdes es -> NoDup (map lid es) ->
  (fst o < nv)%nat -> (snd o < nv)%nat -> reactives nv es 0 <> [] ->
  generate_mna_and_N nv (map (drive id) es) = Ok (m, Nv) ->
  generate_D 0 nv es = Ok d0 -> generate_D cmin nv es = Ok dc -> shift = 0 \/ cmin <= 0 ->
  source_inj nv es 0 id = Ok src ->
  pz_once inv nonsing eigvals pz_max (nv - 1 + n_vde es) M (reduce_mat dc) (reactives nv es 0) (Some (src, o)) shift u = PDone poles zeros ->
  shift < 10 ^ 12 \/ zeros <> [] ->
  forall z, In z zeros <->
    (cabs z < pz_max /\ blocks_output (nv - 1 + n_vde es) M (reduce_mat d0) (reduce_vec Nv) o (rads z)).
Proof.
  intros inv nonsing eigvals pz_max cmin nv es id o src M m Nv d0 dc shift u poles zeros HO Hnv Wf NC ND NI O1 O2 NE Gm G0 Gc HS Hs H HB z.
  rewrite <- (blocks_ext _ _ _ src (reduce_vec Nv) o (rads z)) by (apply (source_vec nv id es src m Nv); auto).
  exact (zeros_source inv nonsing eigvals pz_max cmin nv es o src M d0 dc shift u poles zeros HO Hnv Wf NC ND O1 O2 NE G0 Gc HS H HB z).
Qed.

Theorem C119_all : forall inv nonsing eigvals pz_max cmin nv es id o M m Nv d0 fuel u shift poles zeros,
  numpy_ok inv nonsing eigvals (nv - 1 + n_vde es) (length (reactives nv es 0)) ->
  (1 <= nv)%nat -> wf_circ nv es -> no_coupling es -> distinct_vdes es -> NoDup (map lid es) ->
  (fst o < nv)%nat -> (snd o < nv)%nat ->
  generate_mna_and_N nv (map (drive id) es) = Ok (m, Nv) ->
  generate_D 0 nv es = Ok d0 -> cmin <= 0 ->
  calculate_singularities inv nonsing eigvals pz_max cmin nv es M (Some (id, o)) fuel u shift = Some (PDone poles zeros) ->
  zeros <> [] ->
  forall z, In z zeros <->
    (cabs z < pz_max /\ blocks_output (nv - 1 + n_vde es) M (reduce_mat d0) (reduce_vec Nv) o (rads z)).
Proof.
  intros inv nonsing eigvals pz_max cmin nv es id o M m Nv d0 fuel u shift poles zeros HO Hnv Wf NC ND NI O1 O2 Gm G0 Hc H NZ.
  unfold calculate_singularities in H. destruct (source_inj nv es 0 id) as [src|e] eqn:Es; [|discriminate].
  destruct (generate_D cmin nv es) as [dc|e] eqn:Gc; [|discriminate].
  apply run_once in H; [|discriminate]. destruct H as (shift' & u' & H).
  apply (C119_zeros inv nonsing eigvals pz_max cmin nv es id o src M m Nv d0 dc shift' u' poles zeros); auto.
  intros E. rewrite E in H. unfold pz_once in H. destruct (inv _); [|discriminate]. cbn [length Nat.eqb] in H. injection H as <- <-. contradiction.
Qed.
Print Assumptions C119_zeros.
Print Assumptions C119_all.

(** ** Concrete numpy for small matrices *)
Definition nonsing1 (m : nat) (A : mat) : bool := negb (is_zero (A 0%nat 0%nat)).
Definition eigvals1 (m : nat) (A : mat) : list cx := [(A 0%nat 0%nat, 0)].
Definition det2 (A : mat) : R := A 0%nat 0%nat * A 1%nat 1%nat - A 0%nat 1%nat * A 1%nat 0%nat.
Definition inv2 (A : mat) : option mat :=
  if Req_EM_T (det2 A) 0 then None
  else Some (fun i j => match i, j with
                        | O, O => A 1%nat 1%nat / det2 A
                        | O, _ => - A 0%nat 1%nat / det2 A
                        | _, O => - A 1%nat 0%nat / det2 A
                        | _, _ => A 0%nat 0%nat / det2 A end).
Definition nonsing2 (m : nat) (A : mat) : bool := negb (is_zero (det2 A)).

Lemma inv1_ok : forall A W, inv1 A = Some W -> is_inverse 1 A W.
Proof.
  intros A W H i j Hi Hj. unfold inv1 in H. destruct Req_EM_T as [|E]; [discriminate|]. injection H as <-.
  replace i with 0%nat by lia. replace j with 0%nat by lia. cbn [rsum]. rewrite dlt_same. split; field; exact E.
Qed.
Lemma inv2_ok : forall A W, inv2 A = Some W -> is_inverse 2 A W.
Proof.
  intros A W H i j Hi Hj. unfold inv2 in H. destruct Req_EM_T as [|E]; [discriminate|]. injection H as <-.
  unfold det2 in *.
  destruct i as [|[|i]]; [| |lia]; (destruct j as [|[|j]]; [| |lia]); cbn [rsum]; unfold dlt; cbn [Nat.eqb]; split; field; exact E.
Qed.
Lemma nonsing1_ok : forall A, nonsing1 1 A = true <-> ~ singular 1 A.
Proof.
  intros A. unfold nonsing1, is_zero. destruct (Req_EM_T (A 0%nat 0%nat) 0) as [E|E]; cbn [negb]; split; auto; try discriminate.
  - intros NS. exfalso. apply NS. exists (fun _ => 1). split; [exists 0%nat; split; [lia|lra]|]. intros a Ha. unfold row. cbn [rsum].
    replace a with 0%nat by lia. rewrite E. ring.
  - intros _ (y & (a & Ha & Hy) & H). specialize (H 0%nat ltac:(lia)). unfold row in H. cbn [rsum] in H.
    replace a with 0%nat in Hy by lia. apply Hy. apply Rmult_eq_reg_l with (A 0%nat 0%nat); [lra|exact E].
Qed.
Lemma eigvals1_ok : forall A, eigenvalues 1 A (eigvals1 1 A).
Proof.
  intros A l. unfold eigvals1. cbn [In]. split.
  - intros [<-|[]]. exists (fun _ => 1), (fun _ => 0). split; [exists 0%nat; split; [lia|left; lra]|].
    intros a Ha. replace a with 0%nat by lia. unfold row. cbn [rsum fst snd]. split; ring.
  - intros (yr & yi & (a & Ha & NZ) & H). left. destruct (H 0%nat ltac:(lia)) as [H1 H2]. unfold row in H1, H2. cbn [rsum] in H1, H2.
    replace a with 0%nat in NZ by lia. destruct l as [p q]. cbn [fst snd] in *.
    set (r := yr 0%nat) in *. set (t := yi 0%nat) in *. set (e := A 0%nat 0%nat) in *.
    assert (P : (r * r + t * t) <> 0) by (destruct NZ; nra).
    assert (E1 : (e - p) * (r * r + t * t) = 0).
    { replace ((e - p) * (r * r + t * t)) with ((0 + e * r) * r + (0 + e * t) * t - p * (r * r + t * t)) by ring. rewrite H1, H2. ring. }
    assert (E2 : q * (r * r + t * t) = 0).
    { replace (q * (r * r + t * t)) with ((p * t + q * r) * r - (p * r - q * t) * t) by ring. rewrite <- H1, <- H2. ring. }
    apply Rmult_integral in E1. apply Rmult_integral in E2.
    destruct E1 as [E1|E1]; [|contradiction]. destruct E2 as [E2|E2]; [|contradiction]. f_equal; lra.
Qed.
Lemma nonsing2_ok : forall A, nonsing2 2 A = true <-> ~ singular 2 A.
Proof.
  intros A. unfold nonsing2, is_zero. destruct (Req_EM_T (det2 A) 0) as [E|E]; cbn [negb]; split; auto; try discriminate.
  - intros NS. exfalso. unfold det2 in E. apply NS.
    set (a := A 0%nat 0%nat) in *. set (b := A 0%nat 1%nat) in *. set (c := A 1%nat 0%nat) in *. set (d := A 1%nat 1%nat) in *.
    assert (K : forall y : vec, a * y 0%nat + b * y 1%nat = 0 -> c * y 0%nat + d * y 1%nat = 0 -> forall i, (i < 2)%nat -> row 2 A i y = 0).
    { intros y K1 K2 i Hi. unfold row. cbn [rsum]. destruct i as [|[|i]]; [| |lia]; fold a b c d; lra. }
    destruct (Req_EM_T a 0) as [Ea|Ea], (Req_EM_T b 0) as [Eb|Eb].
    + destruct (Req_EM_T c 0) as [Ec|Ec].
      * exists (fun i => match i with O => 1 | _ => 0 end). split; [exists 0%nat; split; [lia|lra]|]. apply K; cbn; rewrite ?Ea, ?Ec; ring.
      * exists (fun i => match i with O => d | _ => - c end). split; [exists 1%nat; split; [lia|lra]|]. apply K; cbn; rewrite ?Ea, ?Eb; ring.
    + exists (fun i => match i with O => b | _ => - a end). split; [exists 0%nat; split; [lia|exact Eb]|]. apply K; cbn; lra.
    + exists (fun i => match i with O => b | _ => - a end). split; [exists 1%nat; split; [lia|lra]|]. apply K; cbn; lra.
    + exists (fun i => match i with O => b | _ => - a end). split; [exists 0%nat; split; [lia|exact Eb]|]. apply K; cbn; lra.
  - intros _ (y & (i & Hi & Hy) & H). pose proof (H 0%nat ltac:(lia)) as H0. pose proof (H 1%nat ltac:(lia)) as H1.
    unfold row in H0, H1. cbn [rsum] in H0, H1. unfold det2 in E.
    set (a := A 0%nat 0%nat) in *. set (b := A 0%nat 1%nat) in *. set (c := A 1%nat 0%nat) in *. set (d := A 1%nat 1%nat) in *.
    assert (Y0 : y 0%nat * (a * d - b * c) = 0).
    { replace (y 0%nat * (a * d - b * c)) with (d * (0 + a * y 0%nat + b * y 1%nat) - b * (0 + c * y 0%nat + d * y 1%nat)) by ring. rewrite H0, H1. ring. }
    assert (Y1 : y 1%nat * (a * d - b * c) = 0).
    { replace (y 1%nat * (a * d - b * c)) with (a * (0 + c * y 0%nat + d * y 1%nat) - c * (0 + a * y 0%nat + b * y 1%nat)) by ring. rewrite H0, H1. ring. }
    apply Rmult_integral in Y0. apply Rmult_integral in Y1. destruct i as [|[|i]]; [| |lia]; tauto.
Qed.

(** ** A current source on R1 + C1 in series, with R2 in parallel *)
Definition rrc : list lelem :=
  [EI "I1" 1 0 1 false; ER "R1" 1 2 1; ER "R2" 1 0 1; EC "C1" 2 0 1]%string.
Example C62_numpy : numpy_ok inv2 nonsing1 eigvals1 2 1.
Proof. split; [exact inv2_ok|]. split; [exact nonsing1_ok|exact eigvals1_ok]. Qed.
Definition rrc_m : mat := match generate_mna_and_N 3 (map (drive "I1") rrc) with Ok (m, _) => m | Err _ => mzero end.
Definition rrc_N : vec := match generate_mna_and_N 3 (map (drive "I1") rrc) with Ok (_, v) => v | Err _ => vzero end.
Definition rrc_d : mat := match generate_D 0 3 rrc with Ok d => d | Err _ => mzero end.
Lemma rrc_mna : generate_mna_and_N 3 (map (drive "I1") rrc) = Ok (rrc_m, rrc_N).
Proof. reflexivity. Qed.
Lemma rrc_dyn : generate_D 0 3 rrc = Ok rrc_d.
Proof. reflexivity. Qed.
Lemma rrc_M : reduce_mat rrc_m 0%nat 0%nat = 2 /\ reduce_mat rrc_m 0%nat 1%nat = -1 /\ reduce_mat rrc_m 1%nat 0%nat = -1 /\ reduce_mat rrc_m 1%nat 1%nat = 1.
Proof. unfold reduce_mat, rrc_m, rrc. cbn. unfold mzero. repeat split; field. Qed.
Lemma rrc_D : reduce_mat rrc_d 0%nat 0%nat = 0 /\ reduce_mat rrc_d 0%nat 1%nat = 0 /\ reduce_mat rrc_d 1%nat 0%nat = 0 /\ reduce_mat rrc_d 1%nat 1%nat = 1.
Proof. unfold reduce_mat, rrc_d, rrc, generate_D, add_cmin. cbn [dyn_loop bindr is_vde]. destruct (Rlt_dec 0 0) as [L|L]; [exfalso; lra|]. cbn. unfold mzero. repeat split; field. Qed.
Lemma rrc_Nv : reduce_vec rrc_N 0%nat = 1 /\ reduce_vec rrc_N 1%nat = 0.
Proof. unfold reduce_vec, rrc_N, rrc. cbn. unfold vzero. repeat split; field. Qed.
Lemma is_zero_false : forall a, a <> 0 -> is_zero a = false.
Proof. intros. unfold is_zero. destruct (Req_EM_T a 0); [contradiction|reflexivity]. Qed.

Example C119_example : exists poles zeros,
  generate_mna_and_N 3 (map (drive "I1") rrc) = Ok (rrc_m, rrc_N) /\ generate_D 0 3 rrc = Ok rrc_d /\
  calculate_singularities inv2 nonsing1 eigvals1 (10 ^ 12) 0 3 rrc (reduce_mat rrc_m) (Some ("I1"%string, (1%nat, 0%nat))) 1 (fun _ => 0) 0
    = Some (PDone poles zeros) /\
  map rads poles = [(- (1 / 2), 0)] /\ map rads zeros = [(-1, 0)] /\
  natural 2 (reduce_mat rrc_m) (reduce_mat rrc_d) (- (1 / 2), 0) /\
  blocks_output 2 (reduce_mat rrc_m) (reduce_mat rrc_d) (reduce_vec rrc_N) (1%nat, 0%nat) (-1, 0).
Proof.
  destruct rrc_M as (M00 & M01 & M10 & M11). destruct rrc_D as (D00 & D01 & D10 & D11). destruct rrc_Nv as (N0 & N1).
  set (Mr := reduce_mat rrc_m) in *. set (Dr := reduce_mat rrc_d) in *.
  set (A := mplus Mr (mscale 0 Dr)).
  assert (A00 : A 0%nat 0%nat = 2) by (unfold A, mplus, mscale; lra). assert (A01 : A 0%nat 1%nat = -1) by (unfold A, mplus, mscale; lra).
  assert (A10 : A 1%nat 0%nat = -1) by (unfold A, mplus, mscale; lra). assert (A11 : A 1%nat 1%nat = 1) by (unfold A, mplus, mscale; lra).
  assert (HW : exists W, inv2 A = Some W /\ W 0%nat 0%nat = 1 /\ W 0%nat 1%nat = 1 /\ W 1%nat 0%nat = 1 /\ W 1%nat 1%nat = 2).
  { unfold inv2. destruct Req_EM_T as [E|E]; [exfalso; unfold det2 in E; rewrite A00, A01, A10, A11 in E; lra|]. eexists. split; [reflexivity|]. cbn beta iota. unfold det2. rewrite A00, A01, A10, A11.
    repeat split; field. }
  destruct HW as (W & HW & W00 & W01 & W10 & W11).
  set (rs := reactives 3 rrc 0). set (src := mc_nodes 1 0).
  assert (Hsrc : source_inj 3 rrc 0 "I1" = Ok src) by reflexivity.
  assert (T : TCM 2 rs W 0%nat 0%nat = -2).
  { unfold TCM, rs, TV, mvec, row, mc_nodes, read_nodes. cbn. unfold read_nodes, mc_nodes, vadd, vset, vzero. cbn. lra. }
  assert (Ri : RIIN 2 rs W src 0%nat = -1) by (unfold RIIN, rs, src, TV, mvec, row; cbn; unfold read_nodes, mc_nodes, vadd, vset, vzero; cbn; lra).
  assert (Roi : ROUTIN 2 W src (1%nat, 0%nat) = -1) by (unfold ROUTIN, rs, src, TV, mvec, row; cbn; unfold read_nodes, mc_nodes, vadd, vset, vzero; cbn; lra).
  assert (Ro : ROUT 2 rs W (1%nat, 0%nat) 0%nat = -1) by (unfold ROUT, rs, src, TV, mvec, row; cbn; unfold read_nodes, mc_nodes, vadd, vset, vzero; cbn; lra).
  assert (Z : ZTCM 2 rs W src (1%nat, 0%nat) 0%nat 0%nat = -1) by (unfold ZTCM; rewrite T, Ri, Roi, Ro; field).
  assert (C : forall x, -1 <= x <= 0 -> Rlt_b (cabs (1 / (2 * PI) * x, 0)) (10 ^ 12) = true).
  { intros x Hx. unfold Rlt_b. destruct Rlt_dec as [L|L]; [reflexivity|exfalso; apply L]. unfold cabs. cbn [fst snd].
    pose proof PI_RGT_0 as P. pose proof PI2_3_2 as P2.
    apply Rle_lt_trans with (sqrt (1 * 1)); [|rewrite sqrt_square by lra; lra].
    apply sqrt_le_1_alt.
    assert (Q : 0 <= 1 / (2 * PI) <= 1).
    { split; [apply Rmult_le_pos; [lra|left; apply Rinv_0_lt_compat; lra]|].
      apply Rmult_le_reg_r with (2 * PI); [lra|]. unfold Rdiv. rewrite Rmult_assoc, Rinv_l by lra. lra. }
    set (k := 1 / (2 * PI)) in *. assert (-1 <= k * x <= 0) by (split; nra). nra. }
  exists [(1 / (2 * PI) * (- (1 / 2)), 0)], [(1 / (2 * PI) * -1, 0)].
  split; [apply rrc_mna|]. split; [apply rrc_dyn|]. split; [|split; [|split; [|split]]].
  - unfold calculate_singularities. rewrite Hsrc, rrc_dyn. cbn [pz_run]. unfold pz_once.
    change (3 - 1 + n_vde rrc)%nat with 2%nat. fold Mr Dr A. rewrite HW.
    change (reactives 3 rrc 0) with rs. change (length rs) with 1%nat. cbn [Nat.eqb]. unfold nonsing1, eigvals1. rewrite T, is_zero_false by lra. cbn [negb seq forallb existsb map].
    rewrite Ro, Roi, Z. rewrite !is_zero_false by (cbn; lra). cbn [fst andb orb].
    unfold freq. cbn [fst snd cinv]. unfold cut. cbn [filter].
    replace (1 / (2 * PI) * (-2 / (-2 * -2 + 0 * 0) + 0)) with (1 / (2 * PI) * (- (1 / 2))) by (f_equal; field).
    replace (1 / (2 * PI) * (-1 / (-1 * -1 + 0 * 0) + 0)) with (1 / (2 * PI) * -1) by (f_equal; field).
    replace (1 / (2 * PI) * (-0 / (-2 * -2 + 0 * 0))) with 0 by (pose proof PI_RGT_0; field; lra).
    replace (1 / (2 * PI) * (-0 / (-1 * -1 + 0 * 0))) with 0 by (pose proof PI_RGT_0; field; lra).
    rewrite !C by lra. reflexivity.
  - cbn [map]. unfold rads. cbn [fst snd]. pose proof PI_RGT_0. do 2 f_equal; field; lra.
  - cbn [map]. unfold rads. cbn [fst snd]. pose proof PI_RGT_0. do 2 f_equal; field; lra.
  - exists (fun i => match i with O => 1 | _ => 2 end), (fun _ => 0). split; [exists 0%nat; split; [lia|left; lra]|].
    intros i Hi. unfold row. cbn [rsum fst snd]. destruct i as [|[|i]]; [| |lia]; rewrite ?M00, ?M01, ?M10, ?M11, ?D00, ?D01, ?D10, ?D11; split; field.
  - exists (fun i => match i with O => 0 | _ => 1 end), (fun _ => 0), 1, 0. split; [left; exists 1%nat; split; [lia|left; lra]|]. split.
    + intros i Hi. unfold row. cbn [rsum fst snd]. destruct i as [|[|i]]; [| |lia]; rewrite ?M00, ?M01, ?M10, ?M11, ?D00, ?D01, ?D10, ?D11, ?N0, ?N1; split; field.
    + cbn. unfold read_nodes. cbn. split; ring.
Qed.






(** ** Coupled inductors are taken as uncoupled *)
Definition klist : list lelem :=
  [ER "R1" 1 0 1; ER "R2" 2 0 1; EL "L1" 1 0 1; EL "L2" 2 0 1; EK "K1" "L1" "L2" (1 / 2) (1 / 2)]%string.
Definition kl_m : mat := match generate_mna_and_N 3 klist with Ok (m, _) => m | Err _ => mzero end.
Definition kl_d : mat := match generate_D 0 3 klist with Ok d => d | Err _ => mzero end.
(** The inverse of the matrix at shift 0. *)
Definition kl_W : mat := fun i j =>
  match i, j with
  | 0%nat, 2%nat => 1 | 1%nat, 3%nat => 1 | 2%nat, 0%nat => 1 | 2%nat, 2%nat => -1 | 3%nat, 1%nat => 1 | 3%nat, 3%nat => -1 | _, _ => 0
  end.
Ltac below4 i Hi := destruct i as [|[|[|[|i]]]]; [| | | |exfalso; lia]; clear Hi.
Lemma kl_mv : forall i j, (i < 4)%nat -> (j < 4)%nat -> reduce_mat kl_m i j =
  match i, j with
  | 0%nat, 0%nat => 1 | 1%nat, 1%nat => 1 | 0%nat, 2%nat => 1 | 2%nat, 0%nat => 1 | 1%nat, 3%nat => 1 | 3%nat, 1%nat => 1 | _, _ => 0
  end.
Proof.
  intros i j Hi Hj. below4 i Hi; below4 j Hj; unfold reduce_mat, kl_m, klist; cbn; unfold mzero; try reflexivity; field.
Qed.
Lemma kl_dv : forall i j, (i < 4)%nat -> (j < 4)%nat -> reduce_mat kl_d i j =
  match i, j with
  | 2%nat, 2%nat => -1 | 3%nat, 3%nat => -1 | 2%nat, 3%nat => - (1 / 2) | 3%nat, 2%nat => - (1 / 2) | _, _ => 0
  end.
Proof.
  intros i j Hi Hj. below4 i Hi; below4 j Hj; cbv -[Rplus Ropp Rmult Rinv Rminus Rdiv IZR Rlt_dec];
    (destruct (Rlt_dec 0 0) as [L|L]; [exfalso; lra|]); try reflexivity; field.
Qed.

Theorem C62_refuted : exists inv nonsing eigvals pz_max nv es m Nv d0 W poles,
  let N := (nv - 1 + n_vde es)%nat in let rs := reactives nv es 0 in let M := reduce_mat m in
  (1 <= nv)%nat /\ wf_circ nv es /\ Forall (wf_coupling es) es /\ distinct_vdes es /\
  generate_mna_and_N nv es = Ok (m, Nv) /\ generate_D 0 nv es = Ok d0 /\
  inv (mplus M (mscale 0 (reduce_mat d0))) = Some W /\ is_inverse N (mplus M (mscale 0 (reduce_mat d0))) W /\
  nonsing (length rs) (TCM N rs W) = true /\ ~ singular (length rs) (TCM N rs W) /\
  eigenvalues (length rs) (TCM N rs W) (eigvals (length rs) (TCM N rs W)) /\
  calculate_singularities inv nonsing eigvals pz_max 0 nv es M None 1 (fun _ => 0) 0 = Some (PDone poles []) /\
  (exists p, In p poles /\ ~ natural N M (reduce_mat d0) (rads p)) /\
  (exists p, cabs p < pz_max /\ natural N M (reduce_mat d0) (rads p) /\ ~ In p poles).
Proof.
  pose proof PI_RGT_0 as P.
  set (t := (1 / (2 * PI) * -1, 0)).
  exists (fun _ => Some kl_W), (fun _ _ => true), (fun _ _ => [(-1, 0); (-1, 0)]), (10 ^ 12), 3%nat, klist, kl_m.
  exists (match generate_mna_and_N 3 klist with Ok (_, v) => v | Err _ => vzero end), kl_d, kl_W, [t; t].
  cbn zeta. change (3 - 1 + n_vde klist)%nat with 4%nat. change (length (reactives 3 klist 0)) with 2%nat.
  assert (T : forall a b, (a < 2)%nat -> (b < 2)%nat -> TCM 4 (reactives 3 klist 0) kl_W a b = - dlt a b).
  { intros a b Ha Hb. unfold TCM, TV, mvec, row. destruct a as [|[|a]]; [| |lia]; (destruct b as [|[|b]]; [| |lia]);
      cbn; unfold vadd, vset, vzero, dlt; cbn; lra. }
  assert (TR : forall a y, (a < 2)%nat -> row 2 (TCM 4 (reactives 3 klist 0) kl_W) a y = - y a).
  { intros a y Ha. unfold row. rewrite (rsum_ext 2 _ (fun j => -1 * (dlt j a * y j))).
    - rewrite rsum_scal, rsum_dlt by auto. ring.
    - intros j Hj. rewrite T by auto. rewrite dlt_sym. ring. }
  assert (Hcut : forall x, -1 <= x <= 0 -> cabs (1 / (2 * PI) * x, 0) < 10 ^ 12).
  { intros x Hx. unfold cabs. cbn [fst snd]. pose proof PI2_3_2 as P2.
    apply Rle_lt_trans with (sqrt (1 * 1)); [|rewrite sqrt_square by lra; lra].
    apply sqrt_le_1_alt.
    assert (Q : 0 <= 1 / (2 * PI) <= 1).
    { split; [apply Rmult_le_pos; [lra|left; apply Rinv_0_lt_compat; lra]|].
      apply Rmult_le_reg_r with (2 * PI); [lra|]. unfold Rdiv. rewrite Rmult_assoc, Rinv_l by lra. lra. }
    set (k := 1 / (2 * PI)) in *. assert (-1 <= k * x <= 0) by (split; nra). nra. }
  assert (Et : rads t = (-1, 0)) by (unfold rads, t; cbn [fst snd]; f_equal; field; lra).
  split; [lia|]. split; [repeat constructor; cbn; try lia|]. split.
  { repeat (apply Forall_cons; [cbn [wf_coupling]; auto|]); [|apply Forall_nil]. split; [|split].
    - exists (EL "L1" 1 0 1). cbn. auto.
    - exists (EL "L2" 2 0 1). cbn. auto 6.
    - cbn. discriminate. }
  split. { unfold distinct_vdes. cbn. repeat constructor; cbn; intuition discriminate. }
  split; [reflexivity|]. split; [reflexivity|]. split; [reflexivity|]. split.
  { intros i j Hi Hj. cbn [rsum]. unfold mplus, mscale. rewrite !kl_mv, !kl_dv by lia. below4 i Hi; below4 j Hj; unfold kl_W, dlt; cbn; split; lra. }
  split; [reflexivity|]. split.
  { intros (y & (a & Ha & Hy) & H). specialize (H a Ha). rewrite TR in H by auto. lra. }
  split.
  { intros l. cbn [In]. split.
    - intros H. assert (E : l = (-1, 0)) by (destruct H as [H|[H|[]]]; auto). rewrite E.
      exists (fun _ => 1), (fun _ => 0). split; [exists 0%nat; split; [lia|left; lra]|]. intros a Ha. rewrite !TR by auto. cbn [fst snd]. split; ring.
    - intros (yr & yi & (a & Ha & NZ) & H). left. destruct (H a Ha) as [H1 H2]. rewrite TR in H1, H2 by auto. destruct l as [p q]. cbn [fst snd] in *.
      set (r := yr a) in *. set (w := yi a) in *.
      assert (NN : (r * r + w * w) <> 0) by (destruct NZ; nra).
      assert (E1 : (-1 - p) * (r * r + w * w) = 0).
      { replace ((-1 - p) * (r * r + w * w)) with ((- r) * r + (- w) * w - p * (r * r + w * w)) by ring. rewrite H1, H2. ring. }
      assert (E2 : q * (r * r + w * w) = 0).
      { replace (q * (r * r + w * w)) with ((p * w + q * r) * r - (p * r - q * w) * w) by ring. rewrite <- H1, <- H2. ring. }
      apply Rmult_integral in E1. apply Rmult_integral in E2.
      destruct E1 as [E1|E1]; [|contradiction]. destruct E2 as [E2|E2]; [|contradiction]. f_equal; lra. }
  split.
  { unfold calculate_singularities. change (generate_D 0 3 klist) with (Ok kl_d). cbn [pz_run]. unfold pz_once. cbn [length reactives klist Nat.eqb negb map is_vde].
    replace (freq 0 (-1, 0)) with t.
    2:{ unfold freq, t, cinv. cbn [fst snd]. f_equal; [|field; lra]. f_equal. field. }
    unfold cut. cbn [filter]. unfold Rlt_b. destruct (Rlt_dec (cabs t) (10 ^ 12)) as [L|L]; [reflexivity|]. exfalso. apply L. unfold t. apply Hcut. lra. }
  split.
  - exists t. split; [cbn; auto|]. rewrite Et. intros (xr & xi & (i & Hi & NZ) & H).
    pose proof (H 0%nat ltac:(lia)) as H0. pose proof (H 1%nat ltac:(lia)) as H1. pose proof (H 2%nat ltac:(lia)) as H2. pose proof (H 3%nat ltac:(lia)) as H3. clear H.
    unfold row in H0, H1, H2, H3. cbn [rsum fst snd] in H0, H1, H2, H3. rewrite !kl_mv, !kl_dv in H0, H1, H2, H3 by lia.
    destruct H0 as [H0 G0], H1 as [H1 G1], H2 as [H2 G2], H3 as [H3 G3].
    assert (X2 : xr 2%nat = 0) by lra. assert (X3 : xr 3%nat = 0) by lra. assert (X0 : xr 0%nat = 0) by lra. assert (X1 : xr 1%nat = 0) by lra.
    assert (Y2 : xi 2%nat = 0) by lra. assert (Y3 : xi 3%nat = 0) by lra. assert (Y0 : xi 0%nat = 0) by lra. assert (Y1 : xi 1%nat = 0) by lra.
    below4 i Hi; destruct NZ; contradiction.
  - exists (1 / (2 * PI) * - (2 / 3), 0). split; [apply Hcut; lra|]. split.
    + replace (rads (1 / (2 * PI) * - (2 / 3), 0)) with (- (2 / 3), 0) by (unfold rads; cbn [fst snd]; f_equal; field; lra).
      exists (fun i => match i with O | 1%nat => -1 | _ => 1 end), (fun _ => 0). split; [exists 0%nat; split; [lia|left; lra]|].
      intros i Hi. unfold row. cbn [rsum fst snd]. rewrite !kl_mv, !kl_dv by lia. below4 i Hi; split; field.
    + unfold t. intros H. assert (E : (1 / (2 * PI) * -1, 0) = (1 / (2 * PI) * - (2 / 3), 0) :> cx) by (destruct H as [H|[H|[]]]; auto).
      injection E as E. apply Rmult_eq_reg_l in E; [lra|]. apply Rgt_not_eq. apply Rmult_lt_0_compat; [lra|apply Rinv_0_lt_compat; lra].
Qed.
Print Assumptions C62_refuted.

(** * C120: the analysis ends *)

(** With two capacitors in parallel the test on the determinant fails at any shift. *)
Lemma parallel_singular : forall N rs W a b, (a < b)%nat -> (b < length rs)%nat ->
  (forall i, r_inj (nth a rs r0) i = r_inj (nth b rs r0) i) ->
  (forall v w, (forall i, v i = w i) -> forall c, r_read (nth c rs r0) v = r_read (nth c rs r0) w) ->
  singular (length rs) (TCM N rs W).
Proof.
  intros N rs W a b Hab Hb HI HX.
  set (ca := r_val (nth a rs r0)). set (cb := r_val (nth b rs r0)).
  set (q := if Req_EM_T ca 0 then 1 else cb). set (w := if Req_EM_T ca 0 then 0 else - ca).
  assert (Hq : ca * q + cb * w = 0) by (unfold q, w; destruct (Req_EM_T ca 0) as [->|]; ring).
  assert (Hnz : q <> 0 \/ w <> 0) by (unfold q, w; destruct (Req_EM_T ca 0); [left; lra|right; lra]).
  exists (fun i => dlt i a * q + dlt i b * w). split.
  - destruct Hnz as [Z|Z].
    + exists a. split; [lia|]. rewrite dlt_same, dlt_other by lia. lra.
    + exists b. split; [lia|]. rewrite dlt_same, (dlt_other b a) by lia. lra.
  - intros i Hi. unfold row.
    rewrite (rsum_ext _ _ (fun j => q * (dlt j a * TCM N rs W i j) + w * (dlt j b * TCM N rs W i j))) by (intros; ring).
    rewrite rsum_plus, !rsum_scal, !rsum_dlt by lia. unfold TCM. fold ca cb.
    rewrite (HX (TV N W (r_inj (nth a rs r0))) (TV N W (r_inj (nth b rs r0)))).
    + set (v := r_read (nth i rs r0) _). replace (q * (v * ca) + w * (v * cb)) with (v * (ca * q + cb * w)) by ring. rewrite Hq. ring.
    + intros j. unfold TV, mvec, row. f_equal. apply rsum_ext. intros. rewrite HI. reflexivity.
Qed.

Lemma reactives_app : forall nv a k b, reactives nv (a ++ b) k = (reactives nv a k ++ reactives nv b (k + n_vde a))%list.
Proof.
  intros nv. induction a as [|e a IH]; intros k b; [cbn; f_equal; lia|].
  cbn [app reactives]. rewrite n_vde_cons.
  replace (reactives nv b (k + ((if is_vde e then 1 else 0) + n_vde a))) with (reactives nv b ((if is_vde e then S k else k) + n_vde a))
    by (f_equal; destruct (is_vde e); lia).
  destruct e; cbn [is_vde app] in *; rewrite IH; reflexivity.
Qed.
Lemma reactives_read : forall nv es k, Forall (fun r => forall v w, (forall i, v i = w i) -> r_read r v = r_read r w) (reactives nv es k).
Proof.
  intros nv es. induction es as [|e es IH]; intros k; [constructor|].
  cbn [reactives]. destruct e; auto; constructor; auto; cbn [r_read]; intros v w E.
  - unfold read_nodes. rewrite !E. reflexivity.
  - apply E.
Qed.

Lemma never_run : forall inv ns ev pm N M D rs io, (forall W, ns (length rs) (TCM N rs W) = false) -> rs <> [] ->
  forall fuel u shift poles zeros, pz_run inv ns ev pm N M D rs io fuel u shift <> Some (PDone poles zeros).
Proof.
  intros inv ns ev pm N M D rs io HS NE. induction fuel as [|f IH]; intros u shift poles zeros; [discriminate|].
  cbn [pz_run]. unfold pz_once. destruct (inv _) as [W|]; [|discriminate].
  destruct (Nat.eqb_spec (length rs) 0) as [Z|Z]; [destruct rs; [contradiction|discriminate]|].
  rewrite HS. cbn [negb]. apply IH.
Qed.

Theorem C120_parallel : forall inv nonsing eigvals pz_max cmin nv pre mid post i1 i2 n1 n2 c1 c2 M input,
  let es := (pre ++ EC i1 n1 n2 c1 :: mid ++ EC i2 n1 n2 c2 :: post)%list in
  (forall A, nonsing (length (reactives nv es 0)) A = true <-> ~ singular (length (reactives nv es 0)) A) ->
  forall fuel u shift poles zeros,
    calculate_singularities inv nonsing eigvals pz_max cmin nv es M input fuel u shift <> Some (PDone poles zeros).
Proof.
  intros inv nonsing eigvals pz_max cmin nv pre mid post i1 i2 n1 n2 c1 c2 M input es HN fuel u shift poles zeros.
  set (rs := reactives nv es 0) in *.
  assert (R1 : exists p x q, rs = (p ++ mkReact (mc_nodes n1 n2) (read_nodes n1 n2) c1 :: x ++ mkReact (mc_nodes n1 n2) (read_nodes n1 n2) c2 :: q)%list).
  { unfold rs, es. rewrite reactives_app. cbn [reactives is_vde]. rewrite reactives_app. cbn [reactives is_vde]. eauto. }
  destruct R1 as (p & x & q & R1).
  assert (NS : forall W, nonsing (length rs) (TCM (nv - 1 + n_vde es) rs W) = false).
  { intros W. destruct (nonsing (length rs) (TCM (nv - 1 + n_vde es) rs W)) eqn:E; [|reflexivity]. exfalso. apply HN in E. apply E.
    assert (Na : nth (length p) rs r0 = mkReact (mc_nodes n1 n2) (read_nodes n1 n2) c1) by (rewrite R1, app_nth2, Nat.sub_diag by lia; reflexivity).
    assert (Nb : nth (length p + S (length x)) rs r0 = mkReact (mc_nodes n1 n2) (read_nodes n1 n2) c2).
    { rewrite R1, app_nth2 by lia. replace (length p + S (length x) - length p)%nat with (S (length x)) by lia. cbn [nth].
      rewrite app_nth2, Nat.sub_diag by lia. reflexivity. }
    apply (parallel_singular _ _ _ (length p) (length p + S (length x))); [lia| | |].
    - rewrite R1, app_length. cbn [length]. rewrite app_length. cbn [length]. lia.
    - intros i. rewrite Na, Nb. reflexivity.
    - intros v w E' c. destruct (Nat.lt_ge_cases c (length rs)) as [Hc|Hc].
      + pose proof (reactives_read nv es 0) as F. rewrite Forall_forall in F. apply F; [apply nth_In; exact Hc|exact E'].
      + rewrite nth_overflow by exact Hc. reflexivity. }
  assert (NE : rs <> []) by (rewrite R1; destruct p; discriminate).
  unfold calculate_singularities. fold rs.
  assert (K : forall io, match generate_D cmin nv es with
     | Err e => Some (PErr e)
     | Ok d => pz_run inv nonsing eigvals pz_max (nv - 1 + n_vde es) M (reduce_mat d) rs io fuel u shift end <> Some (PDone poles zeros)).
  { intros io. destruct (generate_D cmin nv es); [apply never_run; auto|discriminate]. }
  destruct input as [[id o]|]; [|apply K]. destruct (source_inj nv es 0 id); [apply K|discriminate].
Qed.

(** An ordinary circuit, any random numbers: the function calls itself until python
    gives up. *)
Definition rcc : list lelem := [ER "R1" 1 0 1; EC "C1" 1 0 1; EC "C2" 1 0 1]%string.
Theorem C120_refuted : exists inv nonsing nv es m Nv,
  (forall A W, inv A = Some W -> is_inverse (nv - 1 + n_vde es) A W) /\
  (forall A, nonsing (length (reactives nv es 0)) A = true <-> ~ singular (length (reactives nv es 0)) A) /\
  (1 <= nv)%nat /\ wf_circ nv es /\ NoDup (map lid es) /\ generate_mna_and_N nv es = Ok (m, Nv) /\
  forall eigvals pz_max cmin fuel u,
    calculate_singularities inv nonsing eigvals pz_max cmin nv es (reduce_mat m) None fuel u 0 = None.
Proof.
  exists inv1, nonsing2, 2%nat, rcc, (match generate_mna_and_N 2 rcc with Ok (m, _) => m | Err _ => mzero end).
  exists (match generate_mna_and_N 2 rcc with Ok (_, v) => v | Err _ => vzero end).
  split; [exact inv1_ok|]. split; [exact nonsing2_ok|]. split; [lia|].
  split; [repeat constructor; cbn; try lia; discriminate|].
  split; [cbn; repeat constructor; cbn; intuition discriminate|]. split; [reflexivity|].
  intros eigvals pz_max cmin fuel u.
  set (M := reduce_mat _). assert (HM : M 0%nat 0%nat = 1) by (unfold M, reduce_mat, rcc; cbn; unfold mzero; field).
  unfold calculate_singularities. destruct (generate_D cmin 2 rcc) as [d|] eqn:G.
  2:{ exfalso. unfold generate_D in G. cbn in G. discriminate. }
  assert (HD : 0 <= reduce_mat d 0%nat 0%nat).
  { unfold generate_D in G. cbn [dyn_loop rcc is_vde bindr] in G. injection G as <-. unfold reduce_mat, add_cmin.
    destruct (Rlt_dec 0 cmin) as [L|L]; cbn; unfold mzero, dlt; cbn; lra. }
  assert (HT : forall W, nonsing2 2 (TCM (2 - 1 + n_vde rcc) (reactives 2 rcc 0) W) = false).
  { intros W. unfold nonsing2, det2, is_zero. destruct Req_EM_T as [E|E]; [reflexivity|]. exfalso. apply E. unfold TCM. cbn. ring. }
  assert (K : forall fuel u shift, 0 <= shift ->
    pz_run inv1 nonsing2 eigvals pz_max (2 - 1 + n_vde rcc) M (reduce_mat d) (reactives 2 rcc 0) None fuel u shift = None).
  { clear fuel u. induction fuel as [|f IH]; intros u shift Hs; [reflexivity|].
    cbn [pz_run]. unfold pz_once. unfold inv1 at 1. destruct Req_EM_T as [E|E].
    - exfalso. unfold mplus, mscale in E. nra.
    - change (length (reactives 2 rcc 0)) with 2%nat. cbn [Nat.eqb]. rewrite HT. cbn [negb]. apply IH.
      pose proof (Rabs_pos (1 + u O)). lra. }
  apply K. lra.
Qed.

(** Zeros seen from a node tied to the source: no capacitor is seen from there, the
    next shift is a multiple of the null one, and this never changes. *)
Definition vrc : list lelem := [EV "V1" 1 0 1 false; ER "R1" 1 2 1; EC "C1" 2 0 1]%string.
Definition vrc_W : mat := fun i j =>
  match i, j with
  | 0%nat, 2%nat => 1 | 1%nat, 1%nat => 1 | 1%nat, 2%nat => 1 | 2%nat, 0%nat => 1 | 2%nat, 1%nat => 1 | _, _ => 0
  end.
Definition vrc_m : mat := match generate_mna_and_N 3 vrc with Ok (m, _) => m | Err _ => mzero end.
Theorem C120_output_refuted : exists W m Nv d0,
  generate_mna_and_N 3 vrc = Ok (m, Nv) /\ generate_D 0 3 vrc = Ok d0 /\
  is_inverse 3 (mplus (reduce_mat m) (mscale 0 (reduce_mat d0))) W /\
  forall cmin pz_max fuel u,
    calculate_singularities (fun _ => Some W) nonsing1 eigvals1 pz_max cmin 3 vrc (reduce_mat m) (Some ("V1"%string, (1%nat, 0%nat))) fuel u 0 = None.
Proof.
  exists vrc_W, vrc_m, (match generate_mna_and_N 3 vrc with Ok (_, v) => v | Err _ => vzero end), (match generate_D 0 3 vrc with Ok d => d | Err _ => mzero end).
  split; [reflexivity|]. split; [reflexivity|].
  assert (MV : forall i j, (i < 3)%nat -> (j < 3)%nat -> reduce_mat vrc_m i j =
     match i, j with 0%nat, 0%nat => 1 | 0%nat, 1%nat => -1 | 1%nat, 0%nat => -1 | 1%nat, 1%nat => 1 | 0%nat, 2%nat => 1 | 2%nat, 0%nat => 1 | _, _ => 0 end).
  { intros i j Hi Hj. destruct i as [|[|[|i]]]; [| | |lia]; (destruct j as [|[|[|j]]]; [| | |lia]);
      unfold reduce_mat, vrc_m, vrc; cbn; unfold mzero; try reflexivity; field. }
  split.
  { intros i j Hi Hj. cbn [rsum]. unfold mplus, mscale. rewrite !MV by lia.
    destruct i as [|[|[|i]]]; [| | |lia]; (destruct j as [|[|[|j]]]; [| | |lia]); unfold vrc_W, dlt; cbn [Nat.eqb]; split; ring. }
  intros cmin pz_max fuel u. unfold calculate_singularities.
  change (source_inj 3 vrc 0 "V1") with (Ok (vadd vzero 2 (-1))).
  destruct (generate_D cmin 3 vrc) as [d|] eqn:G.
  2:{ exfalso. unfold generate_D in G. cbn in G. discriminate. }
  assert (K : forall fuel u, pz_run (fun _ => Some vrc_W) nonsing1 eigvals1 pz_max 3 (reduce_mat vrc_m) (reduce_mat d) (reactives 3 vrc 0)
     (Some (vadd vzero 2 (-1), (1%nat, 0%nat))) fuel u 0 = None).
  { clear fuel u. induction fuel as [|f IH]; intros u; [reflexivity|].
    cbn [pz_run]. unfold pz_once. change (length (reactives 3 vrc 0)) with 1%nat. cbn [Nat.eqb].
    assert (HT : nonsing1 1 (TCM 3 (reactives 3 vrc 0) vrc_W) = true).
    { unfold nonsing1. rewrite is_zero_false; [reflexivity|]. unfold TCM, TV, mvec, row. cbn. unfold read_nodes, mc_nodes, vadd, vset, vzero. cbn. lra. }
    rewrite HT. cbn [negb seq forallb].
    assert (HR : is_zero (ROUT 3 (reactives 3 vrc 0) vrc_W (1%nat, 0%nat) 0%nat) = true).
    { unfold is_zero. destruct Req_EM_T as [E|E]; [reflexivity|]. exfalso. apply E. unfold ROUT, TV, mvec, row. cbn. unfold read_nodes, mc_nodes, vadd, vset, vzero. cbn. lra. }
    rewrite HR. cbn [andb]. unfold Rlt_b. destruct (Rlt_dec 0 (10 ^ 12)) as [L|L]; [|exfalso; apply L; apply pow_lt; lra].
    rewrite !Rmult_0_l. apply IH. }
  apply K.
Qed.
(** What does hold: the poles alone, with a regular matrix, take one call. *)
Theorem C120_one_call : forall inv nonsing eigvals pz_max N M D rs W u shift,
  inv (mplus M (mscale shift D)) = Some W -> nonsing (length rs) (TCM N rs W) = true ->
  forall fuel, exists poles, pz_run inv nonsing eigvals pz_max N M D rs None (S fuel) u shift = Some (PDone poles []).
Proof.
  intros inv nonsing eigvals pz_max N M D rs W u shift HW HN fuel. cbn [pz_run]. unfold pz_once. rewrite HW.
  destruct (length rs =? 0)%nat; [eauto|]. rewrite HN. cbn [negb]. eauto.
Qed.
(** A restart uses another shift: if the matrix is regular at every larger one, the
    second call ends. *)
Theorem C120_second_call : forall inv nonsing eigvals pz_max N M D rs W0 (W : R -> mat) u shift,
  inv (mplus M (mscale shift D)) = Some W0 -> nonsing (length rs) (TCM N rs W0) = false -> 0 <= u O ->
  (forall s, shift < s -> inv (mplus M (mscale s D)) = Some (W s) /\ nonsing (length rs) (TCM N rs (W s)) = true) ->
  forall fuel, exists poles, pz_run inv nonsing eigvals pz_max N M D rs None (S (S fuel)) u shift = Some (PDone poles []).
Proof.
  intros inv nonsing eigvals pz_max N M D rs W0 W u shift H0 HN Hu HW fuel. cbn [pz_run]. unfold pz_once at 1. rewrite H0.
  destruct (length rs =? 0)%nat eqn:Z; [eauto|]. rewrite HN. cbn [negb].
  assert (L : shift < shift + Rabs (1 + u O) * 1000) by (rewrite Rabs_right by lra; lra).
  destruct (HW _ L) as [A B]. unfold pz_once. rewrite A, Z, B. cbn [negb]. eauto.
Qed.
Print Assumptions C120_second_call.
Print Assumptions C120_parallel.
Print Assumptions C120_refuted.
Print Assumptions C120_output_refuted.
Print Assumptions C120_one_call.

(** * C121: what the results give back *)
(** With zeros: each singularity by its name. *)
Theorem C121_with_zeros : forall poles zeros, zeros <> [] ->
  (forall i p, nth_error poles i = Some p -> pz_getitem (make_pz poles zeros) (Some (Pvar i)) = Ok p) /\
  (forall i z, nth_error zeros i = Some z -> pz_getitem (make_pz poles zeros) (Some (Zvar i)) = Ok z).
Proof.
  intros poles zeros NE.
  assert (EP : forall i j, pzvar_eqb (Pvar i) (Pvar j) = (i =? j)%nat) by reflexivity.
  assert (FP : forall l k i p rest, nth_error l i = Some p ->
     find (fun q => pzvar_eqb (fst q) (Pvar (k + i))) (combine (map Pvar (seq k (length l)) ++ rest) (l ++ zeros)) = Some (Pvar (k + i), p)).
  { induction l as [|a l IH]; intros k i p rest H; [destruct i; discriminate|]. cbn [length seq map app combine find fst].
    rewrite EP. destruct i as [|i]; cbn [nth_error] in H.
    - injection H as ->. rewrite Nat.add_0_r, Nat.eqb_refl. reflexivity.
    - destruct (Nat.eqb_spec k (k + S i)); [lia|]. replace (k + S i)%nat with (S k + i)%nat by lia. apply IH; auto. }
  assert (FZ : forall (l : list cx) k i z, nth_error l i = Some z ->
     find (fun q => pzvar_eqb (fst q) (Zvar (k + i))) (combine (map Zvar (seq k (length l))) l) = Some (Zvar (k + i), z)).
  { induction l as [|a l IH]; intros k i z H; [destruct i; discriminate|]. cbn [length seq map combine find fst pzvar_eqb].
    destruct i as [|i]; cbn [nth_error] in H.
    - injection H as ->. rewrite Nat.add_0_r, Nat.eqb_refl. reflexivity.
    - destruct (Nat.eqb_spec k (k + S i)); [lia|]. replace (k + S i)%nat with (S k + i)%nat by lia. apply IH; auto. }
  assert (SK : forall (l : list cx) k i, find (fun q => pzvar_eqb (fst q) (Zvar i)) (combine (map Pvar (seq k (length l)) ++ map Zvar (seq 0 (length zeros))) (l ++ zeros))
     = find (fun q => pzvar_eqb (fst q) (Zvar i)) (combine (map Zvar (seq 0 (length zeros))) zeros)).
  { induction l as [|a l IH]; intros k i; [reflexivity|]. cbn [length seq map app combine find fst pzvar_eqb]. apply IH. }
  assert (MK : pz_data (make_pz poles zeros) = Some (combine (map Pvar (seq 0 (length poles)) ++ map Zvar (seq 0 (length zeros))) (poles ++ zeros))).
  { unfold make_pz. destruct zeros; [contradiction|reflexivity]. }
  unfold pz_getitem. rewrite MK. split; intros i p H.
  - rewrite (FP poles 0%nat i p _ H). reflexivity.
  - rewrite (SK poles 0%nat i). pose proof (FZ zeros 0%nat i p H) as Q. cbn [Nat.add] in Q. rewrite Q. reflexivity.
Qed.
(** Without zeros the results hold the poles, yet no name gives one back... *)
Theorem C121_refuted : exists poles, poles <> [] /\ pz_vars (make_pz poles []) = [Pvar 0] /\
  pz_getitem (make_pz poles []) (Some (Pvar 0)) = Err AttributeError.
Proof. exists [(1, 0)]. split; [discriminate|]. split; reflexivity. Qed.
Theorem C121_poles_only : forall poles name, pz_poles (make_pz poles []) = poles /\ pz_getitem (make_pz poles []) name = Err AttributeError.
Proof. intros. split; reflexivity. Qed.
(** ... and [calculate_poles] never returns. *)
Theorem C121_calculate_poles : forall poles, calculate_poles_of poles = Err AttributeError.
Proof. reflexivity. Qed.
Example C121_example : pz_getitem (make_pz [(1, 0); (2, 0)] [(3, 0)]) (Some (Pvar 1)) = Ok (2, 0) /\
  pz_getitem (make_pz [(1, 0); (2, 0)] [(3, 0)]) (Some (Zvar 0)) = Ok (3, 0).
Proof. split; reflexivity. Qed.
Print Assumptions C121_with_zeros.
Print Assumptions C121_refuted.
Print Assumptions C121_poles_only.
Print Assumptions C121_calculate_poles.

(** * C122: the unit of the singularities *)
(** The solution of the previous example says rad/s; the number given for the pole is
    not the natural frequency in rad/s. *)
Theorem C122_refuted : exists poles zeros,
  calculate_singularities inv2 nonsing1 eigvals1 (10 ^ 12) 0 3 rrc (reduce_mat rrc_m) (Some ("I1"%string, (1%nat, 0%nat))) 1 (fun _ => 0) 0
    = Some (PDone poles zeros) /\
  In (Pvar 0, "rad/s"%string) (pz_units (make_pz poles zeros)) /\
  exists p, pz_getitem (make_pz poles zeros) (Some (Pvar 0)) = Ok p /\ ~ natural 2 (reduce_mat rrc_m) (reduce_mat rrc_d) p /\
    natural 2 (reduce_mat rrc_m) (reduce_mat rrc_d) (rads p).
Proof.
  destruct C119_example as (poles & zeros & _ & _ & H & HP & HZ & HN & _). exists poles, zeros. split; [exact H|].
  destruct poles as [|p [|? ?]]; try discriminate HP. destruct zeros as [|z [|? ?]]; try discriminate HZ.
  cbn [map] in HP. injection HP as HP0 HP1. split; [left; reflexivity|]. exists p. split; [reflexivity|].
  assert (Hr : rads p = (- (1 / 2), 0)) by (unfold rads; rewrite HP0, HP1; reflexivity).
  split; [|rewrite Hr; exact HN].
  assert (P1 : fst p = - (1 / (4 * PI))) by (pose proof PI_RGT_0; apply Rmult_eq_reg_l with (2 * PI); [rewrite HP0; field; lra|lra]).
  intros (xr & xi & (i & Hi & NZ) & Hm).
  destruct rrc_M as (M00 & M01 & M10 & M11). destruct rrc_D as (D00 & D01 & D10 & D11).
  pose proof (Hm 0%nat ltac:(lia)) as E0. pose proof (Hm 1%nat ltac:(lia)) as E1. unfold row in E0, E1. cbn [rsum] in E0, E1.
  rewrite M00, M01, D00, D01 in E0. rewrite M10, M11, D10, D11 in E1.
  assert (S0 : snd p = 0) by (pose proof PI_RGT_0; apply Rmult_eq_reg_l with (2 * PI); [rewrite HP1; ring|lra]).
  rewrite S0 in E1.
  assert (B : 1 / 2 + fst p <> 0).
  { rewrite P1. pose proof PI2_3_2. intros B. assert (C : 1 / (4 * PI) < 1 / 2).
    { unfold Rdiv. rewrite !Rmult_1_l. apply Rinv_lt_contravar; nra. } lra. }
  destruct E0 as [E0 F0], E1 as [E1 F1].
  assert (X1 : (1 / 2 + fst p) * xr 1%nat = 0) by lra. assert (Y1 : (1 / 2 + fst p) * xi 1%nat = 0) by lra.
  apply Rmult_integral in X1. apply Rmult_integral in Y1. destruct X1 as [X1|X1]; [contradiction|]. destruct Y1 as [Y1|Y1]; [contradiction|].
  assert (X0 : xr 0%nat = 0) by lra. assert (Y0 : xi 0%nat = 0) by lra.
  destruct i as [|[|i]]; [| |lia]; destruct NZ; contradiction.
Qed.
Print Assumptions C122_refuted.
