(** Property theorems about the AC analysis (C133-C135). *)
From Coq Require Import Reals String Ascii List Bool Arith Lia Lra Classical.
From Verif Require Import Base Rsum Circuit Mna MnaSpec MnaFacts DynFacts DcSolve Newton NewtonFacts PropsMna Sweep PropsSweep Ac AcFacts.
Import ListNotations.
Open Scope R_scope.

(** * C133: every stored point solves the linearized circuit *)

(** The circuit with each source replaced by the real, or imaginary, part of its AC
    value; a source without AC value is off. *)
Definition part := R * R -> R.
Definition re_part : part := fun p => fst p * cos (snd p).
Definition im_part : part := fun p => fst p * sin (snd p).
Definition excite (f : part) (ph : phasors) (e : lelem) : lelem :=
  let v := match ph e with Some p => f p | None => 0 end in
  match e with
  | EV id n1 n2 _ _ => EV id n1 n2 v false
  | EI id n1 n2 _ _ => EI id n1 n2 v false
  | _ => e
  end.

(** Small-signal current of a port with drive ports [ds] and conductances [g]. *)
Fixpoint lin_current (g : nat -> R) (ds : list (nat * nat)) (k : nat) (x : vec) : R :=
  match ds with
  | [] => 0
  | (a, b) :: ds' => g k * (x a - x b) + lin_current g ds' (S k) x
  end.
(** What the nonlinear elements, linearized at [xop], draw from node [n]. *)
Definition small_signal (ports : list nlport) (xop : vec) (n : nat) (x : vec) : R :=
  lsum (fun p => ((if (fst (np_out p) =? n)%nat then 1 else 0) - (if (snd (np_out p) =? n)%nat then 1 else 0))
    * lin_current (np_g p (map (fun q => xop (fst q) - xop (snd q)) (np_drive p))) (np_drive p) 0 x) ports.

(** Flux of the inductor which is the [k]-th voltage-defined element. *)
Definition own_flux (nv : nat) (all : list lelem) (k : nat) (e : lelem) (x : vec) : R :=
  match e with EL id _ _ l => l * x (nv + k)%nat + flux nv all x id | _ => 0 end.

(** [xr + j xi] (ground included) is a solution at the angular frequency [w], with a
    conductance [g] and a capacitor [c] from each node to ground: balance of the
    currents at the nodes and branch laws of the voltage-defined elements, real and
    imaginary part.  (For H sources see C06.) *)
Definition ac_solution (nv : nat) (es : list lelem) (ports : list nlport) (ph : phasors) (xop : vec) (g c w : R) (xr xi : vec) : Prop :=
  let er := map (excite re_part ph) es in
  let ei := map (excite im_part ph) es in
  (forall n, (1 <= n < nv)%nat ->
     kcl nv er er 0 n xr + small_signal ports xop n xr + g * xr n - w * (dyn_kcl es n xi + c * xi n) = 0 /\
     kcl nv ei ei 0 n xi + small_signal ports xop n xi + g * xi n + w * (dyn_kcl es n xr + c * xr n) = 0) /\
  (forall pre e post, es = (pre ++ e :: post)%list -> is_vde e = true -> sense_apart e ->
     (forall id n1 n2 src a, e <> EH id n1 n2 src a) ->
     branch_law nv er xr (excite re_part ph e) + w * own_flux nv es (n_vde pre) e xi = 0 /\
     branch_law nv ei xi (excite im_part ph e) - w * own_flux nv es (n_vde pre) e xr = 0).

(** The point the circuit is linearized at. *)
Definition linearized_at (ports : list nlport) (x0 : option vec) (op : res (option vec)) (xop : vec) : Prop :=
  match ports, x0 with
  | [], _ => True
  | _, Some x => xop = x
  | _, None => op = Ok (Some xop)
  end.

Lemma excite_ex : forall f pt ph es nv x n, (forall p, f p = match p with Some q => Some (pt q) | None => None end) ->
  let a := map (excite pt ph) es in let b := map (ex (fun e => f (ph e))) es in
  kcl nv a a 0 n x = kcl nv b b 0 n x /\ (forall e, branch_law nv a x (excite pt ph e) = branch_law nv b x (ex (fun e => f (ph e)) e)).
Proof.
  intros f pt ph es nv x n F a b.
  assert (I : forall s, vde_index a s = vde_index b s).
  { intros s. unfold a, b, vde_index. rewrite !map_map. f_equal. apply map_ext. intros e. rewrite ex_celem. destruct e; reflexivity. }
  split.
  - assert (G : forall l k, kcl nv a (map (excite pt ph) l) k n x = kcl nv b (map (ex (fun e => f (ph e))) l) k n x).
    { induction l as [|e l IH]; intros k; [reflexivity|]. cbn [map kcl]. rewrite ex_vde.
      replace (is_vde (excite pt ph e)) with (is_vde e) by (destruct e; reflexivity). rewrite IH.
      replace (term1 (excite pt ph e)) with (term1 e) by (destruct e; reflexivity).
      replace (term2 (excite pt ph e)) with (term2 e) by (destruct e; reflexivity).
      destruct (ex_terms (fun e => f (ph e)) e) as (-> & -> & _).
      replace (dc_current nv a x k (excite pt ph e)) with (dc_current nv b x k (ex (fun e => f (ph e)) e)); [reflexivity|].
      destruct e; cbn [excite ex dc_current]; try reflexivity; try (rewrite F; destruct (ph _); reflexivity). rewrite I. reflexivity. }
    apply G.
  - intros e. destruct e; cbn [excite ex branch_law]; try reflexivity; try (rewrite F; destruct (ph _); reflexivity). rewrite I. reflexivity.
Qed.

Lemma drive_ground : forall y p, drive_v y p = with_ground y (fst p) - with_ground y (snd p).
Proof.
  intros y [a b]. unfold drive_v, with_ground. simpl. destruct a, b; simpl; rewrite ?Nat.sub_0_r; reflexivity.
Qed.

Lemma gsum_lin : forall g ds k y, gsum g ds k y = lin_current g ds k (with_ground y).
Proof.
  intros g ds. induction ds as [|[a b] ds IH]; intros k y; [reflexivity|]. cbn [gsum lin_current]. rewrite IH, drive_ground. reflexivity.
Qed.

Lemma small_signal_row : forall size ports xop r y, Forall (port_ok size) ports ->
  row size (generate_J ports xop) r y = small_signal ports (with_ground xop) (S r) (with_ground y).
Proof.
  intros size ports xop r y F. unfold generate_J. rewrite (proj1 (J_and_T_spec size ports xop y r F)). unfold small_signal.
  apply lsum_ext. intros p _. rewrite gsum_lin.
  assert (G : forall n, gdlt r n = if (n =? S r)%nat then 1 else 0).
  { intros n. unfold gdlt, dlt. destruct n as [|n]; [reflexivity|]. simpl. rewrite Nat.sub_0_r, Nat.eqb_sym. reflexivity. }
  rewrite !G. f_equal. f_equal. f_equal. apply map_ext. intros q. apply drive_ground.
Qed.

(** The equations of the system, one by one. *)
Lemma system_is_circuit : forall cmin gmin nv es ports ph xop J m N AC w y g,
  (0 < nv)%nat -> wf_circ nv es -> NoDup (map (fun e => upper (lid e)) (vdes es)) -> Forall (wf_coupling es) es ->
  generate_mna_and_N nv es = Ok (m, N) -> generate_AC cmin nv es = Ok AC ->
  let t := (nv + n_vde es - 1)%nat in
  Forall (port_ok t) ports -> Forall (fun p => (fst (np_out p) < nv /\ snd (np_out p) < nv)%nat) ports ->
  (forall i x, row t J i x = row t (generate_J ports xop) i x) ->
  (exists r, (r = RStd /\ g = gmin \/ r = RGmin 0 /\ g = 0) /\
   solves t (ac_sys (reduce_mat m) (reduce_mat AC) J (build_gmin_matrix nv gmin) w r)
          (reduce_vec (fst (generate_Nac nv ph es)), reduce_vec (snd (generate_Nac nv ph es))) y) ->
  ac_solution nv es ports ph (with_ground xop) g (if Rlt_dec 0 cmin then cmin else 0) w (with_ground (fst y)) (with_ground (snd y)).
Proof.
  intros cmin gmin nv es ports ph xop J m N AC w y g P W ND WK G GA t PO PN JJ (r & R & SO).
  destruct (C07_dynamic_matrix cmin nv es W ND WK) as (d & _ & GA' & DN & DL & DO & _).
  rewrite GA in GA'. injection GA' as <-.
  set (fr := fun e => re_of (ph e)). set (fi := fun e => im_of (ph e)).
  pose proof (ex_assembly fr nv es m N G) as Gr. pose proof (ex_assembly fi nv es m N G) as Gi.
  assert (ST : S t = (nv + n_vde es)%nat) by (unfold t; lia).
  assert (EQ : forall i, (i < t)%nat ->
    row (nv + n_vde es) m (S i) (with_ground (fst y)) + nac_part nv fr es (S i)
      + small_signal ports (with_ground xop) (S i) (with_ground (fst y)) + (if (i <? nv - 1)%nat then g * fst y i else 0)
      - w * row (nv + n_vde es) AC (S i) (with_ground (snd y)) = 0 /\
    row (nv + n_vde es) m (S i) (with_ground (snd y)) + nac_part nv fi es (S i)
      + small_signal ports (with_ground xop) (S i) (with_ground (snd y)) + (if (i <? nv - 1)%nat then g * snd y i else 0)
      + w * row (nv + n_vde es) AC (S i) (with_ground (fst y)) = 0).
  { intros i L. destruct (SO i L) as [E1 E2]. unfold crow_re, crow_im in E1, E2.
    assert (GS : forall z, row t (fst (ac_sys (reduce_mat m) (reduce_mat AC) J (build_gmin_matrix nv gmin) w r)) i z
      = row (nv + n_vde es) m (S i) (with_ground z) + small_signal ports (with_ground xop) (S i) (with_ground z) + (if (i <? nv - 1)%nat then g * z i else 0)).
    { intros z. destruct R as [[-> ->]|[-> ->]]; cbn [ac_sys fst]; rewrite ?row_add, JJ, small_signal_row by exact PO;
      rewrite ?row_gmin by exact L; rewrite row_reduce, ST; fold (with_ground z); destruct (i <? nv - 1)%nat; lra. }
    assert (AS : forall z, row t (snd (ac_sys (reduce_mat m) (reduce_mat AC) J (build_gmin_matrix nv gmin) w r)) i z
      = w * row (nv + n_vde es) AC (S i) (with_ground z)).
    { intros z. cbn [ac_sys snd]. rewrite row_scal, row_reduce, ST. reflexivity. }
    rewrite !GS, !AS in *. cbn [fst snd generate_Nac] in E1, E2. unfold reduce_vec in E1, E2. fold fr fi in E1, E2. split; lra. }
  assert (SS0 : forall k x, (nv <= k)%nat -> small_signal ports (with_ground xop) k x = 0).
  { intros k x L. unfold small_signal. apply lsum_0. intros p I. rewrite Forall_forall in PN. specialize (PN p I).
    destruct (Nat.eqb_spec (fst (np_out p)) k), (Nat.eqb_spec (snd (np_out p)) k); try lia. ring. }
  assert (Fr : forall p, re_of p = match p with Some q => Some (re_part q) | None => None end) by (intros [[? ?]|]; reflexivity).
  assert (Fi : forall p, im_of p = match p with Some q => Some (im_part q) | None => None end) by (intros [[? ?]|]; reflexivity).
  split.
  - intros n L. destruct n as [|i]; [lia|]. destruct (EQ i ltac:(unfold t; lia)) as [E1 E2].
    replace (i <? nv - 1)%nat with true in * by (symmetry; apply Nat.ltb_lt; lia).
    rewrite !DN in E1, E2 by (reflexivity || lia). cbn [with_ground].
    rewrite (proj1 (excite_ex re_of re_part ph es nv _ (S i) Fr)), (proj1 (excite_ex im_of im_part ph es nv _ (S i) Fi)).
    fold fr fi. rewrite <- (C03_node_rows_are_KCL nv _ m _ _ (S i) (ex_wf fr nv es W) Gr) by lia.
    rewrite <- (C03_node_rows_are_KCL nv _ m _ _ (S i) (ex_wf fi nv es W) Gi) by lia. rewrite !ex_n_vde.
    cbn [with_ground] in E1, E2. destruct (Rlt_dec 0 cmin); split; lra.
  - intros pre e post E V SA NH.
    assert (Lt : (nv + n_vde pre - 1 < t)%nat).
    { unfold t. subst es. unfold n_vde. rewrite filter_app, app_length. simpl. rewrite V. simpl. lia. }
    destruct (EQ _ Lt) as [E1 E2].
    replace (nv + n_vde pre - 1 <? nv - 1)%nat with false in * by (symmetry; apply Nat.ltb_ge; lia).
    replace (S (nv + n_vde pre - 1)) with (nv + n_vde pre)%nat in * by lia.
    rewrite !SS0 in E1, E2 by lia.
    assert (NTH : nth_error (vdes es) (n_vde pre) = Some e).
    { subst es. unfold vdes, n_vde. rewrite filter_app. simpl. rewrite V. rewrite nth_error_app2, Nat.sub_diag; [reflexivity|lia]. }
    assert (AR : forall x, row (nv + n_vde es) AC (nv + n_vde pre) x = - own_flux nv es (n_vde pre) e x).
    { intros x. destruct e; cbn [own_flux]; try (rewrite (DO _ _ x NTH eq_refl); lra); try discriminate V.
      rewrite (DL _ _ _ _ _ x NTH). lra. }
    rewrite !AR in E1, E2.
    assert (BR : forall f x, row (nv + n_vde es) m (nv + n_vde pre) (with_ground x) + nac_part nv f es (nv + n_vde pre)%nat
      = branch_law nv (map (ex f) es) (with_ground x) (ex f e)).
    { intros f x. pose proof (ex_assembly f nv es m N G) as Gf. pose proof (ex_wf f nv es W) as Wf.
      rewrite E in Gf, Wf |- *. rewrite map_app in *. cbn [map] in *.
      rewrite <- (C04_branch_rows nv (map (ex f) pre) (ex f e) (map (ex f) post) m (nac_part nv f (pre ++ e :: post)) (with_ground x) Wf Gf).
      - change (ex f e :: map (ex f) post) with (map (ex f) (e :: post)). rewrite <- map_app, !ex_n_vde. reflexivity.
      - rewrite ex_vde. exact V.
      - intros id n1 n2 src a Q. destruct e; cbn [ex] in Q; try discriminate Q; try (destruct (f _); discriminate Q). exact (NH _ _ _ _ _ eq_refl).
      - reflexivity.
      - destruct e; cbn [ex sense_apart] in *; try exact I; try (destruct (f _); exact I). exact SA. }
    rewrite (proj2 (excite_ex re_of re_part ph es nv _ 0%nat Fr)), (proj2 (excite_ex im_of im_part ph es nv _ 0%nat Fi)). fold fr fi.
    rewrite <- !BR. split; lra.
Qed.

Definition point_ok (size : nat) (mna AC J Gmin : mat) (Nac : cvec) (w : R) (x : cvec) : Prop :=
  (~ singular size (ac_sys mna AC J Gmin w RStd) /\ solves size (ac_sys mna AC J Gmin w RStd) Nac x) \/
  (singular size (ac_sys mna AC J Gmin w RStd) /\ ~ singular size (ac_sys mna AC J Gmin w (RGmin 0)) /\ solves size (ac_sys mna AC J Gmin w (RGmin 0)) Nac x).

Lemma ac_rows : forall o maxit fuel csolve cmin gmin nv es ports ph op start stop points stype x0 rows,
  o_std o = true -> csolver_ok (nv + n_vde es - 1) csolve ->
  ac_analysis o false maxit fuel csolve cmin gmin nv es ports ph op start stop points stype x0 = Ok (Some rows) ->
  exists ws m N AC xop, omegas fuel start stop points stype = Ok ws /\ generate_mna_and_N nv es = Ok (m, N) /\ generate_AC cmin nv es = Ok AC /\
    linearized_at ports x0 op xop /\ map fst rows = map (fun w => w / PI / 2) ws /\
    forall f x, In (f, x) rows -> point_ok (nv + n_vde es - 1) (reduce_mat m) (reduce_mat AC) (generate_J ports xop) (build_gmin_matrix nv gmin)
      (reduce_vec (fst (generate_Nac nv ph es)), reduce_vec (snd (generate_Nac nv ph es))) (2 * PI * f) x.
Proof.
  intros o maxit fuel csolve cmin gmin nv es ports ph op start stop points stype x0 rows STD OK H. unfold ac_analysis in H.
  destruct (omegas fuel start stop points stype) as [ws|] eqn:OM; [|discriminate H]. cbn [bindr] in H.
  destruct (generate_mna_and_N nv es) as [[m N]|] eqn:G; [|discriminate H]. cbn [bindr fst] in H.
  destruct (generate_AC cmin nv es) as [AC|] eqn:GA; [|discriminate H]. cbn [bindr] in H.
  set (Nac := (reduce_vec (fst (generate_Nac nv ph es)), reduce_vec (snd (generate_Nac nv ph es)))) in *.
  assert (RUN : exists xop x, linearized_at ports x0 op xop /\
    ac_points o false maxit fuel csolve (nv + n_vde es - 1) (reduce_mat m) (reduce_mat AC) (generate_J ports xop) (build_gmin_matrix nv gmin) Nac ws x [] = Ok (Some rows)).
  { cbv zeta in H. destruct ports as [|p ports].
    - exists vzero. destruct x0 as [x|]; (destruct ws; [discriminate H|]); eexists; (split; [exact I|exact H]).
    - destruct x0 as [x|].
      + destruct ws; [discriminate H|]. exists x. eexists. split; [reflexivity|exact H].
      + destruct op as [[x|]|]; cbn [bindr] in H; try discriminate H. destruct ws; [discriminate H|].
        exists x. eexists. split; [reflexivity|exact H]. }
  destruct RUN as (xop & x & LA & AP). exists ws, m, N, AC, xop.
  destruct (ac_points_ok _ _ _ _ _ _ _ _ _ _ OK STD _ _ _ _ AP) as (xs & -> & LEN & F).
  repeat (split; [assumption || reflexivity|]). cbn [app]. split.
  - clear -LEN. revert xs LEN. induction ws as [|w ws IH]; intros [|y xs] LEN; try discriminate LEN; [reflexivity|].
    injection LEN as LEN. simpl. f_equal. apply IH. exact LEN.
  - clear -F. intros f y IN. revert f y IN. induction F as [|w z ws xs P F IH]; intros f y IN; [destruct IN|].
    destruct IN as [E|IN]; [|apply IH; exact IN]. injection E as <- <-.
    replace (2 * PI * (w / PI / 2)) with w by (field; apply PI_neq0). exact P.
Qed.

Lemma no_sources : forall nv es i, nac_part nv (fun _ => None) es i = 0.
Proof.
  intros nv es i. unfold nac_part.
  assert (A : forall l v, fold_left (nac_i (fun _ => None)) l v = v).
  { induction l as [|e l IH]; intros v; [reflexivity|]. cbn [fold_left]. rewrite IH. destruct e; reflexivity. }
  assert (B : forall l k v, nac_v nv (fun _ => None) l k v = v).
  { induction l as [|e l IH]; intros k v; [reflexivity|]. cbn [nac_v]. rewrite IH. destruct e; reflexivity. }
  rewrite B, A. reflexivity.
Qed.

(** Every frequency of the sweep has its point, and every point solves the circuit
    linearized at the operating point, with [gmin] from each node to ground; it is left
    out only where with it the circuit has nonzero solutions with all sources off. *)
Theorem C133_points_solve_circuit : forall o maxit fuel csolve cmin gmin nv es ports ph op start stop points stype x0 rows,
  o_std o = true -> csolver_ok (nv + n_vde es - 1) csolve ->
  (0 < nv)%nat -> wf_circ nv es -> NoDup (map (fun e => upper (lid e)) (vdes es)) -> Forall (wf_coupling es) es ->
  Forall (port_ok (nv - 1)) ports -> Forall (fun p => (fst (np_out p) < nv /\ snd (np_out p) < nv)%nat) ports ->
  ac_analysis o false maxit fuel csolve cmin gmin nv es ports ph op start stop points stype x0 = Ok (Some rows) ->
  exists ws xop, omegas fuel start stop points stype = Ok ws /\ map fst rows = map (fun w => w / PI / 2) ws /\
    linearized_at ports x0 op xop /\
    let sol ph g f (x : cvec) := ac_solution nv es ports ph (with_ground xop) g (if Rlt_dec 0 cmin then cmin else 0) (2 * PI * f)
                                   (with_ground (fst x)) (with_ground (snd x)) in
    forall f x, In (f, x) rows ->
      sol ph gmin f x \/
      sol ph 0 f x /\ exists z i, sol (fun _ => None) gmin f z /\ (i < nv + n_vde es - 1)%nat /\ (fst z i <> 0 \/ snd z i <> 0).
Proof.
  intros o maxit fuel csolve cmin gmin nv es ports ph op start stop points stype x0 rows STD OK P W ND WK PO PN H.
  destruct (ac_rows _ _ _ _ _ _ _ _ _ _ _ _ _ _ _ _ _ STD OK H) as (ws & m & N & AC & xop & OM & G & GA & LA & MF & PT).
  assert (POt : Forall (port_ok (nv + n_vde es - 1)) ports).
  { eapply Forall_impl; [|exact PO]. intros p Hp. unfold port_ok in *. eapply Forall_impl; [|exact Hp]. intros q. simpl. lia. }
  exists ws, xop. repeat (split; [assumption|]). cbv zeta. intros f x IN. destruct (PT f x IN) as [[_ S]|(SG & _ & S)].
  - left. eapply system_is_circuit; eauto.
  - right. split; [eapply system_is_circuit; eauto 6|]. destruct SG as (z & (i & L & NZ) & Z). exists z, i.
    split; [|split; assumption]. eapply system_is_circuit; eauto. exists RStd. split; [left; auto|].
    intros j Lj. destruct (Z j Lj) as [Z1 Z2]. rewrite Z1, Z2. unfold generate_Nac, reduce_vec. cbn [fst snd re_of im_of].
    change (fun _ : lelem => re_of None) with (fun _ : lelem => @None R). rewrite !no_sources. split; lra.
Qed.
Print Assumptions C133_points_solve_circuit.

(** ** Examples *)

Lemma row1 : forall (M : mat) i x, row 1 M i x = M i 0%nat * x 0%nat.
Proof. intros. unfold row. simpl. lra. Qed.

(** Division of complex numbers, for systems with one unknown. *)
Definition csolve1 (A : cmat) (b : cvec) : option cvec :=
  let '(p, q) := (fst A 0%nat 0%nat, snd A 0%nat 0%nat) in
  let d := p * p + q * q in
  if Req_EM_T d 0 then None
  else Some (fun _ => (p * fst b 0%nat + q * snd b 0%nat) / d, fun _ => (p * snd b 0%nat - q * fst b 0%nat) / d).

Lemma csolve1_ok : csolver_ok 1 csolve1.
Proof.
  unfold csolver_ok, csolve1. split.
  - intros A b y H i L. destruct i; [|lia]. destruct (Req_EM_T _ 0) as [|NZ]; [discriminate H|]. injection H as <-.
    unfold crow_re, crow_im. rewrite !row1. cbn [fst snd]. split; field; exact NZ.
  - intros A b. set (p := fst A 0%nat 0%nat). set (q := snd A 0%nat 0%nat). cbv zeta. destruct (Req_EM_T (p * p + q * q) 0) as [Z|NZ].
    + split; [|reflexivity]. intros _. exists (fun _ => 1, fun _ => 0). split; [exists 0%nat; simpl; split; [lia|left; lra]|].
      assert (p = 0 /\ q = 0) as [Hp Hq] by (split; nra).
      intros i L. destruct i; [|lia]. unfold crow_re, crow_im. rewrite !row1. fold p q. rewrite Hp, Hq. simpl. split; ring.
    + split; [discriminate|]. intros (y & (i & L & NZ') & Z). exfalso. destruct i; [|lia]. destruct (Z 0%nat ltac:(lia)) as [E1 E2].
      unfold crow_re, crow_im in E1, E2. rewrite !row1 in E1, E2. fold p q in E1, E2.
      assert (D : forall u, (p * p + q * q) * u = 0 -> u = 0) by (intros u Q; destruct (Rmult_integral _ _ Q); [contradiction|assumption]).
      destruct NZ' as [K|K]; apply K; apply D.
      * replace (_ * fst y 0%nat) with (p * (p * fst y 0%nat - q * snd y 0%nat) + q * (p * snd y 0%nat + q * fst y 0%nat)) by ring.
        rewrite E1, E2. ring.
      * replace (_ * snd y 0%nat) with (p * (p * snd y 0%nat + q * fst y 0%nat) - q * (p * fst y 0%nat - q * snd y 0%nat)) by ring.
        rewrite E1, E2. ring.
Qed.

(** A resistor and a capacitor of equal admittance at 1 Hz, driven by 2 A. *)
Definition rc : list lelem := [EI "I1" 1 0 7 false; ER "R1" 1 0 1; EC "C1" 1 0 (/ (2 * PI))]%string.
Definition rc_ph : phasors := fun e => match e with EI _ _ _ _ _ => Some (2, 0) | _ => None end.
Definition ac_opts : dopts := mkDopts true true true 27.

Lemma one_omega : omegas 5 1 1 1 (Some "lin"%string) = Ok [2 * PI * 1].
Proof.
  unfold omegas. destruct (Req_EM_T 1 0); [lra|]. replace (Rlt_b 1 1) with false by (symmetry; apply Rlt_b_false; lra).
  destruct (Req_EM_T 1 1); [|lra]. rewrite andb_false_r. cbn [upper String.eqb].
  change (String.eqb (upper "lin") "LOG") with false. change (String.eqb (upper "lin") "LIN") with true. cbv iota.
  destruct (C15_linear_single (2 * PI * 1) (2 * PI * 1)) as [-> C]. destruct (Req_EM_T _ _) as [_|K]; [|exfalso; apply K; reflexivity].
  cbn [bindr]. rewrite C by lia. reflexivity.
Qed.

Lemma rc_mats : exists m N AC, generate_mna_and_N 2 rc = Ok (m, N) /\ generate_AC 0 2 rc = Ok AC /\
  m 1%nat 1%nat = 1 /\ AC 1%nat 1%nat = / (2 * PI) /\ nac_part 2 (fun e => re_of (rc_ph e)) rc 1%nat = 2 /\ nac_part 2 (fun e => im_of (rc_ph e)) rc 1%nat = 0.
Proof.
  do 3 eexists. split; [reflexivity|]. split; [reflexivity|]. split; [|split; [|split]].
  - cbn [fst]. simpl. unfold madd, mset, mzero. simpl. field.
  - unfold add_cmin. destruct (Rlt_dec 0 0); [lra|]. simpl. unfold madd, mset, mzero. simpl. ring.
  - unfold nac_part, vset, vzero. simpl. unfold vset. simpl. rewrite cos_0. ring.
  - unfold nac_part, vset, vzero. simpl. unfold vset. simpl. rewrite sin_0. ring.
Qed.

Lemma rc_run : forall damp,
  let td := td_first (mkTd damp false 0) (Some 1%nat) in
  exists x, ac_analysis ac_opts damp 20 5 csolve1 0 0 2 rc [] rc_ph (Ok None) 1 1 1 (Some "lin"%string) None = Ok (Some [(1, x)]) /\
    fst x 0%nat = - td /\ snd x 0%nat = td.
Proof.
  intros damp td. destruct rc_mats as (m & N & AC & G & GA & M1 & A1 & N1 & N2).
  unfold ac_analysis. rewrite one_omega, G, GA. cbn [bindr fst]. cbv zeta. change (2 + n_vde rc - 1)%nat with 1%nat.
  cbn [ac_points]. unfold dc_solve.
  change (set_next_solve_method ac_opts get_solve_methods) with (mkMeths true false false false 0 false false 0).
  cbn [dc_loop current_req std_en length]. unfold mdn_ac at 1. unfold csolve1 at 1.
  assert (E1 : fst (ac_sys (reduce_mat m) (reduce_mat AC) mzero (build_gmin_matrix 2 0) (2 * PI * 1) RStd) 0%nat 0%nat = 1).
  { cbn [ac_sys fst]. unfold reduce_mat, mzero. rewrite M1. unfold build_gmin_matrix. simpl. unfold mset. simpl. ring. }
  assert (E2 : snd (ac_sys (reduce_mat m) (reduce_mat AC) mzero (build_gmin_matrix 2 0) (2 * PI * 1) RStd) 0%nat 0%nat = 1).
  { cbn [ac_sys snd]. unfold reduce_mat. rewrite A1. field. apply PI_neq0. }
  rewrite E1, E2. destruct (Req_EM_T (1 * 1 + 1 * 1) 0) as [Z|_]; [exfalso; lra|]. cbn [advance s_en g_en andb app].
  replace (2 * PI * 1 / PI / 2) with 1 by (field; apply PI_neq0). eexists. split; [reflexivity|]. fold td. cbn [fst snd].
  unfold crow_re, crow_im. rewrite !row1, E1, E2. cbn [ac_rhs fst snd generate_Nac]. unfold reduce_vec. rewrite N1, N2. unfold vzero.
  split; field.
Qed.

Example C133_example : exists x,
  ac_analysis ac_opts false 20 5 csolve1 0 0 2 rc [] rc_ph (Ok None) 1 1 1 (Some "lin"%string) None = Ok (Some [(1, x)]) /\
  fst x 0%nat = -1 /\ snd x 0%nat = 1 /\
  wf_circ 2 rc /\ NoDup (map (fun e => upper (lid e)) (vdes rc)) /\ Forall (wf_coupling rc) rc.
Proof.
  destruct (rc_run false) as (x & R & A & B). exists x. split; [exact R|]. split; [exact A|]. split; [exact B|].
  split; [|split; [constructor|repeat constructor]]. unfold wf_circ, rc. repeat constructor; simpl; try lia; discriminate.
Qed.

(** A current [v1 * v2] from node 1 to ground draws [v2 dv1 + v1 dv2]. *)
Example C133_small_signal : forall xop x : vec, xop 0%nat = 0 -> x 0%nat = 0 ->
  small_signal [mkPort (1, 0)%nat [(1, 0); (2, 0)]%nat (fun v => nth 0 v 0 * nth 1 v 0) (fun v k => if (k =? 0)%nat then nth 1 v 0 else nth 0 v 0)] xop 1 x
  = xop 2%nat * x 1%nat + xop 1%nat * x 2%nat.
Proof. intros xop x A B. unfold small_signal. simpl. rewrite A, B. ring. Qed.

(** With [options.nr_damp_first_iters] set the only step of the solver is damped, and
    what is stored is 1% of the solution. *)
Theorem C133_damping_refuted : exists x,
  ac_analysis ac_opts true 20 5 csolve1 0 0 2 rc [] rc_ph (Ok None) 1 1 1 (Some "lin"%string) None = Ok (Some [(1, x)]) /\
  csolver_ok 1 csolve1 /\
  ~ ac_solution 2 rc [] rc_ph vzero 0 0 (2 * PI * 1) (with_ground (fst x)) (with_ground (snd x)).
Proof.
  destruct (rc_run true) as (x & R & A & B). exists x. split; [exact R|]. split; [exact csolve1_ok|]. intros [K _].
  destruct (K 1%nat ltac:(lia)) as [K1 _]. revert K1. unfold small_signal, dyn_kcl. cbn -[PI excite]. unfold excite. cbn -[PI]. unfold re_part. cbn -[PI].
  rewrite A, B. cbn. rewrite cos_0. unfold dlt. cbn -[PI].
  replace (2 * PI * 1 * _) with (1/100) by (field; apply PI_neq0). lra.
Qed.
Print Assumptions C133_damping_refuted.

(** * C134: superposition *)

(** The AC value of a source as a complex number; zero if it has none. *)
Definition ac_value (f : part) (ph : phasors) (e : lelem) : R := match ph e with Some p => f p | None => 0 end.

Definition val (ph : lelem -> option R) (e : lelem) : R := match ph e with Some a => a | None => 0 end.
Fixpoint vpart (nv : nat) (v : lelem -> R) (es : list lelem) (k i : nat) : R :=
  match es with
  | [] => 0
  | e :: es' => (match e with EV _ _ _ _ _ => if (i =? nv + k)%nat then - v e else 0 | _ => 0 end)
                + vpart nv v es' (if is_vde e then S k else k) i
  end.
Definition ipart (v : lelem -> R) (i : nat) (e : lelem) : R :=
  match e with EI _ n1 n2 _ _ => (dlt i n1 - dlt i n2) * v e | _ => 0 end.

Lemma nac_closed : forall nv ph es i, wf_circ nv es ->
  nac_part nv ph es i = lsum (ipart (val ph) i) es + vpart nv (val ph) es 0 i.
Proof.
  intros nv ph es i W. unfold nac_part.
  assert (A : forall l v j, fold_left (nac_i ph) l v j = v j + lsum (ipart (val ph) j) l).
  { induction l as [|e l IH]; intros v j; cbn [fold_left lsum]; [lra|]. rewrite IH.
    destruct e; cbn [nac_i ipart]; try lra. unfold val. destruct (ph _) as [a|]; [|lra]. cbv zeta. unfold vset, dlt.
    destruct (Nat.eqb_spec j n2), (Nat.eqb_spec j n1), (Nat.eqb_spec n2 n1); subst; try congruence; lra. }
  assert (B : forall l k v, (forall j, (nv + k <= j)%nat -> v j = 0) -> forall j, nac_v nv ph l k v j = v j + vpart nv (val ph) l k j).
  { induction l as [|e l IH]; intros k v Z j; cbn [nac_v vpart]; [lra|].
    destruct e; cbn [is_vde]; try (rewrite IH by (intros; apply Z; lia); lra).
    assert (VE : val ph (EV id n1 n2 dc td) = match ph (EV id n1 n2 dc td) with Some a => a | None => 0 end) by reflexivity.
    rewrite VE. destruct (ph _) as [a|].
    - rewrite IH by (intros j' L; unfold vset; destruct (Nat.eqb_spec j' (nv + k)); [lia|apply Z; lia]).
      unfold vset. destruct (Nat.eqb_spec j (nv + k)); [|lra]. rewrite (Z j) by lia. lra.
    - rewrite IH by (intros; apply Z; lia). destruct (j =? nv + k)%nat; lra. }
  rewrite B, A; [unfold vzero; lra|]. intros j L. rewrite A. unfold vzero.
  rewrite (lsum_0 _ (ipart (val ph) j)); [lra|]. intros e I. unfold wf_circ in W. rewrite Forall_forall in W. destruct (W e I) as (T1 & T2 & _).
  destruct e; cbn [ipart]; try reflexivity. cbn [term1 term2] in T1, T2. unfold dlt.
  destruct (Nat.eqb_spec j n1), (Nat.eqb_spec j n2); try lia. ring.
Qed.

Lemma nac_linear : forall nv es i (f f1 f2 f3 f4 : lelem -> option R) c1 c2 c3 c4, wf_circ nv es ->
  (forall e, In e es -> val f e = c1 * val f1 e + c2 * val f2 e + c3 * val f3 e + c4 * val f4 e) ->
  nac_part nv f es i = c1 * nac_part nv f1 es i + c2 * nac_part nv f2 es i + c3 * nac_part nv f3 es i + c4 * nac_part nv f4 es i.
Proof.
  intros nv es i f f1 f2 f3 f4 c1 c2 c3 c4 W H. rewrite !nac_closed by exact W. clear W.
  assert (L : lsum (ipart (val f) i) es = c1 * lsum (ipart (val f1) i) es + c2 * lsum (ipart (val f2) i) es + c3 * lsum (ipart (val f3) i) es + c4 * lsum (ipart (val f4) i) es).
  { induction es as [|e es IH]; cbn [lsum]; [lra|]. rewrite IH by (intros; apply H; right; assumption).
    pose proof (H e (or_introl eq_refl)) as E. destruct e; cbn [ipart]; try lra. rewrite E. ring. }
  assert (V : forall k, vpart nv (val f) es k i = c1 * vpart nv (val f1) es k i + c2 * vpart nv (val f2) es k i + c3 * vpart nv (val f3) es k i + c4 * vpart nv (val f4) es k i).
  { clear L. induction es as [|e es IH]; intros k; cbn [vpart]; [lra|]. rewrite IH by (intros; apply H; right; assumption).
    pose proof (H e (or_introl eq_refl)) as E. destruct e; try lra. destruct (i =? nv + k)%nat; [rewrite E; ring|lra]. }
  rewrite L, V. ring.
Qed.

(** If the AC values of the sources are the combination, with complex coefficients
    [ar + j ai] and [br + j bi], of those of two other runs on the same circuit, then so
    is the result, at every frequency the three runs have in common. *)
Theorem C134_superposition : forall o maxit1 maxit2 maxit3 fuel csolve cmin gmin nv es ports op x0 ph1 ph2 ph3 ar ai br bi
    start1 stop1 points1 type1 rows1 start2 stop2 points2 type2 rows2 start3 stop3 points3 type3 rows3 f x1 x2 x3 i,
  o_std o = true -> csolver_ok (nv + n_vde es - 1) csolve -> (0 < nv)%nat -> wf_circ nv es ->
  (forall e, In e es ->
     ac_value re_part ph3 e = ar * ac_value re_part ph1 e - ai * ac_value im_part ph1 e + br * ac_value re_part ph2 e - bi * ac_value im_part ph2 e /\
     ac_value im_part ph3 e = ai * ac_value re_part ph1 e + ar * ac_value im_part ph1 e + bi * ac_value re_part ph2 e + br * ac_value im_part ph2 e) ->
  let run maxit ph start stop points type rows :=
    ac_analysis o false maxit fuel csolve cmin gmin nv es ports ph op start stop points type x0 = Ok (Some rows) in
  run maxit1 ph1 start1 stop1 points1 type1 rows1 -> run maxit2 ph2 start2 stop2 points2 type2 rows2 ->
  run maxit3 ph3 start3 stop3 points3 type3 rows3 ->
  In (f, x1) rows1 -> In (f, x2) rows2 -> In (f, x3) rows3 -> (i < nv + n_vde es - 1)%nat ->
  fst x3 i = ar * fst x1 i - ai * snd x1 i + br * fst x2 i - bi * snd x2 i /\
  snd x3 i = ai * fst x1 i + ar * snd x1 i + bi * fst x2 i + br * snd x2 i.
Proof.
  intros o maxit1 maxit2 maxit3 fuel csolve cmin gmin nv es ports op x0 ph1 ph2 ph3 ar ai br bi
    start1 stop1 points1 type1 rows1 start2 stop2 points2 type2 rows2 start3 stop3 points3 type3 rows3 f x1 x2 x3 i STD OK P W HV run H1 H2 H3 I1 I2 I3 L.
  destruct (ac_rows _ _ _ _ _ _ _ _ _ _ _ _ _ _ _ _ _ STD OK H1) as (ws1 & m & N & AC & xop & _ & G & GA & LA & _ & P1).
  destruct (ac_rows _ _ _ _ _ _ _ _ _ _ _ _ _ _ _ _ _ STD OK H2) as (ws2 & m2 & N2 & AC2 & xop2 & _ & G2 & GA2 & LA2 & _ & P2).
  destruct (ac_rows _ _ _ _ _ _ _ _ _ _ _ _ _ _ _ _ _ STD OK H3) as (ws3 & m3 & N3 & AC3 & xop3 & _ & G3 & GA3 & LA3 & _ & P3).
  rewrite G in G2, G3. injection G2 as <- <-. injection G3 as <- <-. rewrite GA in GA2, GA3. injection GA2 as <-. injection GA3 as <-.
  assert (JE : forall y, linearized_at ports x0 op y -> generate_J ports y = generate_J ports xop).
  { intros y Hy. clear -Hy LA. unfold linearized_at in *. destruct ports as [|p ports]; [reflexivity|].
    destruct x0; [congruence|]. rewrite LA in Hy. injection Hy as ->. reflexivity. }
  specialize (P1 f x1 I1). specialize (P2 f x2 I2). specialize (P3 f x3 I3). rewrite (JE xop2 LA2) in P2. rewrite (JE xop3 LA3) in P3.
  set (t := (nv + n_vde es - 1)%nat) in *. set (Nac := fun ph => (reduce_vec (fst (generate_Nac nv ph es)), reduce_vec (snd (generate_Nac nv ph es)))).
  assert (UN : exists A, ~ singular t A /\ solves t A (Nac ph1) x1 /\ solves t A (Nac ph2) x2 /\ solves t A (Nac ph3) x3).
  { destruct P1 as [[S1 Q1]|(S1 & T1 & Q1)], P2 as [[S2 Q2]|(S2 & T2 & Q2)]; try contradiction;
    destruct P3 as [[S3 Q3]|(S3 & T3 & Q3)]; try contradiction;
    (eexists; split; [eassumption|split; [eassumption|split; eassumption]]). }
  destruct UN as (A & NS & Q1 & Q2 & Q3).
  set (z := (fun j => fst x3 j + (-1) * (ar * fst x1 j + (- ai) * snd x1 j + br * fst x2 j + (- bi) * snd x2 j),
             fun j => snd x3 j + (-1) * (ai * fst x1 j + ar * snd x1 j + bi * fst x2 j + br * snd x2 j)) : cvec).
  assert (VAL : forall ph e, val (fun e => re_of (ph e)) e = ac_value re_part ph e /\ val (fun e => im_of (ph e)) e = ac_value im_part ph e).
  { intros ph e. unfold val, ac_value. destruct (ph e) as [[? ?]|]; split; reflexivity. }
  assert (Z : forall j, (j < t)%nat -> crow_re t A j z = 0 /\ crow_im t A j z = 0).
  { intros j Lj. destruct (Q1 j Lj) as [A1 B1], (Q2 j Lj) as [A2 B2], (Q3 j Lj) as [A3 B3].
    unfold Nac, reduce_vec, generate_Nac in *. cbn [fst snd] in *.
    rewrite (nac_linear nv es (S j) (fun e => re_of (ph3 e)) (fun e => re_of (ph1 e)) (fun e => im_of (ph1 e)) (fun e => re_of (ph2 e)) (fun e => im_of (ph2 e)) ar (- ai) br (- bi) W) in A3
      by (intros e Ie; destruct (HV e Ie) as [V1 _]; rewrite (proj1 (VAL ph3 e)), (proj1 (VAL ph1 e)), (proj2 (VAL ph1 e)), (proj1 (VAL ph2 e)), (proj2 (VAL ph2 e)), V1; ring).
    rewrite (nac_linear nv es (S j) (fun e => im_of (ph3 e)) (fun e => re_of (ph1 e)) (fun e => im_of (ph1 e)) (fun e => re_of (ph2 e)) (fun e => im_of (ph2 e)) ai ar bi br W) in B3
      by (intros e Ie; destruct (HV e Ie) as [_ V1]; rewrite (proj2 (VAL ph3 e)), (proj1 (VAL ph1 e)), (proj2 (VAL ph1 e)), (proj1 (VAL ph2 e)), (proj2 (VAL ph2 e)), V1; ring).
    unfold crow_re, crow_im in *. unfold z. cbn [fst snd].
    repeat (rewrite ?row_vadd, ?row_vscal in * ).
    set (u1 := nac_part nv _ es (S j)) in A1. set (u2 := nac_part nv _ es (S j)) in B1. set (u3 := nac_part nv _ es (S j)) in A2. set (u4 := nac_part nv _ es (S j)) in B2.
    fold u1 u2 u3 u4 in A3, B3.
    replace u1 with (- (row t (fst A) j (fst x1) - row t (snd A) j (snd x1))) in * by lra.
    replace u2 with (- (row t (fst A) j (snd x1) + row t (snd A) j (fst x1))) in * by lra.
    replace u3 with (- (row t (fst A) j (fst x2) - row t (snd A) j (snd x2))) in * by lra.
    replace u4 with (- (row t (fst A) j (snd x2) + row t (snd A) j (fst x2))) in * by lra.
    split; [rewrite <- A3|rewrite <- B3]; ring. }
  destruct (classic (fst z i = 0 /\ snd z i = 0)) as [[Z1 Z2]|NZ].
  - unfold z in Z1, Z2. cbn [fst snd] in Z1, Z2. split; lra.
  - exfalso. apply NS. exists z. split; [|exact Z]. exists i. split; [exact L|]. apply not_and_or in NZ. exact NZ.
Qed.
Print Assumptions C134_superposition.

(** Twice the excitation, a quarter of a turn later: the run of [C133_example] times [2 j]. *)
Example C134_example : forall x rows y,
  ac_analysis ac_opts false 20 5 csolve1 0 0 2 rc [] rc_ph (Ok None) 1 1 1 (Some "lin"%string) None = Ok (Some [(1, x)]) ->
  ac_analysis ac_opts false 20 5 csolve1 0 0 2 rc [] (fun e => match e with EI _ _ _ _ _ => Some (4, PI / 2) | _ => None end) (Ok None) 1 1 1 (Some "lin"%string) None = Ok (Some rows) ->
  In (1, y) rows -> fst y 0%nat = -2 * snd x 0%nat /\ snd y 0%nat = 2 * fst x 0%nat.
Proof.
  intros x rows y R1 R2 IN.
  pose proof (C134_superposition ac_opts 20 20 20 5 csolve1 0 0 2 rc [] (Ok None) None rc_ph rc_ph
    (fun e => match e with EI _ _ _ _ _ => Some (4, PI / 2) | _ => None end) 0 2 0 0
    1 1 1 (Some "lin"%string) [(1, x)] 1 1 1 (Some "lin"%string) [(1, x)] 1 1 1 (Some "lin"%string) rows 1 x x y 0%nat eq_refl csolve1_ok ltac:(lia)) as Q.
  destruct C133_example as (_ & _ & _ & _ & W & _). specialize (Q W).
  destruct (Q ltac:(intros e _; destruct e; cbn [ac_value rc_ph]; unfold re_part, im_part; cbn [fst snd]; rewrite ?cos_PI2, ?sin_PI2, ?cos_0, ?sin_0; split; ring)
    R1 R1 R2 (or_introl eq_refl) (or_introl eq_refl) IN ltac:(simpl; lia)) as [A B]. split; lra.
Qed.

(** * C135: the frequencies and the checks on the parameters *)

Theorem C135_frequencies : forall fuel start stop n s, (2 <= n)%nat -> 0 < start -> start <= stop -> (n < fuel)%nat ->
  (upper s = "LIN"%string -> exists ws, omegas fuel start stop (INR n) (Some s) = Ok ws /\
     map (fun w => w / PI / 2) ws = map (fun i => start + INR i * (stop - start) / (INR n - 1)) (seq 0 n)) /\
  (upper s = "LOG"%string -> exists ws q, omegas fuel start stop (INR n) (Some s) = Ok ws /\ 0 < q /\
     map (fun w => w / PI / 2) ws = map (fun i => start * q ^ i) (seq 0 n) /\ start * q ^ (n - 1) = stop) /\
  (upper s <> "LIN"%string -> upper s <> "LOG"%string -> omegas fuel start stop (INR n) (Some s) = Err ValueError).
Proof.
  intros fuel start stop n s N P SS F. assert (L2 : 2 <= INR n) by (apply (le_INR 2 n); exact N). pose proof PI_RGT_0 as PP.
  unfold omegas. destruct (Req_EM_T start 0); [lra|]. replace (Rlt_b stop start) with false by (symmetry; apply Rlt_b_false; lra).
  replace (Rlt_b (INR n) 2) with false by (symmetry; apply Rlt_b_false; lra). cbn [andb]. split; [|split].
  - intros ->. change (String.eqb "LIN" "LOG") with false. change (String.eqb "LIN" "LIN") with true. cbv iota.
    destruct (C15_linear_axis (2 * PI * start) (2 * PI * stop) n N) as (a & -> & C & _). cbn [bindr]. rewrite C by exact F.
    eexists. split; [reflexivity|]. rewrite map_map. apply map_ext. intros i. field. lra.
  - intros ->. change (String.eqb "LOG" "LOG") with true. cbv iota.
    destruct (C15_log_axis (2 * PI * start) (2 * PI * stop) n N ltac:(apply Rmult_lt_0_compat; lra) ltac:(apply Rmult_lt_0_compat; lra)) as (q & Q & C & _ & _ & E & _).
    cbv zeta in C, E. rewrite C by exact F. eexists. exists q. split; [reflexivity|]. split; [exact Q|]. split.
    + rewrite map_map. apply map_ext. intros i. field. lra.
    + apply (Rmult_eq_reg_l (2 * PI)); [rewrite <- E; ring|lra].
  - intros N1 N2. apply String.eqb_neq in N1, N2. rewrite N1, N2. reflexivity.
Qed.
Print Assumptions C135_frequencies.

(** A point at the start, if start and stop are the same. *)
Theorem C135_single_point : forall fuel start s, start <> 0 -> (1 < fuel)%nat -> upper s = "LIN"%string ->
  omegas fuel start start 1 (Some s) = Ok [2 * PI * start] /\ 2 * PI * start / PI / 2 = start.
Proof.
  intros fuel start s NZ F S. split; [|field; apply PI_neq0]. unfold omegas. destruct (Req_EM_T start 0); [contradiction|].
  replace (Rlt_b start start) with false by (symmetry; apply Rlt_b_false; lra). destruct (Req_EM_T start start); [|contradiction].
  rewrite andb_false_r, S. change (String.eqb "LIN" "LOG") with false. change (String.eqb "LIN" "LIN") with true. cbv iota.
  destruct (C15_linear_single (2 * PI * start) (2 * PI * start)) as [-> C]. destruct (Req_EM_T _ _) as [_|K]; [|exfalso; apply K; reflexivity].
  cbn [bindr]. rewrite C by exact F. reflexivity.
Qed.
Print Assumptions C135_single_point.

(** Parameters out of range: nothing is run. *)
Theorem C135_rejected : forall o d maxit fuel csolve cmin gmin nv es ports ph op start stop points stype x0,
  start = 0 \/ stop < start \/ (points < 2 /\ start <> stop) ->
  ac_analysis o d maxit fuel csolve cmin gmin nv es ports ph op start stop points stype x0 = Err ValueError.
Proof.
  intros o d maxit fuel csolve cmin gmin nv es ports ph op start stop points stype x0 H.
  assert (E : omegas fuel start stop points stype = Err ValueError); [|unfold ac_analysis; rewrite E; reflexivity].
  unfold omegas. destruct (Req_EM_T start 0); [reflexivity|]. destruct (Rlt_b stop start) eqn:Q; [reflexivity|]. apply Rlt_b_false in Q.
  destruct H as [H|[H|[H H']]]; [contradiction|lra|]. rewrite (proj2 (Rlt_b_true points 2) H). destruct (Req_EM_T start stop); [contradiction|reflexivity].
Qed.
Print Assumptions C135_rejected.

(** The documented default of [sweep_type], a logarithmic sweep, does not work. *)
Theorem C135_default_type_refuted : forall o d maxit fuel csolve cmin gmin nv es ports ph op start stop points x0,
  0 < start -> start <= stop -> 2 <= points ->
  ac_analysis o d maxit fuel csolve cmin gmin nv es ports ph op start stop points None x0 = Err AttributeError.
Proof.
  intros o d maxit fuel csolve cmin gmin nv es ports ph op start stop points x0 S SS P. unfold ac_analysis, omegas.
  destruct (Req_EM_T start 0); [lra|]. replace (Rlt_b stop start) with false by (symmetry; apply Rlt_b_false; lra).
  replace (Rlt_b points 2) with false by (symmetry; apply Rlt_b_false; lra). reflexivity.
Qed.
Print Assumptions C135_default_type_refuted.

(** A negative start frequency is accepted in a linear sweep, which then may go through
    zero. *)
Theorem C135_negative_start_refuted : exists start stop ws, start < 0 /\
  omegas 5 start stop (INR 3) (Some "LIN"%string) = Ok ws /\ In 0 ws.
Proof.
  exists (-1), 1. unfold omegas. destruct (Req_EM_T (-1) 0); [lra|]. replace (Rlt_b 1 (-1)) with false by (symmetry; apply Rlt_b_false; lra).
  replace (Rlt_b (INR 3) 2) with false by (symmetry; apply Rlt_b_false; simpl; lra). cbn [andb].
  change (String.eqb (upper "LIN") "LOG") with false. change (String.eqb (upper "LIN") "LIN") with true. cbv iota.
  destruct (C15_linear_axis (2 * PI * -1) (2 * PI * 1) 3 ltac:(lia)) as (a & -> & C & _). cbn [bindr]. rewrite C by lia.
  eexists. split; [lra|]. split; [reflexivity|]. right. left. simpl. field.
Qed.
Print Assumptions C135_negative_start_refuted.

Example C135_example : exists ws q, omegas 5 1 100 (INR 3) (Some "log"%string) = Ok ws /\ 0 < q /\
  map (fun w => w / PI / 2) ws = [1; q; q ^ 2] /\ q ^ 2 = 100.
Proof.
  destruct (proj1 (proj2 (C135_frequencies 5 1 100 3 "log"%string ltac:(lia) ltac:(lra) ltac:(lra) ltac:(lia))) eq_refl) as (ws & q & A & B & C & D).
  exists ws, q. split; [exact A|]. split; [exact B|]. split; [|simpl in D |- *; lra]. rewrite C. simpl. do 3 (apply f_equal2; [ring|]). reflexivity.
Qed.
