(** Property theorems about the DC solver, Newton's method and the DC sweep
    (C08-C16, C61, C67-C72). *)
From Coq Require Import Reals String Ascii List Bool Arith ZArith Lia Lra Psatz Permutation.
From Verif Require Import Base BaseFacts Nodes Circuit Rsum Mna MnaSpec MnaFacts PropsMna
  DcSolve DcSolveFacts Newton NewtonFacts Sweep SweepFacts.
Import ListNotations.
Open Scope nat_scope.

(** * C08: bounded schedule *)
Theorem C08_bounded_schedule : forall (X : Type) o (newton : nat -> req -> X -> nout X) fuel x0,
  o_std o || o_gmin o || o_src o = true ->
  (o_gmin o = true -> 10 <= o_ng o) ->
  (forall i r x e, newton i r x <> NOther e) ->
  22 <= fuel ->
  exists x err conv tot calls,
    dc_solve o newton fuel x0 = DRet x err conv tot calls /\
    1 <= length calls <= 22 /\
    (conv = true -> exists v, x = Some v) /\
    (conv = false ->
       (o_std o = true -> In (RStd, false) calls) /\
       (o_gmin o = true -> exists k, In (RGmin k, false) calls) /\
       (o_src o = true -> exists k, In (RSrc k, false) calls)).
Proof.
  intros X o newton fuel x0 SM GO TO F. unfold dc_solve.
  pose proof (left_start o SM) as L.
  assert (L22 : left o (set_next_solve_method o get_solve_methods) <= 22).
  { rewrite L. destruct (o_std o), (o_gmin o), (o_src o); simpl; lia. }
  destruct (dc_loop_spec o newton TO fuel (set_next_solve_method o get_solve_methods) None x0 0 [] GO
    (dinv_start o SM)) as (x & err & conv & tot & log & E & B & C1 & C2).
  - unfold linv, set_next_solve_method, enable_next, get_solve_methods; simpl.
    destruct (o_std o), (o_gmin o), (o_src o); simpl; repeat split; intros; discriminate.
  - lia.
  - simpl in *. exists x, err, conv, tot, log. split; [exact E|]. split; [lia|]. split.
    + intros H. destruct (C2 H) as (v & _ & _ & _ & -> & _). eauto.
    + intros H. destruct (C1 H) as (_ & A0 & A1 & A2).
      split; [|split]; intros Z.
      * destruct (A0 Z) as ([| |] & K & I); try discriminate. exact I.
      * destruct (A1 Z) as ([| |] & K & I); try discriminate. eauto.
      * destruct (A2 Z) as ([| |] & K & I); try discriminate. eauto.
Qed.
Print Assumptions C08_bounded_schedule.

Definition default_opts : dopts := mkDopts true true true 27.

(** The bound is reached: the standard method fails, the gmin steps fail at
    the last one, the source steps fail at the last one, which is then tried
    once more. *)
Definition worst (i : nat) (r : req) (x : nat) : nout nat :=
  match r with
  | RStd => NCaught
  | RGmin k => NRet (S x) x (k <? 9) 3
  | RSrc k => NRet (S x) x (k <? 9) 3
  end.

Example C08_bound_reached :
  exists tot calls, dc_solve default_opts worst 22 0 = DRet None None false tot calls /\
    length calls = 22 /\ last calls (RStd, true) = (RSrc 9, false).
Proof. eexists. eexists. split; [vm_compute; reflexivity|]. split; reflexivity. Qed.

(** * C123: the iterations reported *)
(** [c i] iterations in the [i]-th Newton call, converged or not: the number returned
    is the sum over the calls made. *)
Theorem C123_iterations : forall (X : Type) o (newton : nat -> req -> X -> nout X) (c : nat -> nat) fuel x0 x err conv tot calls,
  (forall i r y, match newton i r y with NRet _ _ _ it => it = c i | NCaught => c i = 0 | NOther _ => True end) ->
  dc_solve o newton fuel x0 = DRet x err conv tot calls ->
  tot = list_sum (map c (seq 0 (length calls))).
Proof.
  intros X o newton c fuel x0 x err conv tot calls HC.
  assert (K : forall fuel m st x t log, t = list_sum (map c (seq 0 (length log))) ->
    forall x' err conv tot calls, dc_loop o newton fuel m st x t log = DRet x' err conv tot calls ->
    tot = list_sum (map c (seq 0 (length calls)))).
  { clear - HC. induction fuel as [|f IH]; intros m st x t log Ht x' err conv tot calls H; [discriminate|].
    assert (ST : forall e, t + c (length log) = list_sum (map c (seq 0 (length (log ++ [e]))))).
    { intros e. rewrite app_length. cbn [length]. rewrite seq_app, map_app, list_sum_app, <- Ht. cbn. lia. }
    simpl in H. destruct (current_req o m st) as [r|]; [|discriminate].
    specialize (HC (length log) r x).
    assert (FS : forall y t', t' = list_sum (map c (seq 0 (length (log ++ [(r, false)])))) ->
      (if more_solve_methods_available o m
       then dc_loop o newton f (set_next_solve_method o m) (Some r) y t' (log ++ [(r, false)])
       else DRet None None false t' (log ++ [(r, false)])) = DRet x' err conv tot calls ->
      tot = list_sum (map c (seq 0 (length calls)))).
    { intros y t' E Q. destruct (more_solve_methods_available o m); [eapply IH; eauto|].
      injection Q as <- <- <- <- <-. exact E. }
    destruct (newton (length log) r x) as [y er [|] it| |e]; [| | |discriminate].
    - destruct (advance m).
      + refine (IH _ _ _ _ _ _ _ _ _ _ _ H). transitivity (t + c (length log)); [congruence|exact (ST (r, true))].
      + injection H as <- <- <- <- <-. transitivity (t + c (length log)); [congruence|exact (ST (r, true))].
    - apply (FS y (t + it)); [|exact H]. transitivity (t + c (length log)); [congruence|exact (ST (r, false))].
    - apply (FS x t); [|exact H]. transitivity (t + c (length log)); [lia|exact (ST (r, false))]. }
  intros H. eapply K; [|exact H]. reflexivity.
Qed.
Example C123_example : exists x err calls,
  dc_solve (mkDopts true true true 10) (fun i _ x => NRet x x (Nat.ltb 0 i) (i + 3)) 30 0 = DRet x err true 88 calls /\ length calls = 11.
Proof. eexists _, _, _. split; vm_compute; reflexivity. Qed.
Print Assumptions C123_iterations.

(** A gmin option above exp(-10) leaves the gmin list too short. *)
Theorem C08_large_gmin_refuted : exists o (newton : nat -> req -> nat -> nout nat) calls,
  o_ng o = 6 /\ (forall i r x, exists y, newton i r x = NRet y y (0 <? i) 1) /\
  dc_solve o newton 30 0 = DErr IndexError calls.
Proof.
  exists (mkDopts true true true 6), (fun i _ x => NRet x x (0 <? i) 1). eexists.
  split; [reflexivity|]. split; [eauto|]. vm_compute. reflexivity.
Qed.
Print Assumptions C08_large_gmin_refuted.

Open Scope R_scope.

(** * C09: what a converged solution solves *)

(** A Newton solver whose converged answers solve the system it was given (a
    linear one, of size [n]). *)
Definition sound_newton (n : nat) (newt : nat -> mat -> vec -> vec -> nout vec) : Prop :=
  forall i A b x y err it, newt i A b x = NRet y err true it ->
    forall j, (j < n)%nat -> row n A j y + b j = 0.

Theorem C09_converged_guarded : forall n o newt nv mna Gmin Ndc Ntran fuel x0 x err tot calls,
  o_gmin o = false -> o_src o = false -> sound_newton n newt ->
  dc_solve_sys o newt nv mna Gmin Ndc Ntran fuel x0 = DRet (Some x) err true tot calls ->
  forall j, (j < n)%nat ->
    row n (fun i k => mna i k + Gmin i k) j x + (Ndc j + Ntran j) = 0.
Proof.
  intros n o newt nv mna Gmin Ndc Ntran fuel x0 x err tot calls G S SN H j Hj.
  unfold dc_solve_sys, dc_solve in H.
  set (nw := fun (i : nat) (r : req) (x : vec) => newt i (sys_mat nv mna Gmin r) (sys_vec Ndc Ntran r) x) in H.
  assert (R : forall fuel m st x tot log x' err' tot' log',
    g_en m = false -> s_en m = false -> (st = None \/ st = Some RStd) ->
    dc_loop o nw fuel m st x tot log = DRet x' err' true tot' log' ->
    exists i y v e it, x' = Some v /\ nw i RStd y = NRet v e true it).
  { clear H. induction fuel0 as [|f IH]; intros m st z t log x' err' tot' log' GE SE ST H; [discriminate|].
    simpl in H. destruct (current_req o m st) as [r|] eqn:CR; [|discriminate].
    assert (r = RStd).
    { unfold current_req in CR. rewrite GE, SE in CR. destruct (std_en m); [congruence|].
      destruct ST as [->| ->]; congruence. }
    subst r.
    assert (N1 : g_en (set_next_solve_method o m) = false /\ s_en (set_next_solve_method o m) = false).
    { unfold set_next_solve_method, disable_current, enable_next. rewrite G, S, !andb_false_r.
      destruct (std_en m); [|rewrite GE, SE]; destruct (_ && o_std o); simpl; auto. }
    assert (FS : forall x0 t0, (if more_solve_methods_available o m
      then dc_loop o nw f (set_next_solve_method o m) (Some RStd) x0 t0 (log ++ [(RStd, false)])
      else DRet None None false t0 (log ++ [(RStd, false)])) = DRet x' err' true tot' log' ->
      exists i y v e it, x' = Some v /\ nw i RStd y = NRet v e true it).
    { intros a b Q. destruct (more_solve_methods_available o m); [|discriminate].
      eapply IH; try exact Q; tauto. }
    destruct (nw (length log) RStd z) as [y er [|] it| |e] eqn:NW; [| | |discriminate]; eauto.
    unfold advance in H. rewrite GE, SE in H. simpl in H. injection H as <- <- <- <-. eauto 10. }
  assert (N0 : g_en (set_next_solve_method o get_solve_methods) = false /\
               s_en (set_next_solve_method o get_solve_methods) = false).
  { unfold set_next_solve_method, enable_next; simpl. rewrite G, S. destruct (o_std o); auto. }
  destruct (R _ _ _ _ _ _ _ _ _ _ (proj1 N0) (proj2 N0) (or_introl eq_refl) H)
    as (i & y & v & e & it & E & NW).
  injection E as <-. unfold nw in NW.
  specialize (SN _ _ _ _ _ _ _ NW j Hj). exact SN.
Qed.
Print Assumptions C09_converged_guarded.

(** In general a converged answer solves the system of the last call, which may
    be one of the stepping systems. *)
Theorem C09_converged_solves_last_call : forall n o newt nv mna Gmin Ndc Ntran fuel x0 x err tot calls,
  sound_newton n newt ->
  dc_solve_sys o newt nv mna Gmin Ndc Ntran fuel x0 = DRet (Some x) err true tot calls ->
  exists pre r, calls = (pre ++ [(r, true)])%list /\
    forall j, (j < n)%nat ->
      match r with
      | RStd => row n mna j x + row n Gmin j x + Ndc j + Ntran j = 0
      | RSrc k => row n mna j x + row n Gmin j x + source_factor k * Ndc j + Ntran j = 0
      | RGmin k => row n mna j x + (if (j <? nv - 1)%nat then gmin_step k * x j else 0) + Ndc j + Ntran j = 0
      end.
Proof.
  intros n o newt nv mna Gmin Ndc Ntran fuel x0 x err tot calls SN H.
  destruct (dc_loop_last _ _ _ _ _ _ _ _ _ _ _ _ H) as (i & r & y & v & e & it & pre & E & _ & NW & -> & _).
  injection E as <-. exists pre, r. split; [reflexivity|]. intros j Hj. pose proof (SN _ _ _ _ _ _ _ NW j Hj) as Q.
  assert (P : forall A B : mat, row n (fun i k => A i k + B i k) j x = row n A j x + row n B j x).
  { intros A B. unfold row. rewrite <- rsum_plus. apply rsum_ext. intros. ring. }
  destruct r as [|k|k]; unfold sys_mat, sys_vec in Q; rewrite P in Q; try lra.
  assert (G : row n (build_gmin_matrix nv (gmin_step k)) j x = (if (j <? nv - 1)%nat then gmin_step k * x j else 0)).
  { unfold row, build_gmin_matrix.
    rewrite (rsum_ext n _ (fun i => (if (j <? nv - 1)%nat then gmin_step k else 0) * (dlt i j * x i))).
    - rewrite rsum_scal, rsum_dlt by exact Hj. destruct (j <? nv - 1)%nat; ring.
    - intros i' _. rewrite gmin_loop_val. unfold mzero, dlt.
      destruct (Nat.ltb_spec j (nv - 1)), (Nat.eqb_spec j i'), (Nat.eqb_spec i' j); subst; simpl; try lia; ring. }
  rewrite G in Q. lra.
Qed.
Print Assumptions C09_converged_solves_last_call.

(** A sound solver for systems with one unknown that gives up on the calls for
    which [bad] is true. *)
Definition solver1 (bad : nat -> bool) (i : nat) (A : mat) (b : vec) (x : vec) : nout vec :=
  if bad i then NRet x x false 5
  else if Req_EM_T (A 0%nat 0%nat) 0 then NCaught
  else NRet (fun _ => - b 0%nat / A 0%nat 0%nat) x true 1.

Lemma solver1_sound : forall bad, sound_newton 1 (solver1 bad).
Proof.
  intros bad i A b x y err it H j Hj. unfold solver1 in H. destruct (bad i); [discriminate|].
  destruct (Req_EM_T (A 0%nat 0%nat) 0); [discriminate|]. injection H as <- _ _.
  replace j with 0%nat by lia. unfold row; simpl. field. assumption.
Qed.

(** On a system whose matrices are never zero, the solver is the one that never
    meets a singular matrix. *)
Definition val1 (r : req) : vec :=
  fun _ => - sys_vec (fun _ => -1) vzero r 0%nat / sys_mat 2 (fun _ _ => 1) mzero r 0%nat 0%nat.

Lemma demo1_run : forall bad,
  dc_solve_sys default_opts (solver1 bad) 2 (fun _ _ => 1) mzero (fun _ => -1) vzero 30 vzero
  = dc_solve default_opts (fun i r x => if bad i then NRet x x false 5 else NRet (val1 r) x true 1) 30 vzero.
Proof.
  intros bad. unfold dc_solve_sys, dc_solve. apply dc_loop_ext. intros i r x. unfold solver1.
  destruct (bad i); [reflexivity|]. destruct (Req_EM_T _ 0) as [Z|Z]; [|reflexivity].
  exfalso. destruct r; unfold sys_mat, mzero, build_gmin_matrix, gmin_loop, mset, gmin_step in Z;
    cbn [Nat.sub Nat.eqb andb] in Z; try lra.
  assert (0 < / 10 ^ (S k)) by (apply Rinv_0_lt_compat, pow_lt; lra). lra.
Qed.

(** One node, a 1 Ohm resistor to ground and a 1 A source, solution 1 V.  If the
    first two calls fail, source stepping ends with 0.9 V reported as the
    solution. *)
Theorem C09_converged_refuted : exists newt x tot calls err,
  sound_newton 1 newt /\
  dc_solve_sys default_opts newt 2 (fun _ _ => 1) mzero (fun _ => -1) vzero 30 vzero
    = DRet (Some x) err true tot calls /\
  x 0%nat = 9/10 /\
  row 1 (fun i k => 1 + mzero i k) 0%nat x + (-1 + vzero 0%nat) <> 0.
Proof.
  exists (solver1 (fun i => (i <? 2)%nat)), (val1 (RSrc 9)). do 3 eexists.
  split; [apply solver1_sound|]. split.
  { rewrite demo1_run. cbv -[val1 vzero]. reflexivity. }
  assert (V : val1 (RSrc 9) 0%nat = 9/10) by (unfold val1, sys_mat, sys_vec, mzero, vzero, source_factor; simpl; field).
  split; [exact V|]. unfold row, rsum. rewrite V.
  unfold mzero, vzero. lra.
Qed.
Print Assumptions C09_converged_refuted.

(** If source stepping fails at its very first step, that step (0.1% of the
    sources) is tried again, and now an answer counts as the solution. *)
Theorem C09_retry_refuted : exists newt x tot calls err,
  sound_newton 1 newt /\
  dc_solve_sys default_opts newt 2 (fun _ _ => 1) mzero (fun _ => -1) vzero 30 vzero
    = DRet (Some x) err true tot calls /\
  x 0%nat = 1/1000.
Proof.
  exists (solver1 (fun i => (i <? 3)%nat)), (val1 (RSrc 0)). do 3 eexists.
  split; [apply solver1_sound|]. split.
  { rewrite demo1_run. cbv -[val1 vzero]. reflexivity. }
  change (val1 (RSrc 0) 0%nat = 1/1000). unfold val1, sys_mat, sys_vec, mzero, vzero, source_factor; simpl; field.
Qed.
Print Assumptions C09_retry_refuted.

(** * C10: damping *)
Theorem C10_damping : forall o size dx ports n, 0 < d_max o ->
  0 < get_td o size dx ports n <= 1 /\
  (d_lock o = true -> forall n1 n2, In (n1, n2) ports -> (n1 <> 0 \/ n2 <> 0)%nat ->
     Rabs (drive_v (fun i => get_td o size dx ports n * dx i) (n1, n2)) <= d_max o) /\
  (d_lock o = false -> d_first o = false \/ n = None -> get_td o size dx ports n = 1).
Proof.
  intros o size dx ports n H. split; [apply get_td_range; auto|]. split.
  - intros L n1 n2 I NZ. pose proof (get_td_limits o size dx ports n (n1, n2) H L I) as G.
    pose proof (get_td_range o size dx ports n H) as [P _].
    eapply Rle_trans; [right|exact G]. unfold drive_v, port_move. cbn [fst snd].
    set (td := get_td o size dx ports n) in *.
    destruct (Nat.eqb_spec n1 0) as [->|N1].
    + destruct (Nat.eqb_spec n2 0) as [->|N2]; [lia|]. destruct n2 as [|n2]; [lia|]. simpl.
      rewrite Nat.sub_0_r, Rminus_0_l, Rabs_Ropp, Rabs_mult, (Rabs_right td) by lra. reflexivity.
    + destruct n1 as [|n1]; [lia|]. destruct n2 as [|n2]; simpl; rewrite ?Nat.sub_0_r.
      * rewrite Rminus_0_r, Rabs_mult, (Rabs_right td) by lra. reflexivity.
      * replace (td * dx n1 - td * dx n2) with (td * (dx n1 - dx n2)) by lra.
        rewrite Rabs_mult, (Rabs_right td) by lra. reflexivity.
  - intros L F. rewrite get_td_lmin, L. simpl. unfold td_first.
    destruct F as [F|F]; [rewrite F|rewrite F; reflexivity]. destruct n; reflexivity.
Qed.
Print Assumptions C10_damping.

Theorem C10_order_independent : forall o size dx ports ports' n, Permutation ports ports' ->
  get_td o size dx ports n = get_td o size dx ports' n.
Proof.
  intros o size dx ports ports' n P. rewrite !get_td_lmin. apply lmin_perm.
  destruct (d_lock o); [|constructor]. unfold exceeding. apply Permutation_map.
  induction P; simpl; auto.
  - destruct (Rlt_b _ _); auto.
  - destruct (Rlt_b _ _), (Rlt_b _ _); auto. apply perm_swap.
  - eapply perm_trans; eauto.
Qed.
Print Assumptions C10_order_independent.

Example C10_example :
  get_td (mkTd false true (1/10)) 2 (fun i => match i with O => 1 | _ => 2 end)
    [(1, 0); (2, 1); (0, 2)]%nat (Some 1%nat) = 1/20.
Proof.
  rewrite get_td_lmin. unfold exceeding, lmin, td_first, port_move, dx_at. simpl.
  replace (2 - 1) with 1 by lra. rewrite !(Rabs_right 1), !(Rabs_right 2) by lra.
  assert (A : Rlt_b (1/10) 1 = true) by (apply Rlt_b_true; lra).
  assert (B : Rlt_b (1/10) 2 = true) by (apply Rlt_b_true; lra).
  rewrite A, B. simpl.
  replace (2 - 1) with 1 by lra. rewrite !(Rabs_right 1), !(Rabs_right 2) by lra.
  unfold Rmin. repeat (destruct (Rle_dec _ _)); lra.
Qed.

(** * C70: ports with both ends at ground *)

(** Only ports with at least one node other than ground matter... *)
Theorem C70_small_moves_undamped_guarded : forall o size dx ports n, 0 < d_max o ->
  d_first o = false -> ~ In (0, 0)%nat ports ->
  (forall p, In p ports -> Rabs (drive_v dx p) <= d_max o) ->
  get_td o size dx ports n = 1.
Proof.
  intros o size dx ports n H F NG B. rewrite get_td_lmin.
  assert (T1 : td_first o n = 1) by (unfold td_first; rewrite F; destruct n; reflexivity).
  rewrite T1. destruct (d_lock o); [|reflexivity].
  replace (exceeding o size dx ports) with (@nil R); [reflexivity|].
  symmetry. unfold exceeding. replace (filter _ ports) with (@nil (nat * nat)); [reflexivity|].
  symmetry. induction ports as [|p ports IH]; [reflexivity|]. simpl.
  assert (PM : port_move size dx p = Rabs (drive_v dx p)).
  { destruct p as [[|a] [|b]]; unfold port_move, drive_v; simpl; rewrite ?Nat.sub_0_r.
    - exfalso. apply NG. left. reflexivity.
    - rewrite Rminus_0_l, Rabs_Ropp. reflexivity.
    - rewrite Rminus_0_r. reflexivity.
    - reflexivity. }
  replace (Rlt_b (d_max o) (port_move size dx p)) with false.
  - apply IH; [intros I; apply NG; right; auto|intros; apply B; right; auto].
  - symmetry. apply Rlt_b_false. rewrite PM. apply B. left. reflexivity.
Qed.
Print Assumptions C70_small_moves_undamped_guarded.

(** ... and one with both ends at ground (a MOS with grounded source and bulk
    has one) brings in the last unknown, whatever it is. *)
Theorem C70_grounded_port_refuted : exists o size dx, 0 < d_max o /\ d_first o = false /\
  Rabs (drive_v dx (0, 0)%nat) <= d_max o /\
  get_td o size dx [(0, 0)%nat] (Some 1%nat) < 1.
Proof.
  exists (mkTd false true (1/10)), 1%nat, (fun _ => 1). simpl.
  split; [lra|]. split; [reflexivity|]. unfold drive_v; simpl.
  rewrite Rminus_0_r, Rabs_R0. split; [lra|].
  rewrite get_td_lmin. unfold exceeding, lmin, port_move, td_first. simpl.
  rewrite Rabs_right by lra.
  assert (A : Rlt_b (1/10) 1 = true) by (apply Rlt_b_true; lra). rewrite A. simpl.
  rewrite Rabs_right by lra. rewrite Rmin_left; lra.
Qed.
Print Assumptions C70_grounded_port_refuted.

(** * C11: the convergence check *)
Theorem C11_convergence_check : forall t size x dx r k, (k <= size)%nat ->
  (convergence_check t size x dx r k = true <->
   (forall i, (i < k)%nat ->
      Rabs (dx i) <= t_vea t + t_ver t * Rabs (x i + dx i) /\ Rabs (r i) <= t_iea t) /\
   (forall i, (k <= i < size)%nat ->
      Rabs (dx i) <= t_iea t + t_ier t * Rabs (x i + dx i) /\ Rabs (r i) <= t_vea t)).
Proof.
  intros t size x dx r k K. unfold convergence_check, voltage_check, current_check.
  rewrite andb_true_iff, !custom_check_spec, Nat.min_l by assumption.
  split; intros [A B]; split; auto; intros i Hi.
  - specialize (B (i - k)%nat). unfold vdrop in B. replace (k + (i - k))%nat with i in B by lia.
    apply B. lia.
  - unfold vdrop. apply B. lia.
Qed.
Print Assumptions C11_convergence_check.

Theorem C11_monotone : forall t t' size x dx r k, (k <= size)%nat ->
  t_vea t <= t_vea t' -> t_ver t <= t_ver t' -> t_iea t <= t_iea t' -> t_ier t <= t_ier t' ->
  convergence_check t size x dx r k = true -> convergence_check t' size x dx r k = true.
Proof.
  intros t t' size x dx r k K A B C D. rewrite !C11_convergence_check by assumption.
  intros [H1 H2]. split; intros i Hi.
  - destruct (H1 i Hi). pose proof (Rabs_pos (x i + dx i)). split; nra.
  - destruct (H2 i Hi). pose proof (Rabs_pos (x i + dx i)). split; nra.
Qed.
Print Assumptions C11_monotone.

Theorem C11_empty : forall t x dx r, convergence_check t 0 x dx r 0 = true.
Proof. reflexivity. Qed.
Print Assumptions C11_empty.

Example C11_example : convergence_check (mkTols (1/10) (1/10) 1 1) 2 (fun _ => 1) (fun i => 1/5) (fun _ => 1/10) 1 = true
  /\ convergence_check (mkTols (1/10) (1/10) 1 1) 2 (fun _ => 1) (fun i => 1/4) (fun _ => 1/10) 1 = false.
Proof.
  split.
  - apply C11_convergence_check; [lia|]. simpl. split; intros i Hi;
    rewrite !Rabs_right by lra; split; lra.
  - destruct (convergence_check _ _ _ _ _ _) eqn:E; auto.
    apply C11_convergence_check in E; [|lia]. destruct E as [E _]. specialize (E 0%nat ltac:(lia)).
    simpl in E. rewrite !Rabs_right in E by lra. lra.
Qed.

(** * C12: Newton's method *)
Theorem C12_iterations_bounded : forall size solve nl JT td check maxit mna T x0 y r c n,
  mdn_solver size solve nl JT td check maxit mna T x0 = NRet y r c n ->
  (1 <= n <= maxit)%nat /\ (c = false -> n = maxit).
Proof.
  intros size solve nl JT td check maxit mna T x0 y r c n H. unfold mdn_solver in H.
  destruct x0 as [[len x]|].
  - destruct (len =? size)%nat; [|discriminate].
    apply newton_loop_bound in H. destruct H as (A & B & C). specialize (C eq_refl).
    split; [lia|]. intros Z. specialize (B Z). lia.
  - apply newton_loop_bound in H. destruct H as (A & B & C). specialize (C eq_refl).
    split; [lia|]. intros Z. specialize (B Z). lia.
Qed.
Print Assumptions C12_iterations_bounded.

Theorem C12_converged_means_checked : forall size solve JT td check maxit mna T x0 y r n,
  mdn_solver size solve true JT td check maxit mna T x0 = NRet y r true n ->
  exists x1 dx,
    (forall i, y i = x1 i + td dx n * dx i) /\
    (forall i, r i = row size mna i x1 + T i + snd (JT x1) i) /\
    solve (fun i j => mna i j + fst (JT x1) i j) (fun i => - r i) = Some dx /\
    check y dx r = true.
Proof.
  intros size solve JT td check maxit mna T x0 y r n H. unfold mdn_solver in H.
  assert (L : exists x, newton_loop size solve true JT td check maxit 0 mna T x None = NRet y r true n).
  { destruct x0 as [[len x]|]; [destruct (len =? size)%nat; [|discriminate]|]; eauto. }
  destruct L as [x L]. apply newton_loop_conv in L. destruct L as (x1 & dx & R & S1 & Y & C).
  exists x1, dx. rewrite Y. split; [reflexivity|]. split.
  - intros i. rewrite R. reflexivity.
  - split; [|rewrite <- Y; auto]. unfold jac in S1. exact S1.
Qed.
Print Assumptions C12_converged_means_checked.

Theorem C12_linear_one_step : forall size solve JT td check maxit mna T x y r c n,
  (forall dx n, td dx n = 1) ->
  (forall A b y, solve A b = Some y -> forall i, (i < size)%nat -> row size A i y = b i) ->
  mdn_solver size solve false JT td check maxit mna T (Some (size, x)) = NRet y r c n ->
  c = true /\ n = 1%nat /\ (forall i, (i < size)%nat -> row size mna i y + T i = 0).
Proof.
  intros size solve JT td check maxit mna T x y r c n TD SS H.
  destruct maxit as [|k].
  - unfold mdn_solver in H. rewrite Nat.eqb_refl in H. discriminate.
  - pose proof (newton_linear size solve JT td check (S k) mna T x TD SS ltac:(lia)) as Q.
    rewrite H in Q. tauto.
Qed.
Print Assumptions C12_linear_one_step.

Definition solve1 (A : mat) (b : vec) : option vec :=
  if Req_EM_T (A 0%nat 0%nat) 0 then None else Some (fun _ => b 0%nat / A 0%nat 0%nat).

Lemma solve1_ok : forall A b y, solve1 A b = Some y -> forall i, (i < 1)%nat -> row 1 A i y = b i.
Proof.
  intros A b y H i Hi. unfold solve1 in H. destruct (Req_EM_T _ 0); [discriminate|].
  injection H as <-. replace i with 0%nat by lia. unfold row; simpl. field. assumption.
Qed.

Example C12_example : forall JT check, exists y r,
  mdn_solver 1 solve1 false JT (fun _ _ => 1) check 20 (fun _ _ => 4) (fun _ => -8) (Some (1%nat, fun _ => 5))
  = NRet y r true 1 /\ y 0%nat = 2.
Proof.
  intros. unfold mdn_solver. simpl. unfold solve1, jac.
  destruct (Req_EM_T (4 + 0) 0) as [Z|Z]; [lra|]. do 2 eexists. split; [reflexivity|].
  unfold residual, row. simpl. field.
Qed.

(** * C69: with the first-iterations damping on, a linear circuit is declared
    solved after a fraction of the step. *)
Theorem C69_linear_exact_refuted : exists mna T, forall JT check, exists y r,
  mdn_solver 1 solve1 false JT
    (fun dx n => get_td (mkTd true true 1) 1 dx [] (Some n)) check 100 mna T (Some (1%nat, vzero))
  = NRet y r true 1 /\ row 1 mna 0%nat y + T 0%nat <> 0.
Proof.
  exists (fun _ _ => 1), (fun _ => -1). intros JT check. do 2 eexists.
  unfold mdn_solver. simpl. unfold solve1, jac.
  destruct (Req_EM_T (1 + 0) 0) as [Z|Z]; [lra|]. split; [reflexivity|].
  unfold row, residual, row, get_td, td_first, vzero; simpl. lra.
Qed.
Print Assumptions C69_linear_exact_refuted.

Theorem C69_linear_exact_guarded : forall size solve JT check maxit mna T x y r c n lock mx,
  (forall A b y, solve A b = Some y -> forall i, (i < size)%nat -> row size A i y = b i) ->
  mdn_solver size solve false JT (fun dx n => get_td (mkTd false lock mx) size dx [] (Some n))
    check maxit mna T (Some (size, x)) = NRet y r c n ->
  forall i, (i < size)%nat -> row size mna i y + T i = 0.
Proof.
  intros size solve JT check maxit mna T x y r c n lock mx SS H.
  apply C12_linear_one_step in H; [tauto| |exact SS].
  intros dx k. unfold get_td, td_first; simpl. destruct lock; reflexivity.
Qed.
Print Assumptions C69_linear_exact_guarded.

(** * C72: the error vector returned with the solution is the residual before
    the last step, not the one of the solution. *)
Theorem C72_error_is_residual_refuted : exists mna T, forall JT check, exists y r,
  mdn_solver 1 solve1 false JT (fun _ _ => 1) check 100 mna T (Some (1%nat, vzero)) = NRet y r true 1 /\
  row 1 mna 0%nat y + T 0%nat = 0 /\ r 0%nat = -1.
Proof.
  exists (fun _ _ => 1), (fun _ => -1). intros JT check. do 2 eexists.
  unfold mdn_solver. simpl. unfold solve1, jac.
  destruct (Req_EM_T (1 + 0) 0) as [Z|Z]; [lra|]. split; [reflexivity|].
  unfold row, residual, row, vzero; simpl. split; field.
Qed.
Print Assumptions C72_error_is_residual_refuted.

(** * C61: assembly of the nonlinear terms *)

(** The current injected in node [r + 1] by a port: out of the first node, into
    the second one. *)
Theorem C61_current_vector : forall ports x r,
  snd (J_and_T ports x) r =
  lsum (fun p => ((if (fst (np_out p) =? S r)%nat then 1 else 0)
                  - (if (snd (np_out p) =? S r)%nat then 1 else 0))
                 * np_i p (map (drive_v x) (np_drive p))) ports.
Proof.
  intros ports x r.
  assert (G : forall n, gdlt r n = if (n =? S r)%nat then 1 else 0).
  { intros n. unfold gdlt, dlt. destruct n as [|n]; [reflexivity|]. simpl. rewrite Nat.sub_0_r.
    rewrite Nat.eqb_sym. reflexivity. }
  assert (H : forall st, snd (fold_left (upd_port x) ports st) r = snd st r +
    lsum (fun p => (gdlt r (fst (np_out p)) - gdlt r (snd (np_out p)))
           * np_i p (map (drive_v x) (np_drive p))) ports).
  { induction ports as [|p ports IH]; intros st; simpl; [lra|].
    rewrite IH. unfold upd_port; simpl. rewrite upd_T_val. lra. }
  unfold J_and_T. rewrite H. simpl. unfold vzero. rewrite Rplus_0_l.
  apply lsum_ext. intros p _. rewrite !G. reflexivity.
Qed.
Print Assumptions C61_current_vector.

Definition vplus (x d : vec) (t : R) : vec := fun i => x i + t * d i.

(** If the derivatives of each port are those of its current, the Jacobian is
    the derivative of the current vector along every direction [d]. *)
Theorem C61_jacobian_is_derivative : forall size ports x d r,
  Forall (fun p => Forall (fun q => fst q <= size /\ snd q <= size)%nat (np_drive p)) ports ->
  (forall p, In p ports ->
     derivable_pt_lim (fun t => np_i p (map (fun q => drive_v x q + t * drive_v d q) (np_drive p))) 0
       (lsum (fun kq => np_g p (map (drive_v x) (np_drive p)) (fst kq) * drive_v d (snd kq))
          (combine (seq 0 (length (np_drive p))) (np_drive p)))) ->
  derivable_pt_lim (fun t => snd (J_and_T ports (vplus x d t)) r) 0
    (row size (fst (J_and_T ports x)) r d).
Proof.
  intros size ports x d r F D.
  destruct (J_and_T_spec size ports x d r F) as [-> _].
  assert (E : forall t, snd (J_and_T ports (vplus x d t)) r =
    lsum (fun p => (gdlt r (fst (np_out p)) - gdlt r (snd (np_out p)))
           * np_i p (map (fun q => drive_v x q + t * drive_v d q) (np_drive p))) ports).
  { intros t. destruct (J_and_T_spec size ports (vplus x d t) d r F) as [_ ->].
    apply lsum_ext. intros p _. f_equal. f_equal. apply map_ext. intros [a b].
    unfold drive_v, vplus; simpl. destruct (a =? 0)%nat, (b =? 0)%nat; lra. }
  assert (GS : forall g ds k, gsum g ds k d =
    lsum (fun kq => g (fst kq) * drive_v d (snd kq)) (combine (seq k (length ds)) ds)).
  { intros g. induction ds as [|q ds IH]; intros k; simpl; auto. rewrite IH. reflexivity. }
  assert (X : derivable_pt_lim (fun t => lsum (fun p => (gdlt r (fst (np_out p)) - gdlt r (snd (np_out p)))
           * np_i p (map (fun q => drive_v x q + t * drive_v d q) (np_drive p))) ports) 0
    (lsum (fun p => (gdlt r (fst (np_out p)) - gdlt r (snd (np_out p)))
           * gsum (np_g p (map (drive_v x) (np_drive p))) (np_drive p) 0 d) ports)).
  { clear E F. induction ports as [|p ports IH]; simpl.
    - apply derivable_pt_lim_const.
    - apply (derivable_pt_lim_plus (fun t => _ * _) (fun t => lsum _ ports)).
      + rewrite GS. apply (derivable_pt_lim_scal (fun t => np_i p _)). apply D. left. reflexivity.
      + apply IH. intros q I. apply D. right. exact I. }
  intros eps He. destruct (X eps He) as [del Hd]. exists del. intros h Hh0 Hh.
  rewrite !E. apply Hd; auto.
Qed.
Print Assumptions C61_jacobian_is_derivative.

(** A diode-like port between nodes 1 and 2 with i(v) = v^2, and one driven by
    two ports with i(v, w) = 3 v w. *)
Definition nl_demo : list nlport :=
  [ mkPort (1, 2)%nat [(1, 2)%nat] (fun vs => nth 0 vs 0 ^ 2) (fun vs _ => 2 * nth 0 vs 0);
    mkPort (2, 0)%nat [(1, 0); (2, 0)]%nat (fun vs => 3 * nth 0 vs 0 * nth 1 vs 0)
      (fun vs k => match k with O => 3 * nth 1 vs 0 | _ => 3 * nth 0 vs 0 end) ].

Example C61_example : forall x d,
  snd (J_and_T nl_demo x) 1%nat = - (x 0%nat - x 1%nat) ^ 2 + 3 * x 0%nat * x 1%nat /\
  derivable_pt_lim (fun t => snd (J_and_T nl_demo (vplus x d t)) 1%nat) 0
    (row 2 (fst (J_and_T nl_demo x)) 1%nat d).
Proof.
  intros x d. split.
  - rewrite C61_current_vector. unfold nl_demo, drive_v; simpl. ring.
  - apply C61_jacobian_is_derivative.
    + unfold nl_demo. repeat constructor; simpl; lia.
    + intros p [<-|[<-|[]]]; unfold drive_v; simpl.
      * match goal with |- derivable_pt_lim _ 0 ?g =>
          replace g with (2 * (x 0%nat - x 1%nat) * (d 0%nat - d 1%nat)) by ring end.
        set (a := x 0%nat - x 1%nat). set (b := d 0%nat - d 1%nat).
        intros eps He. assert (Q : 0 < eps / (b ^ 2 + 1)) by (apply Rdiv_lt_0_compat; nra).
        exists (mkposreal _ Q). intros h H0 H. simpl in H.
        match goal with |- Rabs ?g < eps => replace g with (h * b ^ 2) by (field; assumption) end.
        rewrite Rabs_mult, (Rabs_right (b ^ 2)) by nra.
        apply Rle_lt_trans with (Rabs h * (b ^ 2 + 1)); [pose proof (Rabs_pos h); nra|].
        apply Rmult_lt_reg_r with (/ (b ^ 2 + 1)); [apply Rinv_0_lt_compat; nra|].
        rewrite Rmult_assoc, Rinv_r, Rmult_1_r by nra. exact H.
      * rewrite !Rminus_0_r.
        match goal with |- derivable_pt_lim _ 0 ?g =>
          replace g with (3 * (x 1%nat * d 0%nat + x 0%nat * d 1%nat)) by ring end.
        set (a := x 0%nat). set (b := x 1%nat). set (u := d 0%nat). set (w := d 1%nat).
        intros eps He. assert (Q : 0 < eps / (Rabs (3 * u * w) + 1)).
        { apply Rdiv_lt_0_compat; auto. pose proof (Rabs_pos (3 * u * w)). lra. }
        exists (mkposreal _ Q). intros h H0 H. simpl in H.
        match goal with |- Rabs ?g < eps => replace g with (h * (3 * u * w)) by (field; assumption) end.
        rewrite Rabs_mult. pose proof (Rabs_pos (3 * u * w)). pose proof (Rabs_pos h).
        apply Rle_lt_trans with (Rabs h * (Rabs (3 * u * w) + 1)); [nra|].
        apply Rmult_lt_reg_r with (/ (Rabs (3 * u * w) + 1)); [apply Rinv_0_lt_compat; lra|].
        rewrite Rmult_assoc, Rinv_r, Rmult_1_r by lra. exact H.
Qed.

(** * C67: time-dependent sources *)
Theorem C67_time_dependent_sources : forall tv nv es m N, wf_circ nv es -> (0 < nv)%nat ->
  generate_mna_and_N nv es = Ok (m, N) ->
  exists N', generate_mna_and_N nv (map (freeze tv) es) = Ok (m, N') /\
    forall i, reduce_vec N' i = reduce_vec N i + time_term nv tv es i.
Proof. exact frozen_system. Qed.
Print Assumptions C67_time_dependent_sources.

Local Open Scope string_scope.

Definition tdemo : list lelem :=
  [EV "V1" 1 0 5 true; ER "R1" 1 2 2; EI "I1" 2 1 9 true; EV "V2" 2 0 7 false].

Example C67_example : wf_circ 3 tdemo /\ isOk (generate_mna_and_N 3 tdemo) = true /\
  forall tv, time_term 3 tv tdemo 2%nat = - tv (EV "V1" 1 0 5 true) /\
             time_term 3 tv tdemo 1%nat = tv (EI "I1" 2 1 9 true).
Proof.
  split; [unfold wf_circ, tdemo; repeat constructor; simpl; try lia; discriminate|].
  split; [reflexivity|]. intros tv. unfold time_term, tdemo; simpl. unfold vset, vzero; simpl. split; lra.
Qed.

(** With a regular matrix the first call of the standard method solves the
    linear system. *)
Lemma linear_solve : forall o nv mna Ndc solve JT td check maxit size fuel x1,
  (forall A b y, solve A b = Some y -> forall i, (i < size)%nat -> row size A i y = b i) ->
  (forall A b, solve A b = None -> exists z, (forall i, (i < size)%nat -> row size A i z = 0) /\
                                            exists i, (i < size)%nat /\ z i <> 0) ->
  (forall z, (forall i, (i < size)%nat -> row size mna i z = 0) ->
             forall i, (i < size)%nat -> z i = 0) ->
  (forall dx n, td dx n = 1) -> (0 < maxit)%nat -> o_std o = true ->
  exists x2 err,
    dc_solve_sys o (fun _ A b x => mdn_solver size solve false JT td check maxit A b (Some (size, x)))
      nv mna mzero Ndc vzero (S fuel) x1 = DRet (Some x2) err true 1 [(RStd, true)] /\
    forall i, (i < size)%nat -> row size mna i x2 + Ndc i = 0.
Proof.
  intros o nv mna Ndc solve JT td check maxit size fuel x1 SS SC REG TD MX OS.
  pose proof (newton_linear size solve JT td check maxit (sys_mat nv mna mzero RStd)
      (sys_vec Ndc vzero RStd) x1 TD SS MX) as Q.
  destruct (mdn_solver size solve false JT td check maxit _ _ (Some (size, x1))) as [x2 r c n| |e] eqn:NW.
  - destruct Q as (-> & -> & Q & _). exists x2. exists (Some r). split.
    { unfold dc_solve_sys. apply dc_solve_first; [exact OS|]. exact NW. }
    intros i Hi. specialize (Q i Hi).
    assert (E : row size (sys_mat nv mna mzero RStd) i x2 = row size mna i x2).
    { unfold row. apply rsum_ext. intros j _. unfold sys_mat, mzero. lra. }
    rewrite E in Q. unfold sys_vec, vzero in Q. lra.
  - destruct Q as [b Q]. destruct (SC _ _ Q) as (z & Z1 & i & Hi & Z2). exfalso. apply Z2.
    apply REG; auto. intros k Hk. rewrite <- (Z1 k Hk). unfold row. apply rsum_ext.
    intros j _. unfold sys_mat, mzero. lra.
  - destruct Q.
Qed.

Lemma op_analysis_inv : forall o newt gmin tv nv es fuel x0 m N y flag,
  generate_mna_and_N nv es = Ok (m, N) ->
  op_analysis o newt gmin tv nv es fuel x0 = Ok (Some (y, flag)) ->
  exists x1,
    ((flag = true /\ exists e' t' c',
       dc_solve_sys o newt nv (reduce_mat m) mzero (fun i => reduce_vec N i + time_term nv tv es i)
         vzero fuel x1 = DRet (Some y) e' true t' c') \/
     (flag = false /\ forall x' e' t' c',
       dc_solve_sys o newt nv (reduce_mat m) mzero (fun i => reduce_vec N i + time_term nv tv es i)
         vzero fuel x1 <> DRet (Some x') e' true t' c')).
Proof.
  intros o newt gmin tv nv es fuel x0 m N y flag G H. unfold op_analysis in H. rewrite G in H.
  cbn [bindr fst snd] in H. apply op_decide_inv in H.
  destruct H as (x1 & e1 & t1 & c1 & _ & [H|(A & _ & B)]); exists x1; [left|right]; auto.
Qed.

(** * C68: the operating point of a linear circuit obeys Kirchhoff's laws *)
Theorem C68_linear_op_physical : forall o gmin tv nv es solve JT td check maxit fuel x0 y flag m N,
  wf_circ nv es -> (0 < nv)%nat -> Forall sense_apart es ->
  (forall id n1 n2 src a, ~ In (EH id n1 n2 src a) es) ->
  generate_mna_and_N nv es = Ok (m, N) ->
  let size := (nv + n_vde es - 1)%nat in
  (* the linear solver is right, and refuses singular matrices only *)
  (forall A b y, solve A b = Some y -> forall i, (i < size)%nat -> row size A i y = b i) ->
  (forall A b, solve A b = None -> exists z, (forall i, (i < size)%nat -> row size A i z = 0) /\
                                            exists i, (i < size)%nat /\ z i <> 0) ->
  (* the reduced matrix is regular *)
  (forall z, (forall i, (i < size)%nat -> row size (reduce_mat m) i z = 0) ->
             forall i, (i < size)%nat -> z i = 0) ->
  (forall dx n, td dx n = 1) -> (0 < maxit)%nat -> o_std o = true ->
  op_analysis o (fun _ A b x => mdn_solver size solve false JT td check maxit A b (Some (size, x)))
    gmin tv nv es (S fuel) x0 = Ok (Some (y, flag)) ->
  let es' := map (freeze tv) es in
  flag = true /\
  (forall n, (n < nv)%nat -> kcl nv es' es' 0 n (with_ground y) = 0) /\
  (forall e, In e es' -> is_vde e = true -> branch_law nv es' (with_ground y) e = 0).
Proof.
  intros o gmin tv nv es solve JT td check maxit fuel x0 y flag m N W NV SA NH G size SS SC REG TD MX OS H es'.
  destruct (op_analysis_inv _ _ _ _ _ _ _ _ _ _ _ _ G H) as (x1 & H2). clear H.
  destruct (linear_solve o nv (reduce_mat m) (fun i => reduce_vec N i + time_term nv tv es i)
    solve JT td check maxit size fuel x1 SS SC REG TD MX OS) as (x2 & err & S2 & SOL).
  destruct H2 as [(-> & e' & t' & c' & E2)|(_ & E2)]; [|exfalso; eapply E2; exact S2].
  rewrite S2 in E2. injection E2 as <- _ _ _.
  split; [reflexivity|].
  destruct (frozen_system tv nv es m N W NV G) as (N' & G' & EN).
  pose proof (C05_reduced_iff_physical nv es' m N' x2 (freeze_wf tv nv es W) NV G') as P.
  apply P.
  - unfold es'. apply Forall_map. eapply Forall_impl; [|exact SA].
    intros e He. destruct e as [| | | |id n1 n2 dc []|id n1 n2 dc []| | | | |]; exact He.
  - intros id n1 n2 src a I. unfold es' in I. apply in_map_iff in I. destruct I as (e & E & I).
    apply (NH id n1 n2 src a).
    destruct e as [| | | |id' n1' n2' dc []|id' n1' n2' dc []| | | | |]; simpl in E; try discriminate.
    rewrite <- E. exact I.
  - unfold es'. rewrite freeze_n_vde. fold size. intros i Hi. rewrite EN. apply SOL. exact Hi.
Qed.
Print Assumptions C68_linear_op_physical.

(** The Newton solver on systems with one unknown. *)
Definition newt1 (mx : nat) (JT : vec -> mat * vec) (check : vec -> vec -> vec -> bool) (i : nat) (A : mat) (b x : vec) : nout vec :=
  mdn_solver 1 solve1 false JT (fun _ _ => 1) check (S mx) A b (Some (1%nat, x)).

Definition step1 (a b : R) (x : vec) : vec := fun i => x i + - (a * x 0%nat + b) / a.

Lemma newt1_val : forall mx JT check i A b x a, A 0%nat 0%nat = a ->
  newt1 mx JT check i A b x =
  if Req_EM_T a 0 then NCaught
  else NRet (step1 a (b 0%nat) x) (residual 1 false JT A b x) true 1.
Proof.
  intros mx JT check i A b x a E. unfold newt1, mdn_solver. cbn [Nat.eqb newton_loop].
  unfold solve1, jac. rewrite E, Rplus_0_r. destruct (Req_EM_T a 0); [reflexivity|].
  cbn [negb]. f_equal. apply FunctionalExtensionality.functional_extensionality. intros j.
  unfold step1, residual, row. cbn [rsum]. rewrite E. field. assumption.
Qed.

(** A 2 Ohm resistor fed by a 3 A source: the operating point is -6 V. *)
Example C68_example : forall mx JT check tv, exists y,
  op_analysis default_opts (newt1 mx JT check)
    (1/1000000000000) tv 2 [ER "r1" 1 0 2; EI "i1" 1 0 3 false] 30 vzero = Ok (Some (y, true)) /\
  y 0%nat = -6.
Proof.
  intros mx JT check tv.
  unfold op_analysis.
  set (g := generate_mna_and_N 2 _).
  assert (EG : exists m N, g = Ok (m, N) /\ reduce_mat m 0%nat 0%nat = 1/2 /\ reduce_vec N 0%nat = 3).
  { unfold g. do 2 eexists. split; [reflexivity|]. unfold reduce_mat, reduce_vec. simpl.
    unfold madd, mset, vadd, vset, mzero, vzero; simpl. split; field. }
  destruct EG as (m & N & -> & EM & EN). cbn [bindr fst snd].
  (* only the entry (0, 0) of the matrix matters *)
  assert (S2 : forall G Nd x, 1/2 + G 0%nat 0%nat <> 0 ->
    exists e, dc_solve_sys default_opts (newt1 mx JT check) 2 (reduce_mat m) G Nd vzero 30 x
    = DRet (Some (step1 (1/2 + G 0%nat 0%nat) (Nd 0%nat + 0) x)) (Some e) true 1 [(RStd, true)]).
  { intros G Nd x NZ. eexists. unfold dc_solve_sys. apply dc_solve_first; [reflexivity|].
    rewrite (newt1_val mx JT check 0 _ _ x (1/2 + G 0%nat 0%nat)) by (unfold sys_mat; rewrite EM; reflexivity).
    destruct (Req_EM_T (1/2 + G 0%nat 0%nat) 0); [contradiction|]. reflexivity. }
  set (Nd := fun i => reduce_vec N i + time_term 2 tv _ i).
  destruct (S2 (build_gmin_matrix 2 (1/1000000000000)) Nd vzero) as [e1 E1].
  { unfold build_gmin_matrix, gmin_loop, mset; simpl. lra. }
  set (x1 := step1 (1/2 + build_gmin_matrix 2 (1/1000000000000) 0%nat 0%nat) (Nd 0%nat + 0) vzero) in E1.
  destruct (S2 mzero Nd x1) as [e2 E2].
  { unfold mzero. lra. }
  eexists. split; [eapply op_decide_both; [exact E1|exact E2]|].
  unfold step1 at 1, mzero. unfold Nd. rewrite EN. unfold time_term; simpl. unfold vzero. field.
Qed.

(** The same circuit with a capacitor instead of the resistor: the solution
    reported as the one without gmin has 1e-10 S at the node. *)
Theorem C09_singular_circuit_refuted : forall mx JT check, exists y,
  op_analysis default_opts (newt1 mx JT check)
    (1/1000000000000) (fun _ => 0) 2 [EC "C1" 1 0 2; EI "I1" 1 0 3 false] 30 vzero = Ok (Some (y, true)) /\
  y 0%nat = - 3 * 10 ^ 10.
Proof.
  intros mx JT check. unfold op_analysis.
  set (g := generate_mna_and_N 2 _).
  assert (EG : exists m N, g = Ok (m, N) /\ reduce_mat m 0%nat 0%nat = 0 /\ reduce_vec N 0%nat = 3).
  { unfold g. do 2 eexists. split; [reflexivity|]. unfold reduce_mat, reduce_vec. simpl.
    unfold vadd, vset, mzero, vzero; simpl. split; [reflexivity|lra]. }
  destruct EG as (m & N & -> & EM & EN). cbn [bindr fst snd].
  set (Nd := fun i => reduce_vec N i + time_term 2 (fun _ => 0) _ i).
  assert (ND : Nd 0%nat = 3) by (unfold Nd; rewrite EN; unfold time_term; simpl; unfold vzero; lra).
  assert (P : forall k, 0 < gmin_step k) by (intros; apply Rinv_0_lt_compat, pow_lt; lra).
  assert (S1 : exists x1 e c, dc_solve_sys default_opts (newt1 mx JT check) 2 (reduce_mat m)
      (build_gmin_matrix 2 (1/1000000000000)) Nd vzero 30 vzero = DRet (Some x1) e true 1 c).
  { do 3 eexists. unfold dc_solve_sys. apply dc_solve_first; [reflexivity|].
    rewrite (newt1_val mx JT check 0 _ _ _ (1/1000000000000)).
    2:{ unfold sys_mat. rewrite EM. unfold build_gmin_matrix, gmin_loop, mset; simpl. lra. }
    destruct (Req_EM_T (1/1000000000000) 0); [lra|]. reflexivity. }
  destruct S1 as (x1 & e1 & c1 & S1).   set (f := fun k (x : vec) => step1 (gmin_step k) (Nd 0%nat + vzero 0%nat) x).
  set (h := fun r (x : vec) => residual 1 false JT (sys_mat 2 (reduce_mat m) mzero r) (sys_vec Nd vzero r) x).
  assert (S2 : exists x e t c, dc_solve_sys default_opts (newt1 mx JT check) 2 (reduce_mat m) mzero Nd vzero 30 x1
     = DRet (Some (f 9%nat x)) e true t c).
  { unfold dc_solve_sys, dc_solve.
    rewrite (dc_loop_ext vec default_opts _
      (fun i r x => match r with RGmin k => NRet (f k x) (h r x) true 1 | _ => NCaught end)).
    - cbv -[f h]. do 4 eexists. reflexivity.
    - intros i r x. destruct r.
      + rewrite (newt1_val mx JT check i _ _ x 0); [|unfold sys_mat, mzero; rewrite EM; lra].
        destruct (Req_EM_T 0 0); [reflexivity|lra].
      + rewrite (newt1_val mx JT check i _ _ x (gmin_step k)).
        2:{ unfold sys_mat. rewrite EM. unfold build_gmin_matrix, gmin_loop, mset; simpl. lra. }
        specialize (P k). destruct (Req_EM_T (gmin_step k) 0); [lra|]. reflexivity.
      + rewrite (newt1_val mx JT check i _ _ x 0); [|unfold sys_mat, mzero; rewrite EM; lra].
        destruct (Req_EM_T 0 0); [reflexivity|lra]. }
  destruct S2 as (x & e & t & c & S2). exists (f 9%nat x). split; [eapply op_decide_both; [exact S1|exact S2]|].
  unfold f, step1. rewrite ND. unfold vzero. specialize (P 9%nat). unfold gmin_step in *.
  assert (0 < 10 ^ 10) by (apply pow_lt; lra).
  field.
Qed.
Print Assumptions C09_singular_circuit_refuted.
