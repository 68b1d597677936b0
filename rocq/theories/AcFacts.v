(** Lemmas about the AC analysis. *)
From Coq Require Import Reals String Ascii List Bool Arith Lia Lra Classical FunctionalExtensionality.
From Verif Require Import Base Rsum Circuit Mna MnaSpec MnaFacts DynFacts DcSolve DcSolveFacts Newton NewtonFacts PropsMna Sweep Ac.
Import ListNotations.
Open Scope R_scope.

(** ** The excitation vector is the one of a circuit with suitable DC sources *)

Definition ex (ph : lelem -> option R) (e : lelem) : lelem :=
  match e with
  | EV id n1 n2 _ _ => match ph e with Some a => EV id n1 n2 a false | None => EV id n1 n2 0 true end
  | EI id n1 n2 _ _ => match ph e with Some a => EI id n1 n2 a false | None => EI id n1 n2 0 true end
  | _ => e
  end.

Lemma ex_vde : forall ph e, is_vde (ex ph e) = is_vde e.
Proof. intros ph e. destruct e; simpl; try reflexivity; destruct (ph _); reflexivity. Qed.
Lemma ex_celem : forall ph e, as_celem (ex ph e) = as_celem e.
Proof. intros ph e. destruct e; simpl; try reflexivity; destruct (ph _); reflexivity. Qed.
Lemma ex_index : forall ph es s, vde_index (map (ex ph) es) s = vde_index es s.
Proof.
  intros. unfold vde_index. rewrite map_map. f_equal. apply map_ext. intros. apply ex_celem.
Qed.
Lemma ex_n_vde : forall ph es, n_vde (map (ex ph) es) = n_vde es.
Proof.
  intros ph es. unfold n_vde. induction es as [|e es IH]; [reflexivity|]. simpl. rewrite ex_vde.
  destruct (is_vde e); simpl; rewrite IH; reflexivity.
Qed.
Lemma ex_terms : forall ph e, term1 (ex ph e) = term1 e /\ term2 (ex ph e) = term2 e /\ sense_nodes (ex ph e) = sense_nodes e.
Proof. intros ph e. destruct e; simpl; auto; destruct (ph _); auto. Qed.
Lemma ex_wf : forall ph nv es, wf_circ nv es -> wf_circ nv (map (ex ph) es).
Proof.
  intros ph nv es W. apply Forall_map. eapply Forall_impl; [|exact W]. intros e H. unfold wf_elem in *.
  destruct (ex_terms ph e) as (-> & -> & ->). rewrite ex_vde. exact H.
Qed.

Lemma ex_stamp1 : forall ph es m v w,
  fold_left stamp1 (map (ex ph) es) (m, v) = (fst (fold_left stamp1 es (m, w)), fold_left (nac_i ph) es v).
Proof.
  intros ph es. induction es as [|e es IH]; intros m v w; [reflexivity|]. cbn [map fold_left].
  destruct e; try (simpl; apply IH).
  - simpl. destruct (ph _); simpl; apply IH.
  - simpl. destruct (ph _) as [a|]; simpl; (destruct td; erewrite IH; reflexivity).
Qed.

Lemma ex_pass2 : forall ph nv all es k m v w,
  pass2 nv (map (ex ph) all) (map (ex ph) es) k (m, v)
  = bindr (pass2 nv all es k (m, w)) (fun st => Ok (fst st, nac_v nv ph es k v)).
Proof.
  intros ph nv all es. induction es as [|e es IH]; intros k m v w; [reflexivity|]. cbn [map pass2 nac_v]. rewrite ex_vde.
  destruct e; cbn [is_vde]; try apply IH.
  - cbn [ex]. destruct (ph _) as [a|]; cbn [stamp_vde bindr].
    + replace (-1 * a) with (- a) by lra. apply IH.
    + apply IH.
  - cbn [ex stamp_vde]. rewrite ex_index. destruct (vde_index all src) as [j|]; [|reflexivity]. cbn [bindr].
    destruct (j <=? k)%nat; [|reflexivity]. cbn [bindr]. apply IH.
Qed.

Lemma ex_pass3 : forall ph nv all es m, pass3 nv (map (ex ph) all) (map (ex ph) es) m = pass3 nv all es m.
Proof.
  intros ph nv all es. induction es as [|e es IH]; intros m; [reflexivity|]. cbn [map pass3].
  assert (S : stampF nv (map (ex ph) all) m (ex ph e) = stampF nv all m e).
  { destruct e; try reflexivity; try (simpl; destruct (ph _); reflexivity). simpl. rewrite ex_index. reflexivity. }
  rewrite S. destruct (stampF nv all m e); [apply IH|reflexivity].
Qed.

Lemma ex_assembly : forall ph nv es m N, generate_mna_and_N nv es = Ok (m, N) ->
  generate_mna_and_N nv (map (ex ph) es) = Ok (m, nac_part nv ph es).
Proof.
  intros ph nv es m N H. unfold generate_mna_and_N in *. rewrite (ex_stamp1 ph es mzero vzero vzero).
  destruct (fold_left stamp1 es (mzero, vzero)) as [m1 v1]. cbn [fst]. rewrite (ex_pass2 ph nv es es 0 m1 _ v1).
  destruct (pass2 nv es es 0 (m1, v1)) as [[m2 v2]|]; [|discriminate H]. cbn [bindr fst snd] in *.
  rewrite ex_pass3. destruct (pass3 nv es es m2); [|discriminate H]. cbn [bindr] in *. injection H as <- _. reflexivity.
Qed.

(** ** Rows *)

Lemma row_add : forall n (A B : mat) i x, row n (fun i j => A i j + B i j) i x = row n A i x + row n B i x.
Proof. intros. unfold row. rewrite <- rsum_plus. apply rsum_ext. intros. ring. Qed.
Lemma row_scal : forall n c (A : mat) i x, row n (fun i j => c * A i j) i x = c * row n A i x.
Proof. intros. unfold row. rewrite <- rsum_scal. apply rsum_ext. intros. ring. Qed.
Lemma row_vadd : forall n (A : mat) i (x y : vec), row n A i (fun j => x j + y j) = row n A i x + row n A i y.
Proof. intros. unfold row. rewrite <- rsum_plus. apply rsum_ext. intros. ring. Qed.
Lemma row_vscal : forall n (A : mat) i c (x : vec), row n A i (fun j => c * x j) = c * row n A i x.
Proof. intros. unfold row. rewrite <- rsum_scal. apply rsum_ext. intros. ring. Qed.
Lemma row_mzero : forall n i x, row n mzero i x = 0.
Proof. intros. unfold row. apply rsum_0. intros. unfold mzero. ring. Qed.
Lemma row_gmin : forall n nv g j x, (j < n)%nat ->
  row n (build_gmin_matrix nv g) j x = if (j <? nv - 1)%nat then g * x j else 0.
Proof.
  intros n nv g j x L. unfold row, build_gmin_matrix.
  rewrite (rsum_ext n _ (fun i => (if (j <? nv - 1)%nat then g else 0) * (dlt i j * x i))).
  - rewrite rsum_scal, rsum_dlt by exact L. destruct (j <? nv - 1)%nat; ring.
  - intros i' _. rewrite gmin_loop_val. unfold mzero, dlt.
    destruct (Nat.ltb_spec j (nv - 1)), (Nat.eqb_spec j i'), (Nat.eqb_spec i' j); subst; simpl; try lia; ring.
Qed.

(** ** One frequency *)

Definition singular (size : nat) (A : cmat) : Prop := exists y : cvec,
  (exists i, (i < size)%nat /\ (fst y i <> 0 \/ snd y i <> 0)) /\
  forall i, (i < size)%nat -> crow_re size A i y = 0 /\ crow_im size A i y = 0.

(** What is assumed of [np.linalg.solve]: its answers are right and LinAlgError is for
    singular matrices. *)
Definition csolver_ok (size : nat) (csolve : cmat -> cvec -> option cvec) : Prop :=
  (forall A b y, csolve A b = Some y -> forall i, (i < size)%nat -> crow_re size A i y = fst b i /\ crow_im size A i y = snd b i) /\
  (forall A b, csolve A b = None <-> singular size A).

Definition solves (size : nat) (A : cmat) (T x : cvec) : Prop := forall i, (i < size)%nat ->
  crow_re size A i x + fst T i = 0 /\ crow_im size A i x + snd T i = 0.

Lemma mdn_ac_ok : forall csolve maxit size A T x y r c k, csolver_ok size csolve ->
  mdn_ac false maxit csolve size A T x = NRet y r c k -> solves size A T y /\ ~ singular size A.
Proof.
  intros csolve maxit size A T x y r c k OK H. destruct OK as [EX SI]. unfold mdn_ac in H. destruct maxit; [discriminate H|].
  destruct (csolve A _) as [dx|] eqn:C in H; [|discriminate H]. injection H as <- <- <- <-. split.
  - intros i L. destruct (EX _ _ _ C i L) as [E1 E2]. cbn [fst snd td_first negb d_first] in *.
    unfold crow_re, crow_im in *. cbn [fst snd] in *. rewrite !row_vadd, !row_vscal. lra.
  - intros S. match type of C with csolve _ ?b = _ => rewrite (proj2 (SI A b) S) in C end. discriminate C.
Qed.

Lemma ac_point : forall o csolve maxit fuel size mna AC J Gmin Nac w x x' err tot calls, csolver_ok size csolve -> o_std o = true ->
  dc_solve o (fun _ r y => mdn_ac false maxit csolve size (ac_sys mna AC J Gmin w r) (ac_rhs Nac r) y) fuel x = DRet (Some x') err true tot calls ->
  (~ singular size (ac_sys mna AC J Gmin w RStd) /\ solves size (ac_sys mna AC J Gmin w RStd) Nac x') \/
  (singular size (ac_sys mna AC J Gmin w RStd) /\ ~ singular size (ac_sys mna AC J Gmin w (RGmin 0)) /\ solves size (ac_sys mna AC J Gmin w (RGmin 0)) Nac x').
Proof.
  intros o csolve maxit fuel size mna AC J Gmin Nac w x x' err tot calls OK STD H.
  set (nw := fun (_ : nat) r y => _) in H.
  assert (L := H). unfold dc_solve in L. apply dc_loop_last in L. destruct L as (i & r & y & v & e & it & pre & E & _ & N & _).
  injection E as <-. unfold nw in N. destruct (mdn_ac_ok _ _ _ _ _ _ _ _ _ _ OK N) as [SO NS].
  destruct (classic (singular size (ac_sys mna AC J Gmin w RStd))) as [S|S].
  - right. split; [exact S|]. destruct r as [|k|k]; [contradiction| |contradiction]. split; assumption.
  - left. split; [exact S|]. unfold dc_solve in H. destruct fuel as [|fuel]; [discriminate H|].
    assert (M : set_next_solve_method o get_solve_methods = mkMeths true false false false 0 false false 0).
    { unfold set_next_solve_method, disable_current, enable_next, get_solve_methods. simpl. rewrite STD. reflexivity. }
    rewrite M in H. cbn [dc_loop current_req std_en length] in H.
    destruct (nw 0%nat RStd x) as [z ez cz itz| |ex] eqn:F.
    + destruct cz.
      * cbn [advance s_en g_en andb] in H. injection H as <- _ _ _. unfold nw in F.
        exact (proj1 (mdn_ac_ok _ _ _ _ _ _ _ _ _ _ OK F)).
      * exfalso. unfold nw, mdn_ac in F. destruct maxit; [discriminate F|]. destruct (csolve _ _); discriminate F.
    + exfalso. unfold nw, mdn_ac in F. destruct maxit; [discriminate F|].
      destruct (csolve (ac_sys mna AC J Gmin w RStd) _) eqn:C in F; [discriminate F|]. apply S. apply (proj2 OK) in C. exact C.
    + discriminate H.
Qed.

Lemma ac_points_ok : forall o csolve maxit fuel size mna AC J Gmin Nac, csolver_ok size csolve -> o_std o = true ->
  forall ws x rows res, ac_points o false maxit fuel csolve size mna AC J Gmin Nac ws x rows = Ok (Some res) ->
  exists xs, res = (rows ++ combine (map (fun w => (w / PI / 2)%R) ws) xs)%list /\ length xs = length ws /\
    Forall2 (fun w x' =>
      (~ singular size (ac_sys mna AC J Gmin w RStd) /\ solves size (ac_sys mna AC J Gmin w RStd) Nac x') \/
      (singular size (ac_sys mna AC J Gmin w RStd) /\ ~ singular size (ac_sys mna AC J Gmin w (RGmin 0)) /\ solves size (ac_sys mna AC J Gmin w (RGmin 0)) Nac x')) ws xs.
Proof.
  intros o csolve maxit fuel size mna AC J Gmin Nac OK STD ws. induction ws as [|w ws IH]; intros x rows res H.
  - injection H as <-. exists []. rewrite app_nil_r. repeat split; constructor.
  - cbn [ac_points] in H. destruct (dc_solve _ _ _ _) as [[x'|] err [|] tot calls|] eqn:D in H; try discriminate H.
    apply IH in H. destruct H as (xs & -> & LEN & F). exists (x' :: xs). rewrite <- app_assoc. split; [reflexivity|].
    split; [simpl; congruence|]. constructor; [|exact F]. exact (ac_point _ _ _ _ _ _ _ _ _ _ _ _ _ _ _ _ OK STD D).
Qed.
