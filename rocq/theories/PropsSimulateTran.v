(** From the text of a netlist to the results of a transient analysis (C196). *)
From Coq Require Import Ascii String Reals List Bool Arith ZArith Lia Lra Psatz.
From Verif Require Import Base BaseFacts Str Units Directive Lines Reader Netlist ModelLines Nodes NodesFacts Circuit CircuitFacts Rsum Mna MnaSpec MnaFacts DcSolve DcSolveFacts
  Newton NewtonFacts DynFacts Lagrange Df PropsDf Tran TranFacts PropsTran Csv PropsCsv Results PropsReader PropsNetlist PropsResults PropsDc PropsMna PropsAc Session Simulate
  PropsSimulate SimulateAc PropsSimulateAc SimulateDc PropsSimulateDc PropsSimulateOp SimulateTran.
Import ListNotations.
Open Scope R_scope.

(** * What a netlist of linear elements says at one time *)

(** [V n] is the voltage of the node called [n], [I id] the current of the element called
    [id], [dV] and [dI] are their derivatives, [src e] is the value of the independent
    source [e].  From each node to ground there are a conductance [g] and a capacitance
    [c] besides (options.gmin and options.cmin). *)
Section TranLaws.
  Variables (src : pelem -> R) (g c : R) (parts : list pelem) (V I dV dI : str -> R).

  Definition tr_through (e : pelem) : R :=
    match e with
    | PC _ a b v _ => dR v * (dV a - dV b)
    | _ => through src V I e
    end.
  Definition tr_leaving1 (n : str) (e : pelem) : R :=
    (if streqb n (first_end e) then tr_through e else 0) - (if streqb n (second_end e) then tr_through e else 0).
  Fixpoint tr_leaving (n : str) (l : list pelem) : R :=
    match l with [] => 0 | e :: l' => tr_leaving1 n e + tr_leaving n l' end.

  Definition tr_law (e : pelem) : Prop :=
    match e with
    | PL id a b v _ => V a - V b = dR v * dI id + linked dI id parts
    | _ => law src V I e
    end.

  Definition tr_laws : Prop :=
    V (lit "0") = 0 /\ dV (lit "0") = 0 /\
    (forall n, In n (node_list parts) -> n <> lit "0" -> tr_leaving n parts + g * V n + c * dV n = 0) /\
    Forall tr_law parts.
End TranLaws.

(** With the sources off, nothing but zero grows like [exp (k t)]. *)
Definition tr_regular (k g c : R) (parts : list pelem) : Prop :=
  forall V I dV dI, (forall n, dV n = k * V n) -> (forall id, dI id = k * I id) ->
    tr_laws (fun _ => 0) g c parts V I dV dI ->
    (forall n, In n (node_list parts) -> V n = 0) /\ (forall id, In id (current_ids parts) -> I id = 0).

(** * What the methods say about the derivatives *)

(** A point of the simulation. *)
Record tpoint := mkP { p_t : R; p_V : str -> R; p_I : str -> R; p_dV : str -> R; p_dI : str -> R }.

(** [dx], the derivative of the quantity [x] at the point [p], and the points before
    it, newest first; [tm] is the time of a point. *)
Definition slope_rule {P : Type} (tm : P -> R) (d : dform) (past : list P) (p : P) (x dx : P -> R) : Prop :=
  match past with
  | [] => True
  | q :: rest =>
      let backward := dx p = (x p - x q) / (tm p - tm q) in
      match d with
      | DImplicitEuler => backward
      | DTrap => match rest with [] => backward | _ => (dx p + dx q) / 2 = (x p - x q) / (tm p - tm q) end
      | DGear k =>
          if (List.length past <=? k)%nat then backward
          else (* the slope of the polynomial through the last k points and the new one *)
            exists a, let poly s := rsum (S k) (fun j => a j * s ^ j) in
              poly (tm p) = x p /\ (forall q, In q (firstn k past) -> poly (tm q) = x q) /\
              derivable_pt_lim poly (tm p) (dx p)
      | DModule _ => True
      end
  end.

(** The points, newest first; the last one is the starting point. *)
Fixpoint marches (src : R -> pelem -> R) (g c : R) (parts : list pelem) (d : dform) (run : list tpoint) : Prop :=
  match run with
  | [] => True
  | p :: past =>
      match past with
      | [] => True
      | q :: _ =>
          p_t q < p_t p /\
          tr_laws (src (p_t p)) g c parts (p_V p) (p_I p) (p_dV p) (p_dI p) /\
          (forall n, In n (node_list parts) -> n <> lit "0" -> slope_rule p_t d past p (fun q => p_V q n) (fun q => p_dV q n)) /\
          (forall id, In id (current_ids parts) -> slope_rule p_t d past p (fun q => p_I q id) (fun q => p_dI q id))
      end /\ marches src g c parts d past
  end.

(** * The laws and the system *)
Lemma tr_leaving_split : forall src V I dV n l, tr_leaving src V I dV n l = leaving src V I n l + caps dV n l.
Proof.
  intros src V I dV n l. induction l as [|e l IH]; [cbn; lra|]. cbn [tr_leaving leaving caps]. rewrite IH.
  assert (K : tr_leaving1 src V I dV n e = leaving1 src V I n e + cap1 dV n e); [|lra].
  unfold tr_leaving1, leaving1. destruct e; cbn [tr_through through first_end second_end cap1]; try ring.
  repeat match goal with |- context [if ?b then _ else _] => destruct b end; ring.
Qed.
Lemma leaving_affine : forall src V I V0 I0 n l, (forall m, V0 m = 0) -> (forall m, I0 m = 0) ->
  leaving src V I n l - leaving src V0 I0 n l = leaving (fun _ => 0) V I n l.
Proof.
  intros src V I V0 I0 n l HV HI. induction l as [|e l IH]; [cbn; lra|]. cbn [leaving].
  assert (K : leaving1 src V I n e - leaving1 src V0 I0 n e = leaving1 (fun _ => 0) V I n e); [|lra].
  unfold leaving1. assert (T : through src V I e - through src V0 I0 e = through (fun _ => 0) V I e).
  { destruct e; cbn [through]; rewrite ?HV, ?HI; unfold Rdiv; ring. }
  repeat match goal with |- context [if ?b then _ else _] => destruct b end; lra.
Qed.
Lemma caps_zero : forall V0 n l, (forall m, V0 m = 0) -> caps V0 n l = 0.
Proof.
  intros V0 n l H. induction l as [|e l IH]; [reflexivity|]. cbn [caps]. rewrite IH. destruct e; cbn [cap1]; rewrite ?H; ring.
Qed.
Lemma linked_zero : forall I0 id l, (forall m, I0 m = 0) -> linked I0 id l = 0.
Proof.
  intros I0 id l H. induction l as [|e l IH]; [reflexivity|]. destruct e; cbn [linked]; rewrite IH, ?H; try reflexivity.
  repeat match goal with |- context [if ?b then _ else _] => destruct b end; ring.
Qed.

(** How far the law of an element is from holding. *)
Definition tr_gap (src : pelem -> R) (parts : list pelem) (V I dI : str -> R) (e : pelem) : R :=
  match e with
  | PV _ a b _ _ _ => V a - V b - src e
  | PL id a b v _ => V a - V b - (dR v * dI id + linked dI id parts)
  | PE _ a b p q k => V a - V b - dR k * (V p - V q)
  | PH _ a b from k => V a - V b - dR k * I from
  | _ => 0
  end.
Lemma tr_gap_law : forall src parts V I dI e, tr_gap src parts V I dI e = 0 -> tr_law src parts V I dI e.
Proof. intros src parts V I dI e. destruct e; cbn [tr_gap tr_law law]; intros; try exact Logic.I; lra. Qed.
Lemma tr_gap_affine : forall src parts V I dI V0 I0 dI0 e, (forall m, V0 m = 0) -> (forall m, I0 m = 0) -> (forall m, dI0 m = 0) ->
  tr_gap src parts V I dI e - tr_gap src parts V0 I0 dI0 e = tr_gap (fun _ => 0) parts V I dI e.
Proof.
  intros src parts V I dI V0 I0 dI0 e HV HI HD. destruct e; cbn [tr_gap]; rewrite ?HV, ?HI, ?HD, ?(linked_zero dI0) by exact HD; ring.
Qed.

Section System.
  Context {val : pelem -> R}.
  Variables (t : ntab) (parts : list pelem) (es : list lelem).
  Hypothesis GR : grounded t.
  Hypothesis PL_ : Forall2 (placed val t) parts es.
  Hypothesis SO : Forall (proper parts) parts.
  Hypothesis SC : Forall (ac_sound parts) parts.
  Hypothesis ND : NoDup (map pid parts).
  Hypothesis MEN : forall n i, at_node t n i -> In n (node_list parts).
  Let nv := get_nodes_number t.
  Let size := op_size t es.
  Variables (cmin gmin : R) (m : mat) (N : vec) (D : mat).
  Hypothesis GE : generate_mna_and_N nv es = Ok (m, N).
  Hypothesis GD : generate_D cmin nv es = Ok D.
  Let c := Rmax 0 cmin.
  Let W : wf_circ nv es := proj1 (proper_wf val t parts es GR PL_ SO).
  Let SA := proj1 (proj2 (proper_wf val t parts es GR PL_ SO)).
  Let NH := proj1 (proj2 (proj2 (proper_wf val t parts es GR PL_ SO))).
  Let NZ : (0 < nv)%nat := grounded_number t GR.

  Let V (x : vec) := volt t (with_ground x).
  Let A (x : vec) := amp nv es (with_ground x).
  Lemma tr_XV : forall x n i, at_node t n i -> with_ground x i = V x n.
  Proof. intros x n i H. unfold V, volt. unfold at_node in H. rewrite H. reflexivity. Qed.
  Lemma tr_XI : forall x k id, nth_error (current_ids parts) k = Some id -> with_ground x (nv + k)%nat = A x id.
  Proof.
    intros x k id H. unfold A, amp. pose proof (es_index (fun _ => 0) val t parts es PL_ SO ND k id H) as E. rewrite freeze_vde_index in E. rewrite E. reflexivity.
  Qed.
  Lemma tr_V0 : forall x, V x (lit "0") = 0.
  Proof. intros x. unfold V, volt. pose proof (proj2 GR) as GZ. unfold at_node in GZ. rewrite GZ. reflexivity. Qed.

  Lemma tr_pair : (forall e, In e parts -> exists l, In l es /\ placed val t e l) /\ (forall l, In l es -> exists e, In e parts /\ placed val t e l).
  Proof.
    clear - PL_. split.
    - induction PL_ as [|e0 l0 p0 e1 P F IH]; intros e H; [destruct H|]. destruct H as [->|H]; [exists l0; split; [left|]; auto|].
      destruct (IH F e H) as (l & Q & C). exists l. split; [right|]; auto.
    - induction PL_ as [|e0 l0 p0 e1 P F IH]; intros l H; [destruct H|]. destruct H as [->|H]; [exists e0; split; [left|]; auto|].
      destruct (IH F l H) as (e & Q & C). exists e. split; [right|]; auto.
  Qed.
  Lemma tr_coupling : Forall (wf_coupling es) es.
  Proof.
    destruct tr_pair as (PAIR & PAIR').
    apply Forall_forall. intros l H. destruct (PAIR' l H) as (e & IE & P). destruct l; try exact Logic.I.
    destruct e; cbn [placed] in P.
    4: { destruct P as (m' & E & _). injection E as -> -> -> _ _. destruct (proj1 (Forall_forall _ _) SC _ IE) as (_ & NEQ & (a1 & b1 & u1 & c1 & H1) & (a2 & b2 & u2 & c2 & H2)).
         cbn [wf_coupling].
         assert (IND : forall id a b u ic, In (Netlist.PL id a b u ic) parts -> (exists e1, In e1 es /\ is_inductor e1 = true /\ lid e1 = ss id) /\ slower id = id).
         { intros id' a b u ic H'. destruct (PAIR _ H') as (q & IQ & i & j & -> & _). split; [eexists; split; [exact IQ|split; reflexivity]|].
           destruct (proj1 (Forall_forall _ _) SO _ H') as ((K & _) & _). exact K. }
         destruct (IND _ _ _ _ _ H1) as (I1 & L1). destruct (IND _ _ _ _ _ H2) as (I2 & L2). split; [exact I1|]. split; [exact I2|].
         intros E. apply NEQ. apply lower_names; assumption. }
    all: first [destruct P as (i1 & j1 & E & _); discriminate E | destruct P as (i1 & j1 & i2 & j2 & E & _); discriminate E | destruct P as (i1 & j1 & E); discriminate E].
  Qed.
  Lemma tr_vdes : NoDup (map (fun e => upper (lid e)) (vdes es)).
  Proof. rewrite (es_vdes val t parts es PL_). apply upper_nodup; [apply current_lower; exact SO|apply current_nodup; exact ND]. Qed.
  Lemma tr_size : S size = (nv + n_vde es)%nat.
  Proof. unfold size, op_size. fold nv. lia. Qed.

  Variable at0 : str -> R.
  Let tv := fun e : lelem => at0 (list_ascii_of_string (lid e)).
  Let src := driven at0 val.
  (** The system of one time. *)
  Definition tr_row (x y : vec) (i : nat) : R :=
    row size (reduce_mat m) i x + (reduce_vec N i + time_term nv tv es i) + row size (reduce_mat D) i y + (if (i <? nv - 1)%nat then gmin * x i else 0).

  Lemma node_row_named : forall x y n i, at_node t n (S i) ->
    tr_row x y i = tr_leaving src (V x) (A x) (V y) n parts + gmin * V x n + c * V y n.
  Proof.
    intros x y n i At. assert (Hi : (S i < nv)%nat) by (apply (grounded_range t (S i) GR); eauto).
    destruct (frozen_system tv nv es m N W NZ GE) as (N' & GE' & EN).
    destruct (C07_dynamic_matrix cmin nv es W tr_vdes tr_coupling) as (d & GD' & _ & DN & _). rewrite GD in GD'. injection GD' as <-.
    unfold tr_row. rewrite <- EN. unfold reduce_vec. rewrite !row_reduce, tr_size. fold (with_ground x) (with_ground y).
    pose proof (C03_node_rows_are_KCL nv (map (freeze tv) es) m N' (with_ground x) (S i) (freeze_wf tv nv es W) GE' Hi) as K. rewrite freeze_n_vde in K.
    pose proof (kcl_named at0 val t parts es GR PL_ SO ND (V x) (A x) (with_ground x) (tr_XV x) (tr_XI x) parts es [] PL_ eq_refl n (S i) At) as KN.
    cbn [filter List.length] in KN. fold nv tv in KN. rewrite KN in K. fold src in K.
    rewrite (DN (S i) (with_ground y)) by (reflexivity || lia).
    rewrite (caps_numbered t parts es GR PL_ (V y) (with_ground y) (tr_XV y) n (S i) At).
    replace (i <? nv - 1)%nat with true by (symmetry; apply Nat.ltb_lt; lia).
    pose proof (tr_XV x n _ At) as E1. pose proof (tr_XV y n _ At) as E2. cbn [with_ground] in E1, E2. rewrite tr_leaving_split.
    assert (C : (if Rlt_dec 0 cmin then cmin * V y n else 0) = c * V y n).
    { unfold c, Rmax. destruct (Rlt_dec 0 cmin), (Rle_dec 0 cmin); try ring; [exfalso; lra|]. replace cmin with 0 by lra. ring. }
    cbn [with_ground]. rewrite E1, E2, C. lra.
  Qed.

  Lemma branch_row_named : forall x y pre e post, parts = (pre ++ e :: post)%list -> has_current e = true ->
    tr_row x y (nv - 1 + List.length (filter has_current pre)) = tr_gap src parts (V x) (A x) (A y) e.
  Proof.
    intros x y pre e post E HC.
    assert (IE : In e parts) by (rewrite E; apply in_or_app; right; left; reflexivity).
    destruct (frozen_system tv nv es m N W NZ GE) as (N' & GE' & EN).
    destruct (C07_dynamic_matrix cmin nv es W tr_vdes tr_coupling) as (d & GD' & _ & _ & DL & DO & _). rewrite GD in GD'. injection GD' as <-.
    assert (NK : nth_error (current_ids parts) (List.length (filter has_current pre)) = Some (pid e)).
    { rewrite E. unfold current_ids. rewrite filter_app, map_app. rewrite nth_error_app2; rewrite map_length; [|lia].
      rewrite Nat.sub_diag. cbn [filter]. rewrite HC. reflexivity. }
    pose proof PL_ as PL2. rewrite E in PL2. destruct (Forall2_split_l _ _ _ _ _ _ _ PL2) as (pre' & l & post' & Ees & Fpre & P).
    assert (NV : n_vde pre' = List.length (filter has_current pre)).
    { pose proof (placed_ids val t pre pre' Fpre) as Q. apply (f_equal (@List.length string)) in Q. unfold current_ids in Q. rewrite !map_length in Q. exact Q. }
    assert (VD : is_vde l = true) by (rewrite (proj2 (placed_lid val t e l P)); exact HC).
    assert (IL : In l es) by (rewrite Ees; apply in_or_app; right; left; reflexivity).
    assert (NTH : nth_error (vdes es) (n_vde pre') = Some l).
    { rewrite Ees. unfold vdes, n_vde. rewrite filter_app. cbn [filter]. rewrite VD. rewrite nth_error_app2, Nat.sub_diag; [reflexivity|lia]. }
    rewrite <- NV in *.
    unfold tr_row. rewrite <- EN. unfold reduce_vec. rewrite !row_reduce, tr_size. fold (with_ground x) (with_ground y).
    replace (S (nv - 1 + n_vde pre')) with (nv + n_vde pre')%nat by lia.
    replace (nv - 1 + n_vde pre' <? nv - 1)%nat with false by (symmetry; apply Nat.ltb_ge; lia).
    assert (BR : row (nv + n_vde es) m (nv + n_vde pre') (with_ground x) + N' (nv + n_vde pre')%nat = branch_law nv (map (freeze tv) es) (with_ground x) (freeze tv l)).
    { pose proof (freeze_wf tv nv es W) as W'. rewrite Ees in GE', W' |- *. rewrite map_app in *. cbn [map] in *.
      rewrite <- (C04_branch_rows nv (map (freeze tv) pre') (freeze tv l) (map (freeze tv) post') m N' (with_ground x) W' GE').
      - change (freeze tv l :: map (freeze tv) post') with (map (freeze tv) (l :: post')). rewrite <- map_app, !freeze_n_vde. reflexivity.
      - rewrite freeze_vde. exact VD.
      - intros id n1 n2 s a Q. apply (NH id n1 n2 s a). assert (Q' : l = EH id n1 n2 s a); [|rewrite <- Q'; exact IL].
        destruct l as [| | | |? ? ? ? []|? ? ? ? []| | | | |]; cbn [freeze] in Q; try discriminate Q. exact Q.
      - reflexivity.
      - pose proof (proj1 (Forall_forall _ _) SA l IL) as Sl. destruct l as [| | | |? ? ? ? []|? ? ? ? []| | | | |]; exact Sl. }
    rewrite BR.
    assert (SE := proj1 (Forall_forall _ _) SO e IE). destruct SE as (_ & Se).
    destruct e; try discriminate HC; cbn [tr_gap pid] in *.
    - destruct P as (i & j & -> & A1 & A2). cbn [freeze branch_law]. rewrite (DL _ _ _ _ _ (with_ground y) NTH).
      rewrite (flux_named t parts es PL_ SO SC ND (A y) (with_ground y) (tr_XI y)).
      rewrite (tr_XV x _ _ A1), (tr_XV x _ _ A2), (tr_XI y _ _ NK). ring.
    - rewrite (DO _ _ (with_ground y) NTH) by (destruct P as (i & j & -> & _); reflexivity).
      destruct P as (i & j & -> & A1 & A2). unfold src.
      destruct f; cbn [timed freeze branch_law driven]; rewrite (tr_XV x _ _ A1), (tr_XV x _ _ A2); [|ring].
      unfold tv. cbn [lid]. unfold ss. rewrite list_ascii_of_string_of_list_ascii. ring.
    - rewrite (DO _ _ (with_ground y) NTH) by (destruct P as (i & j & i2 & j2 & -> & _); reflexivity).
      destruct P as (i & j & i2 & j2 & -> & A1 & A2 & A3 & A4). cbn [freeze branch_law].
      rewrite (tr_XV x _ _ A1), (tr_XV x _ _ A2), (tr_XV x _ _ A3), (tr_XV x _ _ A4). ring.
    - destruct Se.
  Qed.

  Lemma tr_nodes : forall n, In n (node_list parts) -> n <> lit "0" -> exists i, at_node t n (S i) /\ (i < nv - 1)%nat.
  Proof.
    intros n H NG. destruct (named_nodes val t parts es PL_ SO n H) as ([|i] & At); [exfalso; apply NG; apply (grounded_zero t n GR); exact At|].
    exists i. split; [exact At|]. assert (Hi : (S i < nv)%nat) by (apply (grounded_range t (S i) GR); eauto). lia.
  Qed.
  Lemma tr_len : List.length (current_ids parts) = n_vde es.
  Proof. pose proof (placed_ids val t parts es PL_) as E. apply (f_equal (@List.length string)) in E. rewrite !map_length in E. symmetry. exact E. Qed.

  (** A solution of the system is a solution of the laws. *)
  Lemma system_laws : forall x y, (forall i, (i < size)%nat -> tr_row x y i = 0) -> tr_laws src gmin c parts (V x) (A x) (V y) (A y).
  Proof.
    intros x y H. pose proof tr_size as SZ. split; [apply tr_V0|]. split; [apply tr_V0|]. split.
    - intros n IN NG. destruct (tr_nodes n IN NG) as (i & At & Hi). rewrite <- (node_row_named x y n i At). apply H. lia.
    - apply Forall_forall. intros e IE. destruct (has_current e) eqn:HC; [|destruct e; try discriminate HC; exact Logic.I].
      apply tr_gap_law. apply in_split in IE. destruct IE as (pre & post & E). rewrite <- (branch_row_named x y pre e post E HC). apply H.
      assert (K : (List.length (filter has_current pre) < List.length (current_ids parts))%nat).
      { rewrite E. unfold current_ids. rewrite filter_app, map_app, app_length, !map_length. cbn [filter]. rewrite HC. cbn [List.length]. lia. }
      rewrite tr_len in K. lia.
  Qed.
  (** Without the right-hand side the sources are off. *)
  Lemma kernel_laws : forall x y,
    (forall i, (i < size)%nat -> row size (reduce_mat m) i x + row size (reduce_mat D) i y + (if (i <? nv - 1)%nat then gmin * x i else 0) = 0) ->
    tr_laws (fun _ => 0) gmin c parts (V x) (A x) (V y) (A y).
  Proof.
    intros x y H. pose proof tr_size as SZ.
    assert (VZ : forall n, V vzero n = 0).
    { intros n. unfold V, volt. destruct (ext_node_to_int t (ss n)) as [[|i]|]; reflexivity. }
    assert (AZ : forall id, A vzero id = 0).
    { intros id. unfold A, amp. destruct (vde_index es (ss id)) as [k|]; [|reflexivity]. destruct (nv + k)%nat; reflexivity. }
    assert (RW : forall i, tr_row x y i - tr_row vzero vzero i = row size (reduce_mat m) i x + row size (reduce_mat D) i y + (if (i <? nv - 1)%nat then gmin * x i else 0)).
    { intros i. unfold tr_row. assert (Z : forall M, row size M i vzero = 0) by (intros M; unfold row; apply rsum_0; intros; unfold vzero; ring).
      rewrite !Z. unfold vzero. destruct (i <? nv - 1)%nat; ring. }
    split; [apply tr_V0|]. split; [apply tr_V0|]. split.
    - intros n IN NG. destruct (tr_nodes n IN NG) as (i & At & Hi). pose proof (RW i) as R1. rewrite H in R1 by lia.
      rewrite !(node_row_named _ _ n i At) in R1. rewrite !tr_leaving_split, (caps_zero (V vzero)) in R1 by exact VZ. rewrite !VZ in R1.
      rewrite tr_leaving_split. pose proof (leaving_affine src (V x) (A x) (V vzero) (A vzero) n parts VZ AZ). lra.
    - apply Forall_forall. intros e IE. destruct (has_current e) eqn:HC; [|destruct e; try discriminate HC; exact Logic.I].
      apply tr_gap_law. apply in_split in IE. destruct IE as (pre & post & E).
      assert (K : (List.length (filter has_current pre) < List.length (current_ids parts))%nat).
      { rewrite E. unfold current_ids. rewrite filter_app, map_app, app_length, !map_length. cbn [filter]. rewrite HC. cbn [List.length]. lia. }
      rewrite tr_len in K. pose proof (RW (nv - 1 + List.length (filter has_current pre))%nat) as R1. rewrite H in R1 by lia.
      rewrite !(branch_row_named _ _ pre e post E HC) in R1.
      rewrite <- (tr_gap_affine src parts (V x) (A x) (A y) (V vzero) (A vzero) (A vzero) e VZ AZ AZ). exact R1.
  Qed.
End System.

(** * Interpolation *)
Lemma interpolate : forall k ts v, Lagrange.distinct (S k) ts -> exists c, forall j, (j <= k)%nat -> peval k c (ts j) = v j.
Proof.
  induction k as [|k IH]; intros ts v D.
  - exists v. intros j J. replace j with 0%nat by lia. apply peval_0.
  - destruct (IH (fun j => ts (S j)) (fun j => (v (S j) - v 0%nat) / (ts (S j) - ts 0%nat))) as (q & Q).
    { intros i j I J E. assert (S i = S j) by (apply D; [lia|lia|exact E]). lia. }
    set (d := fun i => if (i <=? k)%nat then q i else 0).
    assert (DQ : forall x, peval k d x = peval k q x).
    { intros x. apply peval_ext. intros i I. unfold d. replace (i <=? k)%nat with true by (symmetry; apply Nat.leb_le; exact I). reflexivity. }
    assert (DS : forall x, peval (S k) d x = peval k q x).
    { intros x. rewrite peval_last, DQ. unfold d. replace (S k <=? k)%nat with false by (symmetry; apply Nat.leb_gt; lia). ring. }
    exists (fun i => match i with O => v 0%nat - ts 0%nat * d 0%nat | S i => d i - ts 0%nat * d (S i) end).
    assert (E : forall x, peval (S k) (fun i => match i with O => v 0%nat - ts 0%nat * d 0%nat | S i => d i - ts 0%nat * d (S i) end) x = v 0%nat + (x - ts 0%nat) * peval k q x).
    { intros x. rewrite peval_S.
      assert (L : peval k (fun i => d i - ts 0%nat * d (S i)) x = peval k d x - ts 0%nat * peval k (fun i => d (S i)) x).
      { unfold peval. transitivity (rsum (S k) (fun i => d i * x ^ i + - ts 0%nat * (d (S i) * x ^ i))).
        - apply rsum_ext. intros; ring.
        - rewrite rsum_plus, rsum_scal. ring. }
      rewrite L, DQ. pose proof (DS x) as S1. rewrite peval_S in S1.
      replace (d 0%nat) with (peval k q x - x * peval k (fun i => d (S i)) x) by lra. ring. }
    intros [|j] J; rewrite E; [ring|]. rewrite Q by lia. field. intros Z.
    assert (S j = 0%nat); [|lia]. apply D; [lia|lia|lra].
Qed.

(** * The rules of the methods *)
Definition slope_of (q : sample) (i : nat) : R := match s_dx q with Some f => f i | None => 0 end.

Lemma slope_rule_map : forall (P Q : Type) (tm : Q -> R) (f : P -> Q) d past p x dx x' dx',
  (forall q, x q = x' (f q)) -> (forall q, dx q = dx' (f q)) ->
  slope_rule (fun q => tm (f q)) d past p x dx -> slope_rule tm d (map f past) (f p) x' dx'.
Proof.
  intros P Q tm f d past p x dx x' dx' EX ED H. destruct past as [|q rest]; [exact Logic.I|].
  unfold slope_rule in *. cbn [map]. rewrite <- !EX, <- !ED. destruct d as [| |k|mname]; [exact H| | |exact Logic.I].
  - destruct rest; exact H.
  - cbn [List.length] in *. rewrite map_length. destruct (S (List.length rest) <=? k)%nat; [exact H|].
    destruct H as (a & A & B & C). exists a. split; [exact A|]. split; [|exact C].
    change (f q :: map f rest) with (map f (q :: rest)). rewrite firstn_map. intros z Z. apply in_map_iff in Z. destruct Z as (y & <- & Y).
    rewrite <- EX. apply B. exact Y.
Qed.

Lemma firstn_newest : forall n l, newest_first l -> newest_first (firstn n l).
Proof.
  induction n as [|n IH]; intros l H; [exact Logic.I|]. destruct l as [|p l]; [exact Logic.I|]. cbn [firstn newest_first] in *. destruct H as (A & B).
  split; [|apply IH; exact B]. intros q Q. apply A. rewrite <- (firstn_skipn n l). apply in_or_app. left. exact Q.
Qed.

Lemma df_rule : forall inv modules d0 sc n p prev t x d b,
  buffer_len (method_of inv modules d0) sc = Ok n ->
  match d0 with DModule _ => False | DGear k => (0 < k)%nat | _ => True end ->
  newest_first (p :: prev) -> s_t p < t ->
  (if (List.length prev <? first_iterations (method_of inv modules d0))%nat then ie_get [p] (t - s_t p) b = Ok d
   else m_get (method_of inv modules d0) (firstn n (p :: prev)) (t - s_t p) b = Ok d) ->
  0 < df_C1 d /\
  forall i, slope_rule s_t d0 (p :: prev) (mkS t x (Some (fun i => df_C1 d * x i + df_C0 d i))) (fun q => s_x q i) (fun q => slope_of q i).
Proof.
  intros inv modules d0 sc n p prev t x d b BL OKD NF TT H. set (h := t - s_t p) in *. assert (HP : 0 < h) by (unfold h; lra).
  assert (IE : forall pv b, ie_get (p :: pv) h b = Ok d -> 0 < df_C1 d /\ forall i, df_C1 d * x i + df_C0 d i = (x i - s_x p i) / (t - s_t p)).
  { intros pv b' E. injection E as <-. cbn [df_C1 df_C0]. fold h. split; [apply Rdiv_lt_0_compat; lra|]. intros i. field. lra. }
  destruct d0 as [| |k|name]; [| | |destruct OKD]; cbn [method_of] in *.
  - change (first_iterations m_ie) with 0%nat in H. cbn [Nat.ltb Nat.leb] in H. replace (List.length prev <? 0)%nat with false in H by (symmetry; apply Nat.ltb_ge; lia).
    assert (NE : (n <> 0)%nat) by (unfold buffer_len in BL; destruct sc; [injection BL as <-; discriminate|discriminate BL]).
    destruct n as [|n]; [congruence|]. cbn [firstn m_ie m_get] in H. destruct (IE _ _ H) as (A & B). split; [exact A|].
    intros i. cbn [slope_rule slope_of s_dx s_x s_t]. apply B.
  - change (first_iterations (m_trap inv)) with 1%nat in H. destruct prev as [|p1 prev].
    + cbn [List.length Nat.ltb Nat.leb] in H. destruct (IE _ _ H) as (A & B). split; [exact A|]. intros i. cbn [slope_rule slope_of s_dx s_x s_t]. apply B.
    + replace (List.length (p1 :: prev) <? 1)%nat with false in H by reflexivity.
      assert (NE : (n <> 0)%nat) by (unfold buffer_len in BL; destruct sc; injection BL as <-; discriminate).
      destruct n as [|n]; [congruence|]. cbn [firstn m_trap m_get] in H. generalize dependent (firstn n (p1 :: prev)). intros rest H.
      unfold trap_get in H. destruct (s_dx p) as [dx0|] eqn:DX; [|discriminate].
      assert (F : df_C1 d = 2 / h /\ forall i, df_C0 d i = - 1 * (2 / h * s_x p i + dx0 i)).
      { destruct b; [destruct rest as [|? [|? ?]]; try discriminate|]; injection H as <-; split; reflexivity. }
      destruct F as (C1 & C0). rewrite C1. split; [apply Rdiv_lt_0_compat; lra|].
      intros i. unfold slope_rule, slope_of. rewrite DX. cbn [s_dx s_x s_t]. rewrite C0. fold h. field. lra.
  - assert (FI : first_iterations (m_gear k) = k) by reflexivity. rewrite FI in H. clear FI.
    assert (NK : n = S k).
    { unfold buffer_len in BL. destruct sc; [|discriminate BL]. cbn [m_gear m_x m_dx m_px m_pdx omax] in BL. injection BL as <-. cbn [Nat.max]; rewrite ?Nat.max_id; reflexivity. }
    subst n. unfold slope_rule. cbn [List.length].
    assert (CMP : (S (List.length prev) <=? k)%nat = (List.length prev <? k)%nat) by reflexivity. rewrite CMP. clear CMP.
    destruct (List.length prev <? k)%nat eqn:LK.
    + destruct (IE _ _ H) as (A & B). split; [exact A|]. intros i. cbn [slope_of s_dx s_x s_t]. apply B.
    + apply Nat.ltb_ge in LK. cbn [m_gear m_get] in H. set (pv := firstn (S k) (p :: prev)) in *.
      assert (LPV : List.length pv = S k) by (unfold pv; rewrite firstn_length; cbn [List.length]; lia).
      assert (NFP : newest_first pv) by (apply firstn_newest; exact NF).
      assert (KL : (k < List.length pv)%nat) by lia.
      destruct (gear_get_ok k pv h b KL) as (d' & E & C1 & C0 & _). rewrite E in H. injection H as ->.
      set (s j := h + s_t (nth 0 pv no_sample) - s_t (nth j pv no_sample)) in *.
      assert (G0 : 0 < gear_g0 k s) by (apply gear_g0_pos; auto).
      assert (DI : Lagrange.distinct (S k) s) by (apply gear_s_distinct; auto).
      assert (NZ : nonzero (S k) s) by (apply gear_s_nonzero; auto).
      rewrite C1. split; [exact G0|]. intros i. cbn [slope_of s_dx s_x s_t].
      assert (P0 : nth 0 pv no_sample = p) by reflexivity.
      (* the nodes are the new point and the last k points *)
      assert (DN : Lagrange.distinct (S k) (fun j => match j with O => t | S j => s_t (nth j pv no_sample) end)).
      { assert (K : forall j, (j < S k)%nat -> s_t (nth j pv no_sample) = t - s j) by (intros j J; unfold s; rewrite P0; unfold h; ring).
        intros a c A C EQ. destruct a as [|a], c as [|c]; [reflexivity| | |].
        - exfalso. rewrite K in EQ by lia. apply (NZ c ltac:(lia)). lra.
        - exfalso. rewrite K in EQ by lia. apply (NZ a ltac:(lia)). lra.
        - f_equal. apply DI; [lia|lia|]. rewrite !K in EQ by lia. lra. }
      destruct (interpolate k _ (fun j => match j with O => x i | S j => s_x (nth j pv no_sample) i end) DN) as (a & IA).
      exists a. change (fun s0 : R => rsum (S k) (fun j => a j * s0 ^ j)) with (peval k a).
      change (rsum (S k) (fun j => a j * t ^ j)) with (peval k a t). split; [exact (IA 0%nat ltac:(lia))|].
      assert (IP : forall j, (j < k)%nat -> peval k a (s_t (nth j pv no_sample)) = s_x (nth j pv no_sample) i) by (intros j J; exact (IA (S j) ltac:(lia))).
      split.
      { intros q Q. assert (Q' : In q (firstn k pv)) by (unfold pv; rewrite firstn_firstn, Nat.min_l by lia; exact Q).
        apply (In_nth _ _ no_sample) in Q'. destruct Q' as (j & J & <-). rewrite firstn_length, LPV in J. 
        assert (NJ : nth j (firstn k pv) no_sample = nth j pv no_sample).
        { rewrite <- (firstn_skipn k pv) at 2. rewrite app_nth1; [reflexivity|]. rewrite firstn_length. lia. }
        rewrite NJ. apply IP. lia. }
      rewrite C0. destruct (peval_reflect k t a) as (cc & R1 & _).
      replace (gear_g0 k s * x i + rsum k (fun j => gear_gamma k s j * s_x (nth j pv no_sample) i)) with (- cc 1%nat).
      * apply (reflect_deriv _ (peval k cc)); [exact R1|]. destruct k; [lia|]. apply peval_deriv0.
      * rewrite <- (gear_exact k s cc OKD DI NZ). f_equal.
        -- f_equal. rewrite <- R1. rewrite Rminus_0_r. exact (IA 0%nat ltac:(lia)).
        -- apply rsum_ext. intros j J. f_equal. rewrite <- R1. rewrite <- (IP j J). f_equal. unfold s. rewrite P0. unfold h. ring.
Qed.

(** * The times *)
Lemma good_times_snoc : forall ts t0 h T t, good_times t0 h T (ts ++ [t]) -> good_times t0 h T ts /\ forall u, In u (t0 :: ts) -> u < t.
Proof.
  induction ts as [|a ts IH]; intros t0 h T t H.
  - cbn [app good_times] in H. destruct H as (A & _). split; [exact Logic.I|]. intros u [<-|[]]. exact A.
  - cbn [app good_times] in H. destruct H as (A & B & C & G). destruct (IH _ _ _ _ G) as (G' & L). split; [cbn [good_times]; auto|].
    intros u [<-|U]; [|apply L; exact U]. apply Rlt_trans with a; [exact A|apply L; left; reflexivity].
Qed.
Lemma times_newest : forall run t0 h T ts, map s_t (rev run) = t0 :: ts -> good_times t0 h T ts -> newest_first run.
Proof.
  induction run as [|p past IH]; intros t0 h T ts E G; [exact Logic.I|]. cbn [rev] in E. rewrite map_app in E. cbn [map] in E.
  destruct past as [|q past]; [split; [intros q []|exact Logic.I]|].
  assert (N : exists ts', map s_t (rev (q :: past)) = t0 :: ts').
  { destruct (map s_t (rev (q :: past))) as [|a ts'] eqn:M.
    - apply (f_equal (@List.length R)) in M. rewrite map_length, rev_length in M. discriminate M.
    - cbn [app] in E. injection E as -> _. eauto. }
  destruct N as (ts' & N). rewrite N in E. cbn [app] in E. injection E as E. subst ts. destruct (good_times_snoc _ _ _ _ _ G) as (G' & L).
  cbn [newest_first]. split; [|apply (IH t0 h T ts' N G')].
  intros z Z. apply L. rewrite <- N. apply in_map. apply in_rev in Z. exact Z.
Qed.
Lemma run_times : forall o m sc size nv tstart tstep tstop x0 solve fuel rows, 0 < tstep ->
  transient_analysis o m sc size nv tstart tstep tstop x0 solve fuel = Ok (Some rows) ->
  good_times tstart tstep tstop (map fst rows) /\ tstop <= last_from tstart (map fst rows) /\ rows <> [].
Proof.
  intros o m sc size nv tstart tstep tstop x0 solve fuel rows SP H. unfold transient_analysis in H.
  destruct (Rlt_b tstop tstart); [discriminate|]. destruct (Rlt_b tstep 0); [discriminate|].
  destruct (buffer_len m sc) as [blen|]; [|discriminate].
  destruct (Rlt_b tstart tstop) eqn:T; [|discriminate]. apply Rlt_b_spec in T.
  destruct (loop_times o m sc blen size nv tstop tstep solve fuel 0 tstart (tstart_state sc tstart tstep tstop x0) rows SP) as [G L]; [|exact H|].
  { unfold tinv, times, tstart_state. cbn [q_step q_time q_rows map last_from good_times]. split; [|split; [reflexivity|exact Logic.I]].
    destruct sc; [|lra]. split; [apply Rmin_pos; [|exact SP]; apply Rdiv_lt_0_compat; lra|apply Rmin_r]. }
  split; [exact G|]. split; [exact L|]. intros ->. cbn [map last_from] in L. lra.
Qed.

(** * One solution of the solver *)
Lemma linear_solve_full : forall o nv mna Gmin Ndc Ntran solve JT td check maxit size fuel x1 y e l h,
  (forall A b y, solve A b = Some y -> forall i, (i < size)%nat -> row size A i y = b i) ->
  (forall A b, solve A b = None -> exists z, (forall i, (i < size)%nat -> row size A i z = 0) /\ exists i, (i < size)%nat /\ z i <> 0) ->
  (forall z, (forall i, (i < size)%nat -> row size (fun i j => mna i j + Gmin i j) i z = 0) -> forall i, (i < size)%nat -> z i = 0) ->
  (forall dx n, td dx n = 1) -> (0 < maxit)%nat -> o_std o = true ->
  dc_solve_sys o (fun _ A b x => mdn_solver size solve false JT td check maxit A b (Some (size, x))) nv mna Gmin Ndc Ntran (S fuel) x1 = DRet (Some y) e true l h ->
  forall i, (i < size)%nat -> row size (fun i j => mna i j + Gmin i j) i y + (Ndc i + Ntran i) = 0.
Proof.
  intros o nv mna Gmin Ndc Ntran solve JT td check maxit size fuel x1 y e l hh SS SC REG TD MX OS H.
  pose proof (newton_linear size solve JT td check maxit (sys_mat nv mna Gmin RStd) (sys_vec Ndc Ntran RStd) x1 TD SS MX) as Q.
  destruct (mdn_solver size solve false JT td check maxit _ _ (Some (size, x1))) as [x2 r c n| |ex] eqn:NW.
  - destruct Q as (-> & -> & Q & _). unfold dc_solve_sys in H. rewrite (dc_solve_first _ o _ fuel x1 x2 r 1 OS NW) in H. injection H as -> _ _ _. exact Q.
  - destruct Q as [b Q]. destruct (SC _ _ Q) as (z & Z1 & i & Hi & Z2). exfalso. apply Z2.
    apply REG; auto. intros k Hk. rewrite <- (Z1 k Hk). unfold row. apply rsum_ext. intros j _. unfold sys_mat. ring.
  - destruct Q.
Qed.

(** * The run *)
Section Run.
  Variables (t : ntab) (parts : list pelem) (es : list lelem).
  Hypothesis GR : grounded t.
  Hypothesis PL_ : Forall2 (placed written_dc t) parts es.
  Hypothesis SO : Forall (proper parts) parts.
  Hypothesis SC : Forall (ac_sound parts) parts.
  Hypothesis ND : NoDup (map pid parts).
  Hypothesis MEN : forall n i, at_node t n i -> In n (node_list parts).
  Let nv := get_nodes_number t.
  Let size := op_size t es.
  Variables (cmin gmin : R) (m : mat) (N : vec) (D : mat).
  Hypothesis GE : generate_mna_and_N nv es = Ok (m, N).
  Hypothesis GD : generate_D cmin nv es = Ok D.
  Variable solve : nat -> mat -> vec -> option vec.
  Variable JT : vec -> mat * vec.
  Variable check : vec -> vec -> vec -> bool.
  Variable locked : list lelem -> list (nat * nat).
  Variables (o : dopts) (tdo : tdopts) (maxit fuel : nat) (at_time : str -> R -> R).
  Hypothesis SS : forall A b y, solve size A b = Some y -> forall i, (i < size)%nat -> row size A i y = b i.
  Hypothesis SN : forall A b, solve size A b = None -> exists z, (forall i, (i < size)%nat -> row size A i z = 0) /\ exists i, (i < size)%nat /\ z i <> 0.
  Hypothesis DF : d_first tdo = false.
  Hypothesis MX : (0 < maxit)%nat.
  Hypothesis OS : o_std o = true.
  Hypothesis REG : forall k, 0 < k -> tr_regular k gmin (Rmax 0 cmin) parts.

  Definition point_of (q : sample) : tpoint :=
    let dx := match s_dx q with Some f => f | None => vzero end in
    mkP (s_t q) (volt t (with_ground (s_x q))) (amp nv es (with_ground (s_x q))) (volt t (with_ground dx)) (amp nv es (with_ground dx)).

  Lemma point_V : forall n i q, at_node t n (S i) -> p_V (point_of q) n = s_x q i /\ p_dV (point_of q) n = slope_of q i.
  Proof.
    intros n i q At. unfold point_of, slope_of. cbn [p_V p_dV]. unfold volt, at_node in *. rewrite At. cbn [with_ground]. destruct (s_dx q); split; reflexivity.
  Qed.
  Lemma point_I : forall id k q, nth_error (current_ids parts) k = Some id ->
    p_I (point_of q) id = s_x q (nv - 1 + k)%nat /\ p_dI (point_of q) id = slope_of q (nv - 1 + k)%nat.
  Proof.
    intros id k q H. pose proof (grounded_number t GR) as NZ. fold nv in NZ. unfold point_of, slope_of. cbn [p_I p_dI].
    rewrite <- !(tr_XI t parts es PL_ SO ND _ k id H). fold nv. clear - NZ. replace (nv + k)%nat with (S (nv - 1 + k)) by lia.
    destruct (s_dx q); split; reflexivity.
  Qed.

  Lemma row_lin : forall M i x y c, row size M i (fun j => c * x j + y j) = c * row size M i x + row size M i y.
  Proof. intros M i x y c. unfold row. rewrite <- rsum_scal, <- rsum_plus. apply rsum_ext. intros; ring. Qed.
  Lemma row_two : forall M M' c i x, row size (fun i j => M i j + c * M' i j) i x = row size M i x + c * row size M' i x.
  Proof. intros M M' c i x. unfold row. rewrite <- rsum_scal, <- rsum_plus. apply rsum_ext. intros; ring. Qed.
  Lemma row_gmin : forall M i x, (i < size)%nat ->
    row size (fun i j => M i j + build_gmin_matrix nv gmin i j) i x = row size M i x + (if (i <? nv - 1)%nat then gmin * x i else 0).
  Proof.
    intros M i x Hi. pose proof (grounded_number t GR) as NZ. fold nv in NZ.
    assert (SZ : size = (nv - 1 + n_vde es)%nat) by (unfold size, op_size; fold nv; lia). rewrite SZ in *.
    apply (C64_gmin_adds_node_conductances nv (n_vde es) gmin M x i NZ Hi).
  Qed.

  Lemma system_regular : forall k z, 0 < k ->
    (forall i, (i < size)%nat -> row size (fun i j => (reduce_mat m i j + k * reduce_mat D i j) + build_gmin_matrix nv gmin i j) i z = 0) ->
    forall i, (i < size)%nat -> z i = 0.
  Proof.
    intros k z K H. pose proof (grounded_number t GR) as NZ. fold nv in NZ.
    assert (SZ : size = (nv - 1 + n_vde es)%nat) by (unfold size, op_size; fold nv; lia).
    assert (L : tr_laws (fun _ => 0) gmin (Rmax 0 cmin) parts (volt t (with_ground z)) (amp nv es (with_ground z))
                  (volt t (with_ground (fun j => k * z j))) (amp nv es (with_ground (fun j => k * z j)))).
    { apply (kernel_laws t parts es GR PL_ SO SC ND cmin gmin m N D GE GD (fun _ => 0)). intros i Hi. specialize (H i Hi).
      rewrite row_gmin in H by exact Hi. rewrite row_two in H. fold nv.
      assert (E : row size (reduce_mat D) i (fun j => k * z j) = k * row size (reduce_mat D) i z) by (unfold row; rewrite <- rsum_scal; apply rsum_ext; intros; ring).
      change (op_size t es) with size. rewrite E. lra. }
    assert (RK := REG k K). unfold tr_regular in RK. eapply RK in L; clear RK; [destruct L as (Z1 & Z2)| |].
    2:{ intros n. unfold volt. destruct (ext_node_to_int t (ss n)) as [[|j]|]; cbn [with_ground]; ring. }
    2:{ intros id. unfold amp. destruct (vde_index es (ss id)) as [q|]; [|ring]. destruct (nv + q)%nat; cbn [with_ground]; ring. }
    intros i Hi. destruct (lt_dec i (nv - 1)) as [Q|Q].
    - destruct (proj1 (grounded_range t (S i) GR)) as (n & At); [fold nv; lia|].
      pose proof (Z1 n (MEN n _ At)) as E. unfold volt, at_node in *. rewrite At in E. exact E.
    - destruct (nth_error (current_ids parts) (i - (nv - 1))) as [id|] eqn:NE.
      + pose proof (Z2 id (nth_error_In _ _ NE)) as E. pose proof (tr_XI t parts es PL_ SO ND z _ id NE) as X. fold nv in X. rewrite <- X in E.
        replace (nv + (i - (nv - 1)))%nat with (S i) in E by lia. exact E.
      + exfalso. apply nth_error_None in NE. rewrite (tr_len t parts es PL_) in NE. lia.
  Qed.

  Lemma solve_laws : forall r c1 c0 time x' y, 0 < c1 ->
    tran_solve solve JT check locked o tdo maxit (S fuel) gmin at_time t es (reduce_mat m) (reduce_vec N) (reduce_mat D) r c1 c0 time x' = Ok (Some y) ->
    let q := point_of (mkS time y (Some (fun i => c1 * y i + c0 i))) in
    tr_laws (driven (fun id => at_time id time) written_dc) gmin (Rmax 0 cmin) parts (p_V q) (p_I q) (p_dV q) (p_dI q).
  Proof.
    intros r c1 c0 time x' y C H. cbn [point_of p_V p_I p_dV p_dI s_x s_dx].
    unfold tran_solve in H. fold nv size in H.
    match type of H with match ?d with _ => _ end = _ => destruct d as [[y'|] er [|] l hh|] eqn:DS; try discriminate H end. injection H as ->.
    assert (NL := proj2 (proj2 (proj2 (proper_wf written_dc t parts es GR PL_ SO)))).
    assert (Q : forall i, (i < size)%nat -> row size (fun i j => (reduce_mat m i j + c1 * reduce_mat D i j) + build_gmin_matrix nv gmin i j) i y
      + ((reduce_vec N i + time_term nv (fun e => at_time (list_ascii_of_string (lid e)) time) es i) + row size (reduce_mat D) i c0) = 0).
    { intros i Hi. unfold op_newton, ports in DS. rewrite NL in DS. fold size in DS.
      refine (linear_solve_full o nv _ _ _ _ (solve size) JT _ check maxit size fuel x' y er l hh SS SN _ _ MX OS DS i Hi).
      - intros z Z. apply (system_regular c1 z C Z).
      - intros dx n. cbv beta. unfold get_td, td_first. rewrite DF. destruct (d_lock tdo); reflexivity. }
    apply (system_laws t parts es GR PL_ SO SC ND cmin gmin m N D GE GD (fun id => at_time id time)).
    intros i Hi. specialize (Q i Hi). rewrite row_gmin in Q by exact Hi. rewrite row_two in Q. unfold tr_row. change (op_size t es) with size. fold nv.
    rewrite row_lin. lra.
  Qed.

  Lemma run_marches : forall inv modules d0 sc n tstart x0 run,
    buffer_len (method_of inv modules d0) sc = Ok n ->
    match d0 with DModule _ => False | DGear k => (0 < k)%nat | _ => True end ->
    solved_run (method_of inv modules d0) n (fun time c1 c0 y => exists r x', tran_solve solve JT check locked o tdo maxit (S fuel) gmin at_time t es
       (reduce_mat m) (reduce_vec N) (reduce_mat D) r c1 c0 time x' = Ok (Some y)) tstart x0 run ->
    newest_first run ->
    marches (fun time => driven (fun id => at_time id time) written_dc) gmin (Rmax 0 cmin) parts d0 (map point_of run).
  Proof.
    intros inv modules d0 sc n tstart x0 run BL OKD R1. induction R1 as [|p prev time x d b R1 IH DFE SOL]; intros NF; [split; exact Logic.I|].
    destruct NF as (NF1 & NF). specialize (IH NF). assert (TT : s_t p < time) by (apply (NF1 p); left; reflexivity).
    destruct (df_rule inv modules d0 sc n p prev time x d b BL OKD NF TT DFE) as (C & RULE).
    destruct SOL as (r & x' & SOL).
    change (map point_of (mkS time x (Some (fun i => df_C1 d * x i + df_C0 d i)) :: p :: prev))
      with (point_of (mkS time x (Some (fun i => df_C1 d * x i + df_C0 d i))) :: map point_of (p :: prev)).
    cbn [marches]. split; [|exact IH]. cbn [map]. split; [exact TT|]. split; [exact (solve_laws r _ _ _ x' x C SOL)|].
    change (point_of p :: map point_of prev) with (map point_of (p :: prev)).
    split.
    - intros n' IN NG. destruct (tr_nodes t parts es GR PL_ SO n' IN NG) as (i & At & _).
      apply (slope_rule_map sample tpoint p_t point_of d0 (p :: prev) _ (fun q => s_x q i) (fun q => slope_of q i)); [| |exact (RULE i)].
      + intros q. symmetry. apply (point_V n' i q At).
      + intros q. symmetry. apply (point_V n' i q At).
    - intros id IN. apply In_nth_error in IN. destruct IN as (k & NK).
      apply (slope_rule_map sample tpoint p_t point_of d0 (p :: prev) _ (fun q => s_x q (nv - 1 + k)%nat) (fun q => slope_of q (nv - 1 + k)%nat)); [| |exact (RULE _)].
      + intros q. symmetry. apply (point_I id k q NK).
      + intros q. symmetry. apply (point_I id k q NK).
  Qed.
End Run.

(** Custom modules are never loaded. *)
Lemma choose_df_order : forall has_module method d, choose_df has_module method = Ok d ->
  match d with DModule _ => False | DGear k => (0 < k)%nat | _ => True end.
Proof.
  intros has_module method d H.
  unfold choose_df in H. repeat match type of H with context [if String.eqb ?a ?b then _ else _] => destruct (String.eqb a b); [injection H as <-; try exact Logic.I; lia|] end.
  unfold import_custom_df_module in H. destruct (has_module (lower method)); discriminate H.
Qed.

Lemma op_values : forall t es nodes ids x,
  names_of t (seq 1 (get_nodes_number t - 1)) = Ok nodes -> map (fun e => list_ascii_of_string (lid e)) (filter is_vde es) = ids ->
  distinct nodes -> distinct ids -> op_size t es = (List.length nodes + List.length ids)%nat ->
  (forall k n name, nth_error nodes k = Some n -> slower name = slower (lit "V" ++ n) -> op_report t es x name = Ok (x k)) /\
  (forall j id name, nth_error ids j = Some id -> slower name = slower (lit "I(" ++ id ++ lit ")") -> op_report t es x name = Ok (x (List.length nodes + j)%nat)).
Proof.
  intros t es nodes ids x NS IDS DN DI SZ.
  assert (LX : List.length (map x (seq 0 (op_size t es))) = (List.length nodes + List.length ids)%nat) by (rewrite map_length, seq_length; exact SZ).
  destruct (C36_op R 0 nodes ids (map x (seq 0 (op_size t es))) DN DI LX) as (F1 & F2 & _).
  assert (VAL : forall k, (k < op_size t es)%nat -> nth k (map x (seq 0 (op_size t es))) 0 = x k).
  { intros k K. rewrite (nth_indep _ 0 (x 0%nat)) by (rewrite map_length, seq_length; exact K). rewrite map_nth, seq_nth by exact K. reflexivity. }
  unfold op_report. rewrite NS, IDS. cbn [bindr]. split.
  - intros k n name H E. rewrite (F1 k n name H E), VAL; [reflexivity|]. rewrite SZ. apply Nat.lt_lt_add_r. apply nth_error_Some. congruence.
  - intros j id name H E. rewrite (F2 j id name H E), VAL; [reflexivity|]. rewrite SZ. apply Nat.add_lt_mono_l. apply nth_error_Some. congruence.
Qed.

Lemma tran_table : forall t es nodes ids rows,
  names_of t (seq 1 (get_nodes_number t - 1)) = Ok nodes -> map (fun e => list_ascii_of_string (lid e)) (filter is_vde es) = ids ->
  distinct nodes -> distinct ids -> Forall PropsResults.plain nodes -> Forall PropsResults.plain ids -> op_size t es = (List.length nodes + List.length ids)%nat ->
  rows <> [] ->
  (forall name, slower name = lit "t" -> tran_report t es rows name = Ok (map fst rows)) /\
  (forall k n name, nth_error nodes k = Some n -> slower name = slower (lit "V" ++ n) -> tran_report t es rows name = Ok (map (fun r => snd r k) rows)) /\
  (forall j id name, nth_error ids j = Some id -> slower name = slower (lit "I(" ++ id ++ lit ")") ->
     tran_report t es rows name = Ok (map (fun r => snd r (List.length nodes + j)%nat) rows)).
Proof.
  intros t es nodes ids rows NS IDS DN DI PN PI_ SZ RN. destruct rows as [|r rows]; [congruence|].
  assert (BL : Forall (PropsCsv.block (tran_vars nodes ids)) (dc_line (op_size t es) r :: map (dc_line (op_size t es)) rows)).
  { assert (K : forall q, PropsCsv.block (tran_vars nodes ids) (dc_line (op_size t es) q)).
    { intros q. split; unfold dc_line, tran_vars, op_vars; cbn [fst snd List.length].
      - rewrite app_length, !map_length, seq_length. f_equal. exact SZ.
      - constructor; [reflexivity|]. apply Forall_map. apply Forall_forall. reflexivity. }
    constructor; [apply K|]. apply Forall_map. apply Forall_forall. intros q _. apply K. }
  destruct (C36_tran R 0 nodes ids _ _ DN DI PN PI_ BL) as ((F1 & F2 & _) & F0).
  cbv zeta in F1, F2, F0.
  change (dc_line (op_size t es) r :: map (dc_line (op_size t es)) rows) with (map (dc_line (op_size t es)) (r :: rows)) in *.
  unfold tran_report, tran_file. rewrite NS, IDS. cbn [bindr]. rewrite dc_file_written. split; [|split].
  - intros name E. rewrite F0 by exact E. f_equal. generalize (r :: rows). intros l. unfold samples.
    induction l as [|q l IH]; [reflexivity|]. cbn [map concat dc_line snd nth app]. rewrite IH. reflexivity.
  - intros k n name H E. rewrite (F1 k n name H E). f_equal. apply dc_samples. rewrite SZ. apply Nat.lt_lt_add_r. apply nth_error_Some. congruence.
  - intros j id name H E. rewrite (F2 j id name H E). f_equal. apply dc_samples. rewrite SZ. apply Nat.add_lt_mono_l. apply nth_error_Some. congruence.
Qed.

(** * C196 *)
Theorem C196_tran : forall fs other fuel filename parts t es, load fs other fuel filename = Ok (parts, t, es) ->
  (* nothing is said of subcircuits and user-defined elements, except that names are words in lower case *)
  (forall line l, other line = Ok l -> Forall word_names l) ->
  Forall (ac_sound parts) parts ->
  forall solve JT check locked o tdo maxit fuel' top cmin gmin at_time inv modules has_module method sc tstart tstep tstop x0 rounds rows,
  let n := op_size t es in
  (* the linear solver solves, and refuses singular matrices only *)
  (forall A b y, solve n A b = Some y -> forall i, (i < n)%nat -> row n A i y = b i) ->
  (forall A b, solve n A b = None -> exists z, (forall i, (i < n)%nat -> row n A i z = 0) /\ exists i, (i < n)%nat /\ z i <> 0) ->
  d_first tdo = false -> (0 < maxit)%nat -> o_std o = true -> 0 < tstep ->
  (forall k, 0 < k -> tr_regular k gmin (Rmax 0 cmin) parts) ->
  tran_run solve JT check locked o tdo maxit (S fuel') top cmin gmin at_time inv modules has_module method sc t es tstart tstep tstop x0 rounds = Ok (Some rows) ->
  let report := tran_report t es rows in
  let src time := driven (fun id => at_time id time) written_dc in
  exists d start points, choose_df has_module method = Ok d /\
    (* from the starting point, at each point the laws hold, and the derivatives are those of the method *)
    marches src gmin (Rmax 0 cmin) parts d (rev (start :: points)) /\
    p_t start = tstart /\ points <> [] /\ tstop <= last_from tstart (map p_t points) /\
    (forall n name, In n (node_list parts) -> n <> lit "0" -> slower name = slower (lit "V" ++ n) -> op_report t es (tran_start x0) name = Ok (p_V start n)) /\
    (forall id name, In id (current_ids parts) -> slower name = slower (lit "I(" ++ id ++ lit ")") -> op_report t es (tran_start x0) name = Ok (p_I start id)) /\
    (* the points are what is reported *)
    (forall name, slower name = lit "t" -> report name = Ok (map p_t points)) /\
    (forall n name, In n (node_list parts) -> n <> lit "0" -> slower name = slower (lit "V" ++ n) -> report name = Ok (map (fun p => p_V p n) points)) /\
    (forall id name, In id (current_ids parts) -> slower name = slower (lit "I(" ++ id ++ lit ")") -> report name = Ok (map (fun p => p_I p id) points)).
Proof.
  intros fs other fuel filename parts t es LD OT SC solve JT check locked o tdo maxit fuel' top cmin gmin at_time inv modules has_module method sc tstart tstep tstop x0 rounds rows
    n_ SS SN DF MX OS TS REG RUN report src. unfold n_ in *. clear n_.
  assert (OL : forall line l, other line = Ok l -> Forall lower_case l) by (intros line l H; eapply Forall_impl; [|exact (OT line l H)]; intros e He; apply He).
  assert (OP : forall line l, other line = Ok l -> Forall plain_names l) by (intros line l H; eapply Forall_impl; [|exact (OT line l H)]; intros e He; apply He).
  assert (SO : Forall (proper parts) parts).
  { pose proof (load_lower _ _ _ _ _ _ _ OL LD) as LC. apply Forall_forall. rewrite Forall_forall in SC, LC. intros e H. split; [auto|apply SC; exact H]. }
  pose proof (load_plain _ _ _ _ _ _ _ OP LD) as PN.
  destruct (load_facts _ _ _ _ _ _ _ LD) as (G & NV & PL & ND & MEN).
  destruct (result_names t parts es G PL SO PN ND MEN) as (ns & NS & LN & DN & PNS & IDS & DI & PIS & LEN & REGD & IDX).
  pose proof (grounded_number t G) as NZ. set (nv := get_nodes_number t) in *.
  assert (SZ : op_size t es = (List.length ns + List.length (current_ids parts))%nat) by (unfold op_size; fold nv; lia).
  unfold tran_run in RUN. fold nv in RUN.
  destruct (generate_mna_and_N nv es) as [[m N]|] eqn:GE; [|discriminate RUN]. cbn [bindr fst snd] in RUN.
  destruct (generate_D cmin nv es) as [D|] eqn:GD; [|discriminate RUN]. cbn [bindr] in RUN.
  destruct (choose_df has_module method) as [d|] eqn:CD; [|discriminate RUN]. cbn [bindr] in RUN.
  assert (OKD : match d with DModule _ => False | DGear k => (0 < k)%nat | _ => True end) by (exact (choose_df_order has_module method d CD)).
  destruct (run_times _ _ _ _ _ _ _ _ _ _ _ _ TS RUN) as (GT & LAST & NR).
  destruct (run_solved _ _ _ _ _ _ _ _ _ _ _ _ (fun time c1 c0 y => exists r x', tran_solve solve JT check locked o tdo maxit (S fuel') gmin at_time t es
       (reduce_mat m) (reduce_vec N) (reduce_mat D) r c1 c0 time x' = Ok (Some y)) (fun r c1 c0 time x' y H => ex_intro _ r (ex_intro _ x' H)) RUN) as (n & run & BL & SR & PTS).
  assert (TM : map s_t (rev run) = tstart :: map fst rows).
  { apply (f_equal (map fst)) in PTS. rewrite map_map in PTS. exact PTS. }
  assert (NF : newest_first run) by (eapply times_newest; [exact TM|exact GT]).
  pose proof (run_marches t parts es G PL SO SC ND MEN cmin gmin m N D GE GD solve JT check locked o tdo maxit fuel' at_time SS SN DF MX OS REG
    inv modules d sc n tstart (tran_start x0) run BL OKD SR NF) as MAR.
  destruct (rev run) as [|s0 rest] eqn:RR; [discriminate TM|].
  assert (ER : run = rev (s0 :: rest)) by (rewrite <- RR, rev_involutive; reflexivity).
  cbn [map] in PTS. injection PTS as P0 X0 PTS.
  exists d, (point_of t es s0), (map (point_of t es) rest). split; [reflexivity|]. split.
  { rewrite ER in MAR. rewrite map_rev in MAR. exact MAR. }
  split; [exact P0|].
  assert (TR : map p_t (map (point_of t es) rest) = map fst rows).
  { rewrite map_map, <- PTS, map_map. apply map_ext. reflexivity. }
  split; [intros E; apply NR; apply map_eq_nil in E; rewrite E in PTS; symmetry in PTS; apply PTS|].
  split; [rewrite TR; exact LAST|].
  destruct (op_values t es ns (current_ids parts) (tran_start x0) NS IDS DN DI SZ) as (O1 & O2).
  destruct (tran_table t es ns (current_ids parts) rows NS IDS DN DI PNS PIS SZ NR) as (T0 & T1 & T2).
  split; [|split; [|split; [|split]]].
  - intros n' name H NG E. destruct (IDX n' H NG) as (i & NI & At). rewrite (O1 i n' name NI E). f_equal.
    rewrite (proj1 (point_V t es n' i s0 At)), X0. reflexivity.
  - intros id name H E. apply In_nth_error in H. destruct H as (q & H). rewrite (O2 q id name H E). f_equal.
    rewrite (proj1 (point_I t parts es G PL SO ND id q s0 H)), X0, LN. reflexivity.
  - intros name E. unfold report. rewrite (T0 name E). f_equal. symmetry. exact TR.
  - intros n' name H NG E. destruct (IDX n' H NG) as (i & NI & At). unfold report. rewrite (T1 i n' name NI E). f_equal.
    rewrite <- PTS, !map_map. apply map_ext. intros q. symmetry. apply (point_V t es n' i q At).
  - intros id name H E. apply In_nth_error in H. destruct H as (q & H). unfold report. rewrite (T2 q id name H E). f_equal.
    rewrite <- PTS, !map_map. apply map_ext. intros z. rewrite LN. symmetry. apply (point_I t parts es G PL SO ND id q z H).
Qed.
Print Assumptions C196_tran.

(** * Circuits that dissipate are regular *)
Definition dissipative (e : pelem) : Prop :=
  match e with
  | PR _ _ _ r => 0 < dR r
  | PC _ _ _ c _ => 0 <= dR c
  | PL _ _ _ l _ => 0 < dR l
  | PV _ _ _ _ _ _ | PI _ _ _ _ _ _ => True
  | _ => False
  end.
(** A current that flows in the voltage sources only, obeying Kirchhoff's law, flows
    around a loop of them. *)
Fixpoint sources_leaving (I : str -> R) (n : str) (l : list pelem) : R :=
  match l with
  | [] => 0
  | PV id a b _ _ _ :: l' => (if streqb n a then I id else 0) - (if streqb n b then I id else 0) + sources_leaving I n l'
  | _ :: l' => sources_leaving I n l'
  end.
Definition no_source_loop (parts : list pelem) : Prop :=
  forall I, (forall n, In n (node_list parts) -> n <> lit "0" -> sources_leaving I n parts = 0) ->
  forall id a b dc ac f, In (PV id a b dc ac f) parts -> I id = 0.

Lemma pick_sum : forall (f : str -> R) x a ns, NoDup ns -> In a ns -> lsum (fun n => f n * (if streqb n a then x else 0)) ns = f a * x.
Proof.
  intros f x a ns. induction ns as [|n ns IH]; intros ND IN; [destruct IN|]. inversion ND as [|? ? NI ND']; subst. cbn [lsum].
  destruct (list_eq_dec ascii_dec n a) as [->|NE].
  - rewrite streqb_refl. rewrite lsum_0; [ring|]. intros b B. rewrite streqb_ne; [ring|]. intros ->. contradiction.
  - rewrite (streqb_ne n a NE), IH; [ring|exact ND'|]. destruct IN as [E|IN]; [contradiction|exact IN].
Qed.
Lemma tellegen : forall src V I dV ns l, NoDup ns -> (forall e, In e l -> In (first_end e) ns /\ In (second_end e) ns \/ tr_through src V I dV e = 0) ->
  lsum (fun n => V n * tr_leaving src V I dV n l) ns = lsum (fun e => (V (first_end e) - V (second_end e)) * tr_through src V I dV e) l.
Proof.
  intros src V I dV ns l ND. induction l as [|e l IH]; intros H; cbn [tr_leaving lsum].
  - apply lsum_0. intros; ring.
  - rewrite <- IH by (intros e' H'; apply H; right; exact H').
    rewrite (lsum_ext _ _ (fun n => V n * tr_leaving1 src V I dV n e + V n * tr_leaving src V I dV n l)) by (intros; ring).
    rewrite lsum_plus. f_equal. unfold tr_leaving1. destruct (H e (or_introl eq_refl)) as [(A & B)|Z].
    + rewrite (lsum_ext _ _ (fun n => V n * (if streqb n (first_end e) then tr_through src V I dV e else 0)
        + - (V n * (if streqb n (second_end e) then tr_through src V I dV e else 0)))) by (intros; ring).
      rewrite lsum_plus, lsum_opp, !pick_sum by assumption. ring.
    + rewrite Z. rewrite lsum_0; [ring|]. intros n _. repeat match goal with |- context [if ?b then _ else _] => destruct b end; ring.
Qed.
Lemma lsum_nonneg : forall A (f : A -> R) l, (forall a, In a l -> 0 <= f a) -> 0 <= lsum f l.
Proof.
  intros A f l. induction l as [|a l IH]; intros H; cbn [lsum]; [lra|]. pose proof (H a (or_introl eq_refl)).
  specialize (IH (fun b B => H b (or_intror B))). lra.
Qed.
Lemma lsum_each : forall A (f : A -> R) l, (forall a, In a l -> 0 <= f a) -> lsum f l <= 0 -> forall a, In a l -> f a = 0.
Proof.
  intros A f l. induction l as [|b l IH]; intros H S a IN; [destruct IN|]. cbn [lsum] in S.
  pose proof (H b (or_introl eq_refl)). pose proof (lsum_nonneg A f l (fun c C => H c (or_intror C))).
  destruct IN as [<-|IN]; [lra|]. apply IH; [intros c C; apply H; right; exact C|lra|exact IN].
Qed.
Lemma linked_none : forall J id l, Forall dissipative l -> linked J id l = 0.
Proof.
  intros J id l H. induction H as [|e l He H IH]; [reflexivity|]. destruct e; cbn [linked]; try exact IH. destruct He.
Qed.
Lemma ends_in : forall parts e, In e parts -> dissipative e -> In (first_end e) (node_list parts) /\ In (second_end e) (node_list parts).
Proof.
  intros parts e IE De. unfold node_list. split; apply in_flat_map; exists e; (split; [exact IE|]); destruct e; try (destruct De; fail); cbn [nodes_in first_end second_end In]; auto.
Qed.

Theorem C196_regular : forall parts g c k, Forall dissipative parts -> no_source_loop parts -> 0 <= g -> 0 <= c -> 0 < g \/ 0 < c -> 0 < k ->
  tr_regular k g c parts.
Proof.
  intros parts g c k DS NL G0 C0 GC K V I dV dI HV HI (Z0 & _ & KCL & LAW). rewrite Forall_forall in DS, LAW.
  set (ns := nodup (list_eq_dec ascii_dec) (node_list parts)).
  assert (NS : forall n, In n ns <-> In n (node_list parts)) by (intros n; apply nodup_In).
  assert (DS' : Forall dissipative parts) by (apply Forall_forall; exact DS).
  assert (ENDS : forall e, In e parts -> In (first_end e) (node_list parts) /\ In (second_end e) (node_list parts)) by (intros e IE; apply ends_in; auto).
  set (P e := (V (first_end e) - V (second_end e)) * tr_through (fun _ => 0) V I dV e).
  assert (IND : forall id a b l ic, In (PL id a b l ic) parts -> V a - V b = dR l * (k * I id)).
  { intros id a b l ic IE. pose proof (LAW _ IE) as L. cbn [tr_law] in L. rewrite (linked_none _ _ _ DS'), HI in L. lra. }
  assert (PP : forall e, In e parts -> 0 <= P e).
  { intros e IE. pose proof (DS e IE) as De. unfold P. destruct e; try (destruct De; fail); cbn [dissipative] in De; cbn [tr_through through first_end second_end].
    - set (d := V n1 - V n2). replace (d * (d / dR v)) with (d * d * / dR v) by (field; lra).
      apply Rmult_le_pos; [apply Rle_0_sqr|left; apply Rinv_0_lt_compat; exact De].
    - rewrite !HV. replace ((V n1 - V n2) * (dR v * (k * V n1 - k * V n2))) with (dR v * k * ((V n1 - V n2) * (V n1 - V n2))) by ring.
      apply Rmult_le_pos; [|apply Rle_0_sqr]. apply Rmult_le_pos; lra.
    - rewrite (IND _ _ _ _ _ IE). replace (dR v * (k * I id) * I id) with (dR v * k * (I id * I id)) by ring.
      apply Rmult_le_pos; [|apply Rle_0_sqr]. apply Rmult_le_pos; lra.
    - pose proof (LAW _ IE) as L. cbn [tr_law law] in L. rewrite L. lra.
    - lra. }
  assert (SUM : lsum P parts + (g + c * k) * lsum (fun n => V n * V n) ns = 0).
  { unfold P. rewrite <- (tellegen (fun _ => 0) V I dV ns parts).
    - rewrite <- lsum_scal, <- lsum_plus. apply lsum_0. intros n IN. apply NS in IN.
      destruct (list_eq_dec ascii_dec n (lit "0")) as [->|NE]; [rewrite Z0; ring|].
      pose proof (KCL n IN NE) as Q. rewrite HV in Q.
      replace (V n * tr_leaving (fun _ => 0) V I dV n parts + (g + c * k) * (V n * V n)) with (V n * (tr_leaving (fun _ => 0) V I dV n parts + g * V n + c * (k * V n))) by ring.
      rewrite Q. ring.
    - apply NoDup_nodup.
    - intros e IE. left. destruct (ENDS e IE) as (A & B). split; apply NS; assumption. }
  assert (W : 0 < g + c * k).
  { destruct GC as [GP|CP]; [|pose proof (Rmult_lt_0_compat c k CP K); lra]. assert (0 <= c * k) by (apply Rmult_le_pos; lra). lra. }
  pose proof (lsum_nonneg _ P parts PP) as S1.
  assert (S2 : lsum (fun n => V n * V n) ns <= 0).
  { assert (SQ : 0 <= lsum (fun n => V n * V n) ns) by (apply lsum_nonneg; intros n _; apply (Rle_0_sqr (V n))). apply Rnot_lt_le. intros LT.
    pose proof (Rmult_lt_0_compat _ _ W LT). lra. }
  assert (VZ : forall n, In n (node_list parts) -> V n = 0).
  { intros n IN. pose proof (lsum_each _ (fun n => V n * V n) ns (fun a _ => Rle_0_sqr (V a)) S2 n (proj2 (NS n) IN)) as Q. cbv beta in Q. apply Rmult_integral in Q. tauto. }
  split; [exact VZ|].
  assert (LZ : forall id a b l ic, In (PL id a b l ic) parts -> I id = 0).
  { intros id a b l ic IE. pose proof (IND _ _ _ _ _ IE) as Q. destruct (ENDS _ IE) as (A & B). cbn [first_end second_end] in A, B.
    rewrite (VZ a A), (VZ b B) in Q. pose proof (DS _ IE) as De. cbn [dissipative] in De.
    assert (Q' : dR l * k * I id = 0) by lra. apply Rmult_integral in Q'. destruct Q' as [Q'|Q']; [|exact Q'].
    pose proof (Rmult_lt_0_compat _ _ De K). lra. }
  assert (TZ : forall e, In e parts -> tr_through (fun _ => 0) V I dV e = match e with PV id _ _ _ _ _ => I id | _ => 0 end).
  { intros e IE. pose proof (DS e IE) as De. destruct (ENDS e IE) as (A & B). apply VZ in A. apply VZ in B.
    destruct e; try (destruct De; fail); cbn [first_end second_end tr_through through dissipative] in *; rewrite ?HV, ?A, ?B.
    - field. lra.
    - ring.
    - eapply LZ. exact IE.
    - reflexivity.
    - reflexivity. }
  assert (SL : forall n, tr_leaving (fun _ => 0) V I dV n parts = sources_leaving I n parts).
  { intros n. clear - TZ. induction parts as [|e l IH]; [reflexivity|]. cbn [tr_leaving]. rewrite IH by (intros e' H; apply TZ; right; exact H).
    unfold tr_leaving1. rewrite (TZ e (or_introl eq_refl)). destruct e; cbn [sources_leaving first_end second_end];
      repeat match goal with |- context [if ?b then _ else _] => destruct b end; ring. }
  assert (SZ : forall id a b dc ac f, In (PV id a b dc ac f) parts -> I id = 0).
  { apply NL. intros n IN NE. rewrite <- SL. pose proof (KCL n IN NE) as Q. rewrite HV, (VZ n IN) in Q. lra. }
  intros id IN. unfold current_ids in IN. apply in_map_iff in IN. destruct IN as (e & <- & IN). apply filter_In in IN. destruct IN as (IE & HC).
  pose proof (DS e IE) as De. destruct e; try (destruct De; fail); try discriminate HC; cbn [pid]; [eapply LZ|eapply SZ]; exact IE.
Qed.
Print Assumptions C196_regular.

(** * Such circuits are simulated *)
Lemma full_solve : forall o nv mna Gmin Ndc Ntran solve JT td check maxit size fuel x1,
  (forall A b y, solve A b = Some y -> forall i, (i < size)%nat -> row size A i y = b i) ->
  (forall A b, solve A b = None -> exists z, (forall i, (i < size)%nat -> row size A i z = 0) /\ exists i, (i < size)%nat /\ z i <> 0) ->
  (forall z, (forall i, (i < size)%nat -> row size (fun i j => mna i j + Gmin i j) i z = 0) -> forall i, (i < size)%nat -> z i = 0) ->
  (forall dx n, td dx n = 1) -> (0 < maxit)%nat -> o_std o = true ->
  exists x2 err, dc_solve_sys o (fun _ A b x => mdn_solver size solve false JT td check maxit A b (Some (size, x)))
      nv mna Gmin Ndc Ntran (S fuel) x1 = DRet (Some x2) err true 1 [(RStd, true)].
Proof.
  intros o nv mna Gmin Ndc Ntran solve JT td check maxit size fuel x1 SS SC REG TD MX OS.
  pose proof (newton_linear size solve JT td check maxit (sys_mat nv mna Gmin RStd) (sys_vec Ndc Ntran RStd) x1 TD SS MX) as Q.
  destruct (mdn_solver size solve false JT td check maxit _ _ (Some (size, x1))) as [x2 r c n| |e] eqn:NW.
  - destruct Q as (-> & -> & _). exists x2, (Some r). unfold dc_solve_sys. apply dc_solve_first; [exact OS|]. exact NW.
  - destruct Q as [b Q]. destruct (SC _ _ Q) as (z & Z1 & i & Hi & Z2). exfalso. apply Z2.
    apply REG; auto. intros k Hk. rewrite <- (Z1 k Hk). unfold row. apply rsum_ext. intros j _. unfold sys_mat. lra.
  - destruct Q.
Qed.
Lemma placed_senses : forall val t parts es, Forall2 (placed val t) parts es -> Forall dissipative parts -> senses_ok es.
Proof.
  intros val t parts es F H pre e post E.
  assert (IE : In e es) by (rewrite E; apply in_or_app; right; left; reflexivity).
  assert (Q : match e with EF _ _ _ _ _ | EH _ _ _ _ _ => False | _ => True end); [|destruct e; try exact Logic.I; destruct Q].
  clear E. induction F as [|p l parts es P F IH]; [destruct IE|]. destruct IE as [->|IE]; [|apply IH; [exact (Forall_inv_tail H)|exact IE]].
  apply Forall_inv in H. destruct p; cbn [placed dissipative] in *; try (destruct H; fail);
    destruct P as (i & j & -> & _); exact Logic.I.
Qed.

Theorem C196_found : forall fs other fuel filename parts t es, load fs other fuel filename = Ok (parts, t, es) ->
  (forall line l, other line = Ok l -> Forall word_names l) ->
  Forall (ac_sound parts) parts -> Forall dissipative parts -> no_source_loop parts ->
  forall solve JT check locked o tdo maxit fuel' top cmin gmin at_time inv modules has_module tstart tstep tstop x0 k,
  let n := op_size t es in
  (* the linear solver solves, and refuses singular matrices only *)
  (forall A b y, solve n A b = Some y -> forall i, (i < n)%nat -> row n A i y = b i) ->
  (forall A b, solve n A b = None -> exists z, (forall i, (i < n)%nat -> row n A i z = 0) /\ exists i, (i < n)%nat /\ z i <> 0) ->
  d_first tdo = false -> (0 < maxit)%nat -> o_std o = true -> t_maxiter top = 0%nat -> 0 < tstep ->
  0 <= gmin -> 0 < gmin \/ 0 < cmin ->
  tstart + INR k * tstep < tstop <= tstart + INR (S k) * tstep ->
  exists rows,
    tran_run solve JT check locked o tdo maxit (S fuel') top cmin gmin at_time inv modules has_module "TRAP" false t es tstart tstep tstop x0 (S k) = Ok (Some rows) /\
    map fst rows = map (fun j => tstart + INR (S j) * tstep) (seq 0 (S k)) /\
    (forall name, slower name = lit "t" -> tran_report t es rows name = Ok (map (fun j => tstart + INR (S j) * tstep) (seq 0 (S k)))).
Proof.
  intros fs other fuel filename parts t es LD OT SC DSP NLP solve JT check locked o tdo maxit fuel' top cmin gmin at_time inv modules has_module tstart tstep tstop x0 k
    n_ SS SN DF MX OS TM TS G0 GC INT. unfold n_ in *. clear n_.
  assert (OL : forall line l, other line = Ok l -> Forall lower_case l) by (intros line l H; eapply Forall_impl; [|exact (OT line l H)]; intros e He; apply He).
  assert (SO : Forall (proper parts) parts).
  { pose proof (load_lower _ _ _ _ _ _ _ OL LD) as LC. apply Forall_forall. rewrite Forall_forall in SC, LC. intros e H. split; [auto|apply SC; exact H]. }
  destruct (load_facts _ _ _ _ _ _ _ LD) as (G & NV & PL & ND & MEN).
  assert (REG : forall k, 0 < k -> tr_regular k gmin (Rmax 0 cmin) parts).
  { intros q Q. apply C196_regular; auto; [apply Rmax_l|]. destruct GC as [H|H]; [left; exact H|right]. eapply Rlt_le_trans; [exact H|apply Rmax_r]. }
  destruct (C04_assembly_succeeds (get_nodes_number t) es (placed_senses _ _ _ _ PL DSP)) as (m & N & GE).
  destruct (proper_wf written_dc t parts es G PL SO) as (W & SA & NH & NL).
  destruct (C07_dynamic_matrix cmin (get_nodes_number t) es W (tr_vdes t parts es PL SO ND) (tr_coupling t parts es PL SO SC)) as (D & GD & _).
  assert (SOLV : forall r c1 c0 time x, 0 < c1 -> exists y,
    tran_solve solve JT check locked o tdo maxit (S fuel') gmin at_time t es (reduce_mat m) (reduce_vec N) (reduce_mat D) r c1 c0 time x = Ok (Some y)).
  { intros r c1 c0 time x C. unfold tran_solve. unfold op_newton, ports. rewrite NL.
    edestruct (full_solve o (get_nodes_number t) (fun i j => reduce_mat m i j + c1 * reduce_mat D i j) (build_gmin_matrix (get_nodes_number t) gmin)
      (fun i => reduce_vec N i + time_term (get_nodes_number t) (fun e => at_time (list_ascii_of_string (lid e)) time) es i) (fun i => row (op_size t es) (reduce_mat D) i c0)
      (solve (op_size t es)) JT (fun dx it => get_td tdo (op_size t es) dx [] (Some it)) check maxit (op_size t es) fuel' x SS SN) as (y & er & E); [| |exact MX|exact OS|].
    - intros z Z. exact (system_regular t parts es G PL SO SC ND MEN cmin gmin m N D GE GD solve maxit SS SN MX REG c1 z C Z).
    - intros dx it. unfold get_td, td_first. rewrite DF. destruct (d_lock tdo); reflexivity.
    - rewrite E. exists y. reflexivity. }
  destruct (C22_fixed_step_points_guarded top inv (op_size t es) (get_nodes_number t) tstart tstep tstop (tran_start x0) _ k TS TM SOLV INT) as (rows & RUN & TIM).
  assert (RUN' : tran_run solve JT check locked o tdo maxit (S fuel') top cmin gmin at_time inv modules has_module "TRAP" false t es tstart tstep tstop x0 (S k) = Ok (Some rows)).
  { unfold tran_run. rewrite GE. cbn [bindr fst snd]. rewrite GD. cbn [bindr].
    change (choose_df has_module "TRAP") with (Ok DTrap). cbn [bindr method_of]. exact RUN. }
  exists rows. split; [exact RUN'|]. split; [exact TIM|]. intros name E.
  assert (OP : forall line l, other line = Ok l -> Forall plain_names l) by (intros line l H; eapply Forall_impl; [|exact (OT line l H)]; intros e He; apply He).
  pose proof (load_plain _ _ _ _ _ _ _ OP LD) as PN.
  destruct (result_names t parts es G PL SO PN ND MEN) as (ns & NS & LN & DN & PNS & IDS & DI & PIS & LEN & REGD & IDX).
  assert (SZ : op_size t es = (List.length ns + List.length (current_ids parts))%nat).
  { pose proof (grounded_number t G). unfold op_size. lia. }
  assert (NR : rows <> []) by (intros ->; discriminate TIM).
  destruct (tran_table t es ns (current_ids parts) rows NS IDS DN DI PNS PIS SZ NR) as (T0 & _). rewrite (T0 name E). f_equal. exact TIM.
Qed.
Print Assumptions C196_found.

(** * An example: 7 A out of a resistor and a capacitor in parallel, one step of 1 s, gmin 1/2 *)
Lemma solve1_none : forall A b, solve1 A b = None -> exists z, (forall i, (i < 1)%nat -> row 1 A i z = 0) /\ exists i, (i < 1)%nat /\ z i <> 0.
Proof.
  intros A b H. unfold solve1 in H. destruct (Req_EM_T _ 0) as [E|]; [|discriminate H]. exists (fun _ => 1). split.
  - intros i Hi. assert (i = 0)%nat by lia. subst i. unfold row. cbn [rsum]. rewrite E. ring.
  - exists 0%nat. split; [lia|lra].
Qed.
Example C196_example : forall JT check locked at_time inv modules has_module,
  load (fun _ => Some tank) (fun _ => Err NetlistParseError) 1 (lit "f") = Ok (tank_parts, shunt_t, tank_es) /\
  exists rows, tran_run (fun _ => solve1) JT check locked PropsDc.default_opts (mkTd false true 0) 20 30 tran_opts 0 (1 / 2) at_time inv modules has_module "TRAP" false
      shunt_t tank_es 0 1 1 None 1 = Ok (Some rows) /\
    tran_report shunt_t tank_es rows (lit "T") = Ok [1] /\ tran_report shunt_t tank_es rows (lit "VA") = Ok [- 14 / 5].
Proof.
  intros JT check locked at_time inv modules has_module. split; [exact tank_load|].
  assert (SO : Forall (ac_sound tank_parts) tank_parts) by (repeat constructor).
  assert (DS : Forall dissipative tank_parts) by (repeat constructor; cbn [dissipative]; unfold dR; simpl; lra).
  assert (NL : no_source_loop tank_parts).
  { intros I _ id a b dc ac f IN. cbn in IN. destruct IN as [IN|[IN|[IN|[]]]]; discriminate IN. }
  assert (SZ : op_size shunt_t tank_es = 1%nat) by reflexivity.
  destruct (C196_found _ _ _ _ _ _ _ tank_load ltac:(discriminate) SO DS NL (fun _ => solve1) JT check locked PropsDc.default_opts (mkTd false true 0) 20 29 tran_opts 0 (1 / 2)
    at_time inv modules has_module 0 1 1 None 0) as (rows & RUN & TIM & REP); try reflexivity; try (rewrite SZ; first [exact solve1_ok|exact solve1_none]); try lia; try lra.
  { simpl. lra. }
  assert (REG : forall k, 0 < k -> tr_regular k (1 / 2) (Rmax 0 0) tank_parts).
  { intros k K. apply C196_regular; auto; try lra. apply Rmax_l. }
  exists rows. split; [exact RUN|]. split.
  { rewrite (REP (lit "T") eq_refl). simpl. do 2 f_equal. ring. }
  destruct (C196_tran _ _ _ _ _ _ _ tank_load ltac:(discriminate) SO (fun _ => solve1) JT check locked PropsDc.default_opts (mkTd false true 0) 20 29 tran_opts 0 (1 / 2)
    at_time inv modules has_module "TRAP"%string false 0 1 1 None 1 rows) as (d & start & points & CD & MAR & T0 & _ & _ & V0 & _ & RT & RV & _);
    try reflexivity; try (rewrite SZ; first [exact solve1_ok|exact solve1_none]); try lia; try lra; [exact REG|exact RUN|].
  change (choose_df has_module "TRAP") with (Ok DTrap) in CD. injection CD as <-.
  assert (NA : In (lit "a") (node_list tank_parts)) by (left; reflexivity). assert (AZ : lit "a" <> lit "0") by discriminate.
  specialize (V0 (lit "a") (lit "VA") NA AZ eq_refl). rewrite (RV (lit "a") (lit "VA") NA AZ eq_refl).
  specialize (RT (lit "T") eq_refl). rewrite (REP (lit "T") eq_refl) in RT. injection RT as RT.
  destruct points as [|p [|q points]]; try discriminate RT. injection RT as RT. cbn [map]. do 2 f_equal.
  assert (Z : p_V start (lit "a") = 0) by (cbn in V0; injection V0 as V0; symmetry; exact V0).
  cbn [rev app marches] in MAR. destruct MAR as ((_ & (G0 & D0 & KCL & _) & SL & _) & _).
  specialize (SL _ NA AZ). cbn [slope_rule] in SL. specialize (KCL _ NA AZ).
  unfold tank_parts in KCL. cbn [tr_leaving] in KCL. unfold tr_leaving1 in KCL.
  cbn [first_end second_end tr_through through] in KCL.
  change (streqb (lit "a") (lit "a")) with true in KCL. change (streqb (lit "a") (lit "0")) with false in KCL. cbv iota in KCL.
  change (driven (fun id => at_time id (p_t p)) written_dc (PI (lit "i1") (lit "a") (lit "0") (Some (7, 0)%Z) (Some (2, 0)%Z) None)) with (dR (7, 0)%Z) in KCL.
  rewrite G0, D0, (Rmax_left 0 0) in KCL by lra. rewrite SL, <- RT, T0, Z in KCL.
  replace ((p_V p (lit "a") - 0) / (0 + 1 * 1 - 0)) with (p_V p (lit "a")) in KCL by field.
  assert (E1 : dR (1, 0)%Z = 1) by (unfold dR; simpl; lra). assert (E7 : dR (7, 0)%Z = 7) by (unfold dR; simpl; lra). rewrite E1, E7 in KCL.
  replace ((p_V p (lit "a") - 0) / 1) with (p_V p (lit "a")) in KCL by field. lra.
Qed.
