(** Property theorems about the report at the operating point (C146-C149). *)
From Coq Require Import Reals String Ascii List Bool Arith Lia Lra.
From Verif Require Import Base BaseFacts Nodes Circuit CircuitFacts Rsum Mna MnaSpec MnaFacts DynFacts Results PropsResults OpReport.
Import ListNotations.
Open Scope R_scope.

(** * Specification *)
Section Spec.
  Variable nl : string -> R -> R * R.

  (** The current through an element at an operating point where the sources have
      their DC values; [k] is the number among the voltage-defined elements. *)
  Definition op_current (nv : nat) (all : list lelem) (X : vec) (k : nat) (e : lelem) : R :=
    match e with
    | EI _ _ _ dc _ => dc
    | ENL id n1 n2 => fst (nl id (X n1 - X n2))
    | _ => dc_current nv all X k e
    end.
  (** What leaves node [n]. *)
  Fixpoint op_kcl (nv : nat) (all es : list lelem) (k n : nat) (X : vec) : R :=
    match es with
    | [] => 0
    | e :: es' =>
        let i := op_current nv all X k e in
        (if (term1 e =? n)%nat then i else 0) - (if (term2 e =? n)%nat then i else 0)
        + op_kcl nv all es' (if is_vde e then S k else k) n X
    end.
  (** What the elements say about their voltages. *)
  Definition op_law (X : vec) (e : lelem) : Prop :=
    match e with
    | EV _ n1 n2 dc _ => X n1 - X n2 = dc
    | EL _ n1 n2 _ => X n1 = X n2
    | _ => True
    end.
  (** Kirchhoff's laws, with the node 0 at 0 V. *)
  Definition op_solution (nv : nat) (es : list lelem) (X : vec) : Prop :=
    X 0%nat = 0 /\ (forall n, (1 <= n < nv)%nat -> op_kcl nv es es 0 n X = 0) /\ Forall (op_law X) es.

  (** Sum over the elements of voltage times current. *)
  Fixpoint vi (sel : lelem -> bool) (nv : nat) (all es : list lelem) (k : nat) (X : vec) : R :=
    match es with
    | [] => 0
    | e :: es' =>
        (if sel e then (X (term1 e) - X (term2 e)) * op_current nv all X k e else 0)
        + vi sel nv all es' (if is_vde e then S k else k) X
    end.

  Lemma tellegen_sum : forall nv all es k X, wf_circ nv es ->
    vi (fun _ => true) nv all es k X = rsum nv (fun n => X n * op_kcl nv all es k n X).
  Proof.
    intros nv all es. induction es as [|e es IH]; intros k X W; simpl.
    - symmetry. apply rsum_0. intros. ring.
    - inversion W as [|? ? We Wes]; subst. destruct We as (W1 & W2 & _).
      rewrite IH by auto. set (i := op_current nv all X k e). symmetry.
      rewrite (rsum_ext nv _ (fun n => ((if (n =? term1 e)%nat then X n * i else 0) - (if (n =? term2 e)%nat then X n * i else 0))
                 + X n * op_kcl nv all es (if is_vde e then S k else k) n X)).
      + rewrite rsum_plus, rsum_minus, (rsum_single nv (term1 e) (fun n => X n * i)), (rsum_single nv (term2 e) (fun n => X n * i)) by auto. ring.
      + intros n _. rewrite (Nat.eqb_sym n (term1 e)), (Nat.eqb_sym n (term2 e)).
        destruct (term1 e =? n)%nat, (term2 e =? n)%nat; ring.
  Qed.
  Lemma tellegen : forall nv es X, wf_circ nv es -> op_solution nv es X -> vi (fun _ => true) nv es es 0 X = 0.
  Proof.
    intros nv es X W (X0 & K & _). rewrite tellegen_sum by auto. apply rsum_0. intros n Hn.
    destruct n as [|n]; [rewrite X0; ring|]. rewrite K by lia. ring.
  Qed.

  Definition rep_power (r : rep) : R :=
    match r with RepR _ _ _ p | RepV _ _ p | RepI _ _ p | RepD _ _ p _ => p | RepC _ _ _ | RepL _ _ _ => 0 end.
  Definition is_controlled (e : lelem) : bool :=
    match e with EE _ _ _ _ _ _ | EG _ _ _ _ _ _ | EF _ _ _ _ _ | EH _ _ _ _ _ => true | _ => false end.
  Definition reported (e : lelem) : bool :=
    match e with ER _ _ _ _ | EC _ _ _ _ | EL _ _ _ _ | EV _ _ _ _ _ | EI _ _ _ _ _ | ENL _ _ _ => true | _ => false end.
End Spec.

Lemma port_v_diff : forall x n1 n2, port_v x n1 n2 = with_ground x n1 - with_ground x n2.
Proof.
  intros x n1 n2. unfold port_v, with_ground. destruct n1, n2; simpl; rewrite ?Nat.sub_0_r; ring.
Qed.

(** * C146 *)

(** The values in the line of an element are its voltage and current, and what
    follows from them. *)
Definition right_line (nl : string -> R -> R * R) (v i : R) (e : lelem) (r : rep) : Prop :=
  match e, r with
  | ER _ _ _ ohm, RepR ohm' v' i' p => ohm' = ohm /\ v' = v /\ i' = i /\ p = v * i
  | EC _ _ _ c, RepC v' q en => v' = v /\ q = c * v /\ en = c * v ^ 2 / 2
  | EL _ _ _ l, RepL phi i' en => i' = i /\ phi = l * i /\ en = l * i ^ 2 / 2
  | EV _ _ _ _ _, RepV v' i' p => v' = v /\ i' = i /\ p = v * i
  | EI _ _ _ _ _, RepI v' i' p => v' = v /\ i' = i /\ p = v * i
  | ENL id _ _, RepD v' i' p g => v' = v /\ i' = i /\ p = v * i /\ g = snd (nl id v)
  | _, _ => False
  end.

Lemma report_right : forall nl nv_1 pre e post x,
  let es := (pre ++ e :: post)%list in
  NoDup (map (fun e => upper (lid e)) (vdes es)) -> op_law (with_ground x) e -> reported e = true ->
  exists r, get_op_info nl nv_1 es x e = Some (Ok r) /\
    right_line nl (with_ground x (term1 e) - with_ground x (term2 e)) (op_current nl (S nv_1) es (with_ground x) (n_vde pre) e) e r.
Proof.
  intros nl nv_1 pre e post x es ND L RP.
  assert (WG : forall q, with_ground x (S nv_1 + q)%nat = x (nv_1 + q)%nat) by reflexivity.
  assert (IX : is_vde e = true -> vde_index es (lid e) = Ok (n_vde pre)).
  { intros V. apply (nth_vde_index es (lid e) (n_vde pre) e ND); [|reflexivity].
    unfold vdes, es, n_vde. rewrite filter_app. rewrite nth_error_app2 by lia. rewrite Nat.sub_diag. simpl. rewrite V. reflexivity. }
  destruct e as [id n1 n2 r|id n1 n2 c|id n1 n2 l|id l1 l2 k m|id n1 n2 dc td|id n1 n2 dc td|id n1 n2 s1 s2 a|id n1 n2 s1 s2 a|id n1 n2 src a|id n1 n2 src a|id n1 n2];
    try discriminate RP; simpl get_op_info; cbn [lid is_vde] in IX; rewrite ?IX by reflexivity; cbn [bindr];
    (eexists; split; [reflexivity|]); cbn [right_line op_current dc_current term1 term2] in *; rewrite ?port_v_diff, ?WG.
  - repeat split. unfold Rdiv. ring.
  - repeat split; field.
  - repeat split; field.
  - cbn [op_law] in L. rewrite L. repeat split.
  - repeat split.
  - repeat split.
Qed.

Lemma reports_right : forall nl nv_1 all x es pre, all = (pre ++ es)%list ->
  NoDup (map (fun e => upper (lid e)) (vdes all)) -> Forall (op_law (with_ground x)) es ->
  exists l, reports nl nv_1 all x es = Ok l /\
    map fst l = map lid (filter reported es) /\
    lsum (fun ir => rep_power (snd ir)) l =
      vi nl (fun e => negb (is_controlled e)) (S nv_1) all es (n_vde pre) (with_ground x).
Proof.
  intros nl nv_1 all x es. induction es as [|e es IH]; intros pre E ND F; [exists []; repeat split|].
  inversion F as [|? ? Fe Fs]; subst.
  destruct (IH (pre ++ [e])%list) as (l & R1 & R2 & R3); [rewrite <- app_assoc; reflexivity|exact ND|exact Fs|].
  rewrite n_vde_app, n_vde_cons in R3. change (n_vde []) with 0%nat in R3.
  assert (KE : (n_vde pre + ((if is_vde e then 1 else 0) + 0))%nat = if is_vde e then S (n_vde pre) else n_vde pre) by (destruct (is_vde e); lia).
  rewrite KE in R3.
  destruct (reported e) eqn:RP.
  - destruct (report_right nl nv_1 pre e es x ND Fe RP) as (r & G & RL).
    exists ((lid e, r) :: l). cbn [reports]. rewrite G. cbn [bindr]. rewrite R1. cbn [bindr]. split; [reflexivity|].
    cbn [filter]. rewrite RP. cbn [map fst]. split; [rewrite R2; reflexivity|].
    cbn [lsum snd]. rewrite R3. cbn [vi]. f_equal.
    destruct e; try discriminate RP; destruct r; cbn [right_line is_controlled negb rep_power] in *; try contradiction.
    + destruct RL as (_ & _ & _ & ->). reflexivity.
    + simpl. ring.
    + cbn [op_law] in Fe. cbn [term1 term2]. rewrite Fe. ring.
    + destruct RL as (_ & _ & ->). reflexivity.
    + destruct RL as (_ & _ & ->). reflexivity.
    + destruct RL as (_ & _ & -> & _). reflexivity.
  - exists l. assert (G : get_op_info nl nv_1 (pre ++ e :: es) x e = None) by (destruct e; try discriminate RP; reflexivity).
    cbn [reports]. rewrite G. split; [exact R1|]. cbn [filter]. rewrite RP. split; [exact R2|].
    rewrite R3. cbn [vi].
    destruct e; try discriminate RP; cbn [is_controlled negb is_vde op_current dc_current term1 term2]; ring.
Qed.

Theorem C146_lines : forall nl nv_1 pre e post x,
  let es := (pre ++ e :: post)%list in
  NoDup (map (fun e => upper (lid e)) (vdes es)) -> op_solution nl (S nv_1) es (with_ground x) -> reported e = true ->
  exists r, get_op_info nl nv_1 es x e = Some (Ok r) /\
    right_line nl (with_ground x (term1 e) - with_ground x (term2 e)) (op_current nl (S nv_1) es (with_ground x) (n_vde pre) e) e r.
Proof.
  intros nl nv_1 pre e post x es ND (_ & _ & L) RP. apply report_right; auto.
  rewrite Forall_forall in L. apply L. unfold es. apply in_or_app. right. left. reflexivity.
Qed.
Print Assumptions C146_lines.

Lemma vi_split : forall nl sel nv all es k X,
  vi nl (fun _ => true) nv all es k X = vi nl sel nv all es k X + vi nl (fun e => negb (sel e)) nv all es k X.
Proof.
  intros nl sel nv all es. induction es as [|e es IH]; intros k X; cbn [vi]; [ring|].
  rewrite IH. destruct (sel e); simpl; ring.
Qed.

(** The powers in the table add up to what the controlled sources, which have no
    line, deliver; to zero in a circuit without them. *)
Theorem C146_powers_balance : forall nl nv_1 es x,
  wf_circ (S nv_1) es -> NoDup (map (fun e => upper (lid e)) (vdes es)) -> op_solution nl (S nv_1) es (with_ground x) ->
  exists l, reports nl nv_1 es x es = Ok l /\ map fst l = map lid (filter reported es) /\
    lsum (fun ir => rep_power (snd ir)) l = - vi nl is_controlled (S nv_1) es es 0 (with_ground x) /\
    (Forall (fun e => is_controlled e = false) es -> lsum (fun ir => rep_power (snd ir)) l = 0).
Proof.
  intros nl nv_1 es x W ND SO. destruct (reports_right nl nv_1 es x es [] eq_refl ND) as (l & A & B & C); [destruct SO as (_ & _ & L); exact L|].
  change (n_vde []) with 0%nat in C.
  pose proof (tellegen nl (S nv_1) es (with_ground x) W SO) as T.
  rewrite (vi_split nl is_controlled) in T.
  assert (P : lsum (fun ir => rep_power (snd ir)) l = - vi nl is_controlled (S nv_1) es es 0 (with_ground x)) by (rewrite C; lra).
  exists l. split; [exact A|]. split; [exact B|]. split; [exact P|].
  intros NC. rewrite P. assert (Z : forall es' k, Forall (fun e => is_controlled e = false) es' -> vi nl is_controlled (S nv_1) es es' k (with_ground x) = 0).
  { clear. induction es' as [|e es' IH]; intros k F; [reflexivity|]. inversion F; subst. cbn [vi]. rewrite H1, IH by assumption. ring. }
  rewrite Z by exact NC. ring.
Qed.
Print Assumptions C146_powers_balance.

Local Open Scope string_scope.
(** 6 V across 1 and 2 ohm in series, with a current source of 1 A into ground. *)
Definition ex_circ : list lelem := [EV "V1" 1 0 6 false; ER "R1" 1 2 1; ER "R2" 2 0 2; EI "I1" 2 0 3 false; EL "L1" 2 3 5; EC "C1" 3 0 7].
Definition ex_x : vec := fun k => nth k [6; 2; 2; -4; 0] 0.
Example C146_example : op_solution (fun _ _ => (0, 0)) 4 ex_circ (with_ground ex_x) /\
  reports (fun _ _ => (0, 0)) 3 ex_circ ex_x ex_circ =
    Ok [("V1", RepV 6 (-4) (6 * -4)); ("R1", RepR 1 (6 - 2) ((6 - 2) / 1) ((6 - 2) ^ 2 / 1)); ("R2", RepR 2 2 (2 / 2) (2 ^ 2 / 2));
        ("I1", RepI 2 3 (2 * 3)); ("L1", RepL (5 * 0) 0 (1/2 * 5 * 0 ^ 2)); ("C1", RepC 2 (2 * 7) (1/2 * 2 ^ 2 * 7))].
Proof.
  split; [|reflexivity]. split; [reflexivity|]. split.
  - intros n Hn. assert (C : n = 1%nat \/ n = 2%nat \/ n = 3%nat) by lia.
    destruct C as [ -> |[ -> | -> ]]; unfold ex_circ, ex_x; simpl; lra.
  - unfold ex_circ. repeat constructor; unfold ex_x; simpl; lra.
Qed.

(** * C147 *)

(** The total power reported is what the resistors and the nonlinear elements
    dissipate. *)
Definition is_sink (e : lelem) : bool := match e with ER _ _ _ _ | ENL _ _ _ => true | _ => false end.
Lemma delivered_vi : forall nl nv all es k X,
  delivered nv all es X k = - vi nl is_source nv all es k X.
Proof.
  intros nl nv all es. induction es as [|e es IH]; intros k X; cbn [delivered vi]; [ring|].
  rewrite IH. destruct e; cbn [is_source src_current op_current]; ring.
Qed.
Lemma vi_rest : forall nl nv all es k X, Forall (op_law X) es ->
  vi nl (fun e => negb (is_source e)) nv all es k X = vi nl is_sink nv all es k X.
Proof.
  intros nl nv all es. induction es as [|e es IH]; intros k X F; cbn [vi]; [reflexivity|]. inversion F as [|? ? Fe Fs]; subst.
  rewrite IH by assumption. f_equal.
  destruct e; cbn [is_source negb is_sink op_current dc_current term1 term2 op_law] in *; try reflexivity; try ring.
  rewrite Fe. ring.
Qed.
Theorem C147_total_power : forall nl nv_1 es x,
  wf_circ (S nv_1) es -> NoDup (map (fun e => upper (lid e)) (vdes es)) -> op_solution nl (S nv_1) es (with_ground x) ->
  Forall (fun e => is_controlled e = false) es ->
  exists l, reports nl nv_1 es x es = Ok l /\
    tot_power nv_1 es x = Ok (vi nl is_sink (S nv_1) es es 0 (with_ground x)) /\
    vi nl is_sink (S nv_1) es es 0 (with_ground x) =
      lsum (fun ir => match snd ir with RepR _ _ _ p | RepD _ _ p _ => p | _ => 0 end) l.
Proof.
  intros nl nv_1 es x W ND SO NC.
  assert (FL : Forall (op_law (with_ground x)) es) by (destruct SO as (_ & _ & S); exact S).
  assert (P : tot_power nv_1 es x = Ok (delivered (S nv_1) es es (with_ground x) 0)).
  { apply C41_power_guarded; [exact ND| |].
    - intros pre id n1 n2 src a post E. exfalso. rewrite E in NC. rewrite Forall_forall in NC.
      specialize (NC (EH id n1 n2 src a)). discriminate NC. apply in_or_app. right. left. reflexivity.
    - rewrite Forall_forall in *. intros e He. specialize (NC e He). destruct e; try exact I; discriminate NC. }
  pose proof (tellegen nl (S nv_1) es (with_ground x) W SO) as T. rewrite (vi_split nl is_source), vi_rest in T by exact FL.
  assert (Q : forall es' pre, es = (pre ++ es')%list -> exists l, reports nl nv_1 es x es' = Ok l /\
    vi nl is_sink (S nv_1) es es' (n_vde pre) (with_ground x) =
      lsum (fun ir => match snd ir with RepR _ _ _ p | RepD _ _ p _ => p | _ => 0 end) l).
  { induction es' as [|e es' IH]; intros pre E; [exists []; split; reflexivity|].
    destruct (IH (pre ++ [e])%list) as (l & R1 & R3); [rewrite <- app_assoc; exact E|].
    rewrite n_vde_app, n_vde_cons in R3. change (n_vde []) with 0%nat in R3.
    assert (KE : (n_vde pre + ((if is_vde e then 1 else 0) + 0))%nat = if is_vde e then S (n_vde pre) else n_vde pre) by (destruct (is_vde e); lia).
    rewrite KE in R3.
    assert (IN : In e es) by (rewrite E; apply in_or_app; right; left; reflexivity).
    destruct (reported e) eqn:RP.
    - assert (OL : op_law (with_ground x) e) by (rewrite Forall_forall in FL; apply FL; exact IN).
      assert (ND' : NoDup (map (fun e => upper (lid e)) (vdes (pre ++ e :: es')))) by (rewrite <- E; exact ND).
      destruct (report_right nl nv_1 pre e es' x ND' OL RP) as (r & G & RL). rewrite <- E in G, RL.
      exists ((lid e, r) :: l). cbn [reports]. rewrite G. cbn [bindr]. rewrite R1. split; [reflexivity|].
      cbn [lsum snd vi]. rewrite <- R3. f_equal.
      destruct e; try discriminate RP; destruct r; cbn [right_line is_sink] in *; try contradiction; try reflexivity.
      + destruct RL as (_ & _ & _ & ->). reflexivity.
      + destruct RL as (_ & _ & -> & _). reflexivity.
    - exists l. assert (G : get_op_info nl nv_1 es x e = None) by (destruct e; try discriminate RP; reflexivity).
      cbn [reports]. rewrite G. split; [exact R1|]. rewrite <- R3. cbn [vi].
      destruct e; try discriminate RP; cbn [is_sink]; ring. }
  destruct (Q es [] eq_refl) as (l & A & B). exists l. split; [exact A|].
  rewrite P, (delivered_vi nl). split; [f_equal; lra|exact B].
Qed.
Print Assumptions C147_total_power.
Example C147_example : tot_power 3 ex_circ ex_x = Ok (0 - (6 - 0) * -4 - (2 - 0) * 3) /\ 0 - (6 - 0) * -4 - (2 - 0) * 3 = (6 - 2) ^ 2 / 1 + 2 ^ 2 / 2.
Proof. split; [reflexivity|lra]. Qed.

(** * C148 *)

(** The flux is the one of the circuit equations for an inductor without couplings. *)
Theorem C148_flux : forall nl nv_1 pre id n1 n2 l post x,
  let es := (pre ++ EL id n1 n2 l :: post)%list in
  NoDup (map (fun e => upper (lid e)) (vdes es)) -> 
  Forall (fun e => match e with EK _ l1 l2 _ _ => l1 <> id /\ l2 <> id | _ => True end) es ->
  exists phi i en, get_op_info nl nv_1 es x (EL id n1 n2 l) = Some (Ok (RepL phi i en)) /\
    phi = l * with_ground x (S nv_1 + n_vde pre)%nat + flux (S nv_1) es (with_ground x) id /\
    en = 1/2 * phi * i.
Proof.
  intros nl nv_1 pre id n1 n2 l post x es ND NK.
  assert (IX : vde_index es id = Ok (n_vde pre)).
  { apply (nth_vde_index es id (n_vde pre) (EL id n1 n2 l) ND); [|reflexivity].
    unfold vdes, es, n_vde. rewrite filter_app. rewrite nth_error_app2 by lia. rewrite Nat.sub_diag. reflexivity. }
  unfold get_op_info. rewrite IX. cbn [bindr]. do 3 eexists. split; [reflexivity|]. split.
  - assert (Z : flux (S nv_1) es (with_ground x) id = 0).
    { unfold flux. apply lsum_0. intros e He. rewrite Forall_forall in NK. specialize (NK e He). destruct e; auto.
      destruct NK as (N1 & N2). apply String.eqb_neq in N1, N2. rewrite N1, N2. reflexivity. }
    rewrite Z. simpl with_ground. ring.
  - ring.
Qed.
Print Assumptions C148_flux.
(** With a coupling it is not: the share of the other inductor is missing. *)
Definition ex_coupled : list lelem :=
  [EI "I1" 0 1 1 false; EL "L1" 1 0 2; EI "I2" 0 2 1 false; EL "L2" 2 0 3; EK "K1" "L1" "L2" (1/2) 1].
Theorem C148_coupled_refuted : exists nv_1 es x id n1 n2 l phi i en,
  wf_circ (S nv_1) es /\ NoDup (map (fun e => upper (lid e)) (vdes es)) /\ Forall (wf_coupling es) es /\
  op_solution (fun _ _ => (0, 0)) (S nv_1) es (with_ground x) /\ In (EL id n1 n2 l) es /\
  get_op_info (fun _ _ => (0, 0)) nv_1 es x (EL id n1 n2 l) = Some (Ok (RepL phi i en)) /\
  phi <> l * i + flux (S nv_1) es (with_ground x) id.
Proof.
  exists 2%nat, ex_coupled, (fun k => nth k [0; 0; 1; 1] 0), "L1", 1%nat, 0%nat, 2, (2 * 1), 1, (1/2 * 2 * 1 ^ 2).
  split; [unfold wf_circ, ex_coupled; repeat constructor; simpl; try lia; discriminate|].
  split; [simpl; repeat constructor; simpl; intuition discriminate|].
  split; [unfold ex_coupled; repeat constructor; simpl; auto;
          [exists (EL "L1" 1 0 2)|exists (EL "L2" 2 0 3)|discriminate]; simpl; tauto|].
  split.
  { split; [reflexivity|]. split.
    - intros n Hn. assert (C : n = 1%nat \/ n = 2%nat) by lia. destruct C as [ -> | -> ]; unfold ex_coupled; simpl; lra.
    - unfold ex_coupled. repeat constructor; simpl; lra. }
  split; [right; left; reflexivity|]. split; [reflexivity|].
  unfold flux, cur. simpl. lra.
Qed.
Print Assumptions C148_coupled_refuted.

(** * C149 *)

(** The table of an id: its first letter, for a transistor the id. *)
Definition table_of (id : string) : string :=
  match id with
  | EmptyString => EmptyString
  | String c _ => if String.eqb (String (upper_ascii c) EmptyString) "M" then upper id else String (upper_ascii c) EmptyString
  end.
Definition transistor (id : string) : bool :=
  match id with EmptyString => false | String c _ => String.eqb (String (upper_ascii c) EmptyString) "M" end.

Lemma table_of_transistor : forall id, transistor id = true -> table_of id = upper id.
Proof. intros [|c id] T; [discriminate T|]. unfold table_of, transistor in *. rewrite T. reflexivity. Qed.

Lemma upper_ascii_idem : forall c, upper_ascii (upper_ascii c) = upper_ascii c.
Proof. intros [[] [] [] [] [] [] [] []]; reflexivity. Qed.

(** Ids with the same table begin with the same letter. *)
Lemma table_same : forall id id', table_of id = table_of id' -> transistor id = transistor id'.
Proof.
  intros [|c id] [|c' id']; unfold table_of, transistor; simpl upper; auto.
  - destruct (String.eqb (String (upper_ascii c') "") "M"); discriminate.
  - destruct (String.eqb (String (upper_ascii c) "") "M"); discriminate.
  - destruct (String.eqb (String (upper_ascii c) "") "M") eqn:E, (String.eqb (String (upper_ascii c') "") "M") eqn:E'; auto; intros H; exfalso.
    + injection H as H _. rewrite H in E. congruence.
    + injection H as H _. rewrite H in E. congruence.
Qed.

Lemma group1_ok : forall {A} (d : list (string * list A)) id r, id <> "" ->
  exists d', group1 d (id, r) = Ok d' /\ forall key, dget String.eqb d' key =
    if String.eqb (table_of id) key
    then Some (if transistor id then [r] else match dget String.eqb d key with Some l => l ++ [r] | None => [r] end)%list
    else dget String.eqb d key.
Proof.
  intros A d [|c id] r H; [contradiction|]. unfold group1, table_of, transistor. cbn [fst snd].
  destruct (String.eqb (String (upper_ascii c) "") "M").
  - eexists. split; [reflexivity|]. intros key. rewrite (dget_dset String.eqb String.eqb_spec), (String.eqb_sym key). reflexivity.
  - eexists. split; [reflexivity|]. intros key. rewrite (dget_dset String.eqb String.eqb_spec), (String.eqb_sym key).
    destruct (String.eqb (String (upper_ascii c) "") key) eqn:E; [|reflexivity].
    apply String.eqb_eq in E. rewrite E. reflexivity.
Qed.

(** Every line is in the table of its id, in the order of the circuit, and nothing
    else is. *)
Theorem C149_tables : forall (A : Type) (l : list (string * A)),
  Forall (fun ir => fst ir <> "") l ->
  (forall i j a b, nth_error l i = Some a -> nth_error l j = Some b ->
     transistor (fst a) = true -> upper (fst a) = upper (fst b) -> i = j) ->
  exists d, group [] l = Ok d /\ forall key,
    dget String.eqb d key =
      match map snd (filter (fun ir => String.eqb (table_of (fst ir)) key) l) with [] => None | rs => Some rs end.
Proof.
  intros A l.
  assert (G : forall todo done (d : list (string * list A)), Forall (fun ir => fst ir <> "") todo ->
    (forall i j a b, nth_error (done ++ todo) i = Some a -> nth_error (done ++ todo) j = Some b ->
       transistor (fst a) = true -> upper (fst a) = upper (fst b) -> i = j) ->
    (forall key, dget String.eqb d key =
      match map snd (filter (fun ir => String.eqb (table_of (fst ir)) key) done) with [] => None | rs => Some rs end) ->
    exists d', group d todo = Ok d' /\ forall key, dget String.eqb d' key =
      match map snd (filter (fun ir => String.eqb (table_of (fst ir)) key) (done ++ todo)) with [] => None | rs => Some rs end).
  { induction todo as [|[id r] todo IH]; intros done d F U D.
    - exists d. split; [reflexivity|]. rewrite app_nil_r. exact D.
    - inversion F as [|? ? Fe Fs]; subst. cbn [fst] in Fe. destruct (group1_ok d id r Fe) as (d1 & E & G1).
      cbn [group]. rewrite E. cbn [bindr].
      assert (AS : (done ++ (id, r) :: todo)%list = ((done ++ [(id, r)]) ++ todo)%list) by (rewrite <- app_assoc; reflexivity).
      rewrite AS in *. apply IH; [exact Fs|exact U|].
      intros key. rewrite G1, D, filter_app, map_app. cbn [filter fst].
      destruct (String.eqb (table_of id) key) eqn:K; cbn [map snd]; [|rewrite app_nil_r; reflexivity].
      destruct (transistor id) eqn:T.
      + assert (Z : filter (fun ir => String.eqb (table_of (fst ir)) key) done = []).
        { destruct (filter (fun ir => String.eqb (table_of (fst ir)) key) done) as [|b z] eqn:Z; [reflexivity|exfalso].
          assert (IN : In b done /\ String.eqb (table_of (fst b)) key = true) by (apply (filter_In (fun ir => String.eqb (table_of (fst ir)) key)); rewrite Z; left; reflexivity).
          destruct IN as (IN & K'). apply String.eqb_eq in K, K'. rewrite <- K in K'.
          assert (TB : transistor (fst b) = true) by (rewrite (table_same _ _ K'); exact T).
          rewrite (table_of_transistor _ TB), (table_of_transistor _ T) in K'.
          destruct (In_nth_error _ _ IN) as (j & J). assert (LJ : (j < length done)%nat) by (apply nth_error_Some; congruence).
          assert (L : j = length done); [|lia].
          apply (U j (length done) b (id, r)); auto.
          - rewrite <- app_assoc, nth_error_app1 by exact LJ. exact J.
          - rewrite <- app_assoc, nth_error_app2, Nat.sub_diag by lia. reflexivity. }
        rewrite Z. reflexivity.
      + destruct (filter (fun ir => String.eqb (table_of (fst ir)) key) done) as [|b z]; [reflexivity|].
        reflexivity. }
  intros F U. apply (G l []); auto.
Qed.
Print Assumptions C149_tables.
Example C149_example : group [] [("R1", 1%nat); ("m2", 2%nat); ("r2", 3%nat); ("M3", 4%nat); ("V1", 5%nat)] =
  Ok [("R", [1; 3]%nat); ("M2", [2%nat]); ("M3", [4%nat]); ("V", [5%nat])].
Proof. reflexivity. Qed.
