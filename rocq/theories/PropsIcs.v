(** Property theorems about initial vectors (C34, C35). *)
From Coq Require Import Ascii String Reals List Bool Arith Lia Lra.
From Verif Require Import Base BaseFacts Str Nodes Rsum Ics.
Import ListNotations.
Open Scope R_scope.

(** * C34 *)

(** Specification: the way to write a label. *)
Definition blank (s : str) : Prop := Forall (fun c => is_ws c = true) s.
Definition word (s : str) : Prop := s <> [] /\ Forall (fun c => is_alnum c = true) s.
Definition label_of (up low : ascii) (name label : str) : Prop :=
  exists c a b d, (c = up \/ c = low) /\ blank a /\ blank b /\ blank d /\ word name /\
  label = c :: (a ++ "("%char :: b ++ name ++ d ++ [")"%char])%list.

(** The unknown named by a label, with ground as number 0, in a circuit with node
    table [t] and voltage-defined elements [vdes]. *)
Inductive denotes (t : ntab) (vdes : list str) : str -> nat -> Prop :=
| den_v : forall label n i, label_of "V" "v" n label ->
    ext_node_to_int t (string_of_list_ascii n) = Ok i -> denotes t vdes label i
| den_i : forall label e e' k, label_of "I" "i" e label ->
    nth_error vdes k = Some e' -> slower e' = slower e ->
    (forall j e'', (j < k)%nat -> nth_error vdes j = Some e'' -> slower e'' <> slower e) ->
    denotes t vdes label (get_nodes_number t + k).

(** ** Lemmas *)
Lemma lstrip_blank : forall a s, blank a -> lstrip (a ++ s) = lstrip s.
Proof. induction 1 as [|c a H _ IH]; simpl; [reflexivity|]. rewrite H. exact IH. Qed.
Lemma lstrip_nows : forall c s, is_ws c = false -> lstrip (c :: s) = c :: s.
Proof. intros c s H. simpl. rewrite H. reflexivity. Qed.

Lemma span_word : forall p n s, Forall (fun c => p c = true) n ->
  match s with [] => True | c :: _ => p c = false end -> span p (n ++ s) = (n, s).
Proof.
  induction n as [|c n IH]; intros s H E; simpl.
  - destruct s as [|c s]; [reflexivity|]. simpl. rewrite E. reflexivity.
  - inversion H; subst. rewrite H2, IH; auto.
Qed.

Lemma alnum_not_ws : forall c, is_alnum c = true -> is_ws c = false.
Proof. intros c. destruct c as [[] [] [] [] [] [] [] []]; vm_compute; congruence. Qed.
Lemma ws_not_alnum : forall c, is_ws c = true -> is_alnum c = false.
Proof. intros c H. destruct (is_alnum c) eqn:A; [|reflexivity]. apply alnum_not_ws in A. congruence. Qed.

Lemma match_label : forall c low a b n d, lower_ascii c = low -> blank a -> blank b -> blank d -> word n ->
  match_here low (c :: (a ++ "("%char :: b ++ n ++ d ++ [")"%char])%list) = Some n.
Proof.
  intros c low a b n d C A B D [N W]. cbn [match_here]. rewrite C, Ascii.eqb_refl, (lstrip_blank a) by exact A.
  rewrite lstrip_nows by reflexivity. rewrite (lstrip_blank b) by exact B.
  assert (E : lstrip (n ++ d ++ [")"%char]) = (n ++ d ++ [")"%char])%list).
  { destruct n as [|x n]; [congruence|]. simpl app. apply lstrip_nows. apply alnum_not_ws. inversion W; auto. }
  rewrite E, span_word; auto.
  - rewrite (lstrip_blank d) by exact D. destruct n; [congruence|reflexivity].
  - destruct d as [|x d]; [reflexivity|]. simpl. inversion D; subst. apply ws_not_alnum. assumption.
Qed.

Lemma search_label : forall up low n label, lower_ascii up = low -> lower_ascii low = low ->
  label_of up low n label -> re_search low label = Some n.
Proof.
  intros up low n label U L (c & a & b & d & C & A & B & D & W & ->). cbn [re_search].
  rewrite match_label; auto. destruct C as [->| ->]; assumption.
Qed.

(** A match needs an opening parenthesis further on. *)
Lemma match_paren : forall c s n, match_here c s = Some n -> In "("%char (tl s).
Proof.
  intros c [|x s] n H; [discriminate|]. simpl in H. destruct (Ascii.eqb (lower_ascii x) c); [|discriminate].
  assert (G : forall l s2, lstrip l = "("%char :: s2 -> In "("%char l).
  { clear. induction l as [|y l IH]; intros s2 E; simpl in E; [discriminate|].
    destruct (is_ws y); [right; eapply IH; eauto|]. injection E as -> _. left. reflexivity. }
  simpl tl. destruct (lstrip s) as [|y s2] eqn:E; [discriminate|].
  assert (y = "("%char) by (destruct y as [[] [] [] [] [] [] [] []]; try discriminate H; reflexivity).
  subst y. eapply G; eauto.
Qed.
Lemma search_paren : forall c s, ~ In "("%char s -> re_search c s = None.
Proof.
  intros c s. induction s as [|x s IH]; intros H; [reflexivity|]. cbn [re_search].
  destruct (match_here c (x :: s)) as [n|] eqn:M.
  - apply match_paren in M. exfalso. apply H. right. exact M.
  - apply IH. intros K. apply H. right. exact K.
Qed.

Lemma no_paren_blank : forall s, blank s -> ~ In "("%char s.
Proof. intros s B H. unfold blank in B. rewrite Forall_forall in B. apply B in H. discriminate. Qed.
Lemma no_paren_word : forall s, word s -> ~ In "("%char s.
Proof. intros s [_ B] H. rewrite Forall_forall in B. apply B in H. discriminate. Qed.

(** A current label is not taken for a voltage label. *)
Lemma search_other : forall n label, label_of "I" "i" n label -> re_search "v"%char label = None.
Proof.
  intros n label (c & a & b & d & C & A & B & D & W & ->). cbn [re_search].
  assert (M : match_here "v" (c :: (a ++ "("%char :: b ++ n ++ d ++ [")"%char])%list) = None).
  { cbn [match_here]. destruct C as [->| ->]; reflexivity. }
  rewrite M. clear M.
  induction A as [|x a X A IH].
  - simpl app. cbn [re_search]. cbn [match_here]. cbn. apply search_paren. intros H.
    rewrite !in_app_iff in H. destruct H as [H|[H|[H|[H|[]]]]].
    + apply (no_paren_blank b B H).
    + apply (no_paren_word n W H).
    + apply (no_paren_blank d D H).
    + discriminate.
  - simpl app. cbn [re_search].
    assert (M : match_here "v" (x :: (a ++ "("%char :: b ++ n ++ d ++ [")"%char])%list) = None).
    { cbn [match_here]. destruct (Ascii.eqb_spec (lower_ascii x) "v"%char) as [E|]; [|reflexivity].
      exfalso. clear -X E. destruct x as [[] [] [] [] [] [] [] []]; try discriminate E; discriminate X. }
    rewrite M. exact IH.
Qed.

Lemma streqb_refl : forall a, streqb a a = true.
Proof. intros. unfold streqb. destruct (list_eq_dec ascii_dec a a); congruence. Qed.
Lemma streqb_neq : forall a b, a <> b -> streqb a b = false.
Proof. intros. unfold streqb. destruct (list_eq_dec ascii_dec a b); congruence. Qed.

Lemma index_of_spec : forall names x k0 k, nth_error names k = Some x ->
  (forall j y, (j < k)%nat -> nth_error names j = Some y -> y <> x) -> index_of names x k0 = Ok (k0 + k)%nat.
Proof.
  induction names as [|y names IH]; intros x k0 k N F; [destruct k; discriminate|]. simpl.
  destruct k as [|k].
  - injection N as ->. rewrite streqb_refl. f_equal. lia.
  - rewrite streqb_neq by (apply (F 0%nat y); [lia|reflexivity]).
    rewrite (IH x (S k0) k); [f_equal; lia|exact N|]. intros j z L E. apply (F (S j) z); [lia|exact E].
Qed.
Lemma index_of_none : forall names x k0, ~ In x names -> index_of names x k0 = Err ValueError.
Proof.
  induction names as [|y names IH]; intros x k0 H; [reflexivity|]. simpl. rewrite streqb_neq; [apply IH|];
  intros E; apply H; [right; exact E|left; exact E].
Qed.

Lemma denotes_index : forall t vdes label i, denotes t vdes label i -> ic_index t vdes label = Ok i.
Proof.
  intros t vdes label i [l n j L E|l e e' k L N E F]; unfold ic_index.
  - rewrite (search_label "V" "v" n l) by auto. exact E.
  - rewrite (search_other e l L), (search_label "I" "i" e l) by auto.
    rewrite (index_of_spec _ (slower e) 0 k).
    + simpl. reflexivity.
    + rewrite nth_error_map, N. simpl. rewrite E. reflexivity.
    + intros j y J H. rewrite nth_error_map in H. destruct (nth_error vdes j) as [e''|] eqn:Q; [|discriminate].
      injection H as <-. eapply F; eauto.
Qed.

Lemma ic_loop_spec : forall t vdes d x0 (idx : str -> nat),
  Forall (fun lv => ic_index t vdes (fst lv) = Ok (idx (fst lv))) d ->
  exists x, ic_loop t vdes d x0 = Ok x /\
  (forall d1 label v d2, d = (d1 ++ (label, v) :: d2)%list ->
     (forall l w, In (l, w) d2 -> idx l <> idx label) -> x (idx label) = v) /\
  (forall i, (forall l w, In (l, w) d -> idx l <> i) -> x i = x0 i).
Proof.
  intros t vdes d. induction d as [|[l w] d IH]; intros x0 idx F.
  - exists x0. split; [reflexivity|]. split; [|reflexivity]. intros d1 label v d2 E. destruct d1; discriminate.
  - inversion F as [|? ? F1 F2]; subst. simpl in F1. simpl. rewrite F1. simpl.
    destruct (IH (vset x0 (idx l) w) idx F2) as (x & E & A & B). exists x. split; [exact E|]. split.
    + intros d1 label v d2 ED ND. destruct d1 as [|p d1]; simpl in ED.
      * injection ED as <- <- <-. rewrite B by exact ND. unfold vset. rewrite Nat.eqb_refl. reflexivity.
      * injection ED as _ ED. eapply A; eauto.
    + intros i NI. rewrite B by (intros l0 w0 H; apply (NI l0 w0); right; exact H). unfold vset.
      destruct (Nat.eqb_spec i (idx l)); [|reflexivity]. exfalso. apply (NI l w); [left; reflexivity|auto].
Qed.

(** Every label names an unknown: the last value given to an unknown is in its
    place, all others are zero.  (The place of unknown [S i] is [i]: ground is
    dropped.) *)
Theorem C34_named_unknowns : forall t vdes d (idx : str -> nat),
  (forall label v, In (label, v) d -> denotes t vdes label (idx label)) ->
  exists x, build_x0 t vdes d = Ok x /\
  (forall d1 label v d2 i, d = (d1 ++ (label, v) :: d2)%list -> idx label = S i ->
     (forall l w, In (l, w) d2 -> idx l <> S i) -> x i = v) /\
  (forall i, (forall l w, In (l, w) d -> idx l <> S i) -> x i = 0).
Proof.
  intros t vdes d idx H.
  destruct (ic_loop_spec t vdes d vzero idx) as (x & E & A & B).
  { apply Forall_forall. intros [l v] I. apply denotes_index. eapply H; eauto. }
  exists (fun i => x (S i)). unfold build_x0. rewrite E. split; [reflexivity|]. split.
  - intros d1 label v d2 i ED EI ND. rewrite <- EI. eapply A; eauto. rewrite EI. exact ND.
  - intros i NI. rewrite B by exact NI. reflexivity.
Qed.
Print Assumptions C34_named_unknowns.

(** A label that names nothing raises, whatever else is in the dictionary. *)
Lemma ic_loop_err : forall t vdes d x0 label v e, In (label, v) d -> ic_index t vdes label = Err e ->
  exists e', ic_loop t vdes d x0 = Err e'.
Proof.
  intros t vdes d. induction d as [|[l w] d IH]; intros x0 label v e I E; [destruct I|]. simpl.
  destruct I as [I|I].
  - injection I as -> ->. rewrite E. simpl. eauto.
  - destruct (ic_index t vdes l); simpl; eauto.
Qed.
Theorem C34_unknown_rejected : forall t vdes d label v, In (label, v) d ->
  (exists n, label_of "V" "v" n label /\ ext_node_to_int t (string_of_list_ascii n) = Err KeyError) \/
  (exists e, label_of "I" "i" e label /\ ~ In (slower e) (map slower vdes)) \/
  ~ In "("%char label ->
  exists e, build_x0 t vdes d = Err e.
Proof.
  intros t vdes d label v I H.
  assert (E : exists e, ic_index t vdes label = Err e).
  { unfold ic_index. destruct H as [(n & L & E)|[(e & L & N)|P]].
    - rewrite (search_label "V" "v" n label) by auto. exists KeyError. exact E.
    - rewrite (search_other e label L), (search_label "I" "i" e label) by auto.
      rewrite index_of_none by exact N. simpl. eauto.
    - rewrite !search_paren by exact P. eauto. }
  destruct E as (e & E). destruct (ic_loop_err t vdes d vzero label v e I E) as (e' & E').
  exists e'. unfold build_x0. rewrite E'. reflexivity.
Qed.
Print Assumptions C34_unknown_rejected.

(** Node names with other characters can not be given a value: [V(n_1)] is not
    recognised although the circuit has a node [n_1]. *)
Theorem C34_punctuation_refuted : exists t,
  ext_node_to_int t "n_1" = Ok 1%nat /\ build_x0 t [] [(lit "V(n_1)", 1)] = Err ValueError.
Proof. exists (run_nops [OAdd (Text "0"); OAdd (Text "n_1")]). split; reflexivity. Qed.
Print Assumptions C34_punctuation_refuted.

Example C34_example : exists x,
  build_x0 (run_nops [OAdd (Text "0"); OAdd (Text "n1"); OAdd (Text "n2")]) [lit "V1"; lit "L1"]
    [(lit "V(n2)", 3); (lit "i( l1 )", 5)] = Ok x /\ x 0%nat = 0 /\ x 1%nat = 3 /\ x 2%nat = 0 /\ x 3%nat = 5.
Proof. eexists. split; [reflexivity|]. repeat split; reflexivity. Qed.

(** * C35 *)

(** A capacitor (or diode) with one terminal at ground: the last unknown, here
    the current of a voltage source, is added to (or replaced). *)
Theorem C35_grounded_refuted :
  (let x := modify_x0 2 [IOther true; ICap 1 0 (Some 5)] (vset (vset vzero 0 1) 1 (1/2)) in x 0%nat = 11/2) /\
  (let x := modify_x0 2 [IOther true; ICap 0 1 (Some 5)] (vset (vset vzero 0 1) 1 (1/2)) in x 0%nat = 1 /\ x 1%nat = 6).
Proof.
  unfold modify_x0, ic_voltage, truthy. simpl. destruct (Req_EM_T 5 0); [lra|].
  unfold vset. simpl. repeat split; lra.
Qed.
Print Assumptions C35_grounded_refuted.

(** An initial condition of 0 is ignored. *)
Theorem C35_zero_refuted : forall x, modify_x0 3 [ICap 1 2 (Some 0); IInd (Some 0)] x = x.
Proof. intros x. unfold modify_x0, ic_voltage, truthy. simpl. destruct (Req_EM_T 0 0); [reflexivity|lra]. Qed.
Print Assumptions C35_zero_refuted.

(** The voltage set by an element: its nodes and the value, if not zero. *)
Definition sets (e : icelem) : option (nat * nat * R) :=
  match e with
  | ICap a b (Some v) | IDio a b (Some v) => if Req_EM_T v 0 then None else Some (a, b, v)
  | _ => None
  end.
(** The first node of an element is not touched by a later one. *)
Definition independent (es : list icelem) : Prop :=
  forall es1 e es2 a b v, es = (es1 ++ e :: es2)%list -> sets e = Some (a, b, v) ->
  a <> b /\ Forall (fun e' => forall a' b' v', sets e' = Some (a', b', v') -> a' <> a /\ a' <> b) es2.
Definition in_range (nv : nat) (es : list icelem) : Prop :=
  Forall (fun e => forall a b v, sets e = Some (a, b, v) -> (0 < a < nv)%nat /\ (0 < b < nv)%nat) es.

Lemma ic_voltage_sets : forall size x e, ic_voltage size x e =
  match sets e with Some (a, b, v) => vset x (np_index size a) (x (np_index size b) + v) | None => x end.
Proof.
  intros size x [a b [v|]|a b [v|]|[v|]|vde]; simpl; auto; destruct (Req_EM_T v 0); reflexivity.
Qed.

Lemma volt_loop : forall size nv es x, in_range nv es -> independent es ->
  let y := fold_left (ic_voltage size) es x in
  (forall e a b v, In e es -> sets e = Some (a, b, v) -> y (a - 1)%nat - y (b - 1)%nat = v) /\
  (forall i, (forall e a b v, In e es -> sets e = Some (a, b, v) -> i <> (a - 1)%nat) -> y i = x i).
Proof.
  intros size nv es. induction es as [|e es IH]; intros x RG IN; [split; [intros ? ? ? ? []|reflexivity]|].
  inversion RG as [|? ? RG1 RG2]; subst.
  assert (IN2 : independent es).
  { intros es1 e1 es2 a b v E. apply (IN (e :: es1) e1 es2 a b v). rewrite E. reflexivity. }
  simpl fold_left. destruct (IH (ic_voltage size x e) RG2 IN2) as [A B]. split.
  - intros e0 a b v [->|I] S0; [|eapply A; eauto].
    destruct (IN [] e0 es a b v eq_refl S0) as [NAB F]. rewrite Forall_forall in F. destruct (RG1 a b v S0) as [RA RB].
    rewrite !B.
    + rewrite ic_voltage_sets, S0. destruct a as [|a]; [lia|]. destruct b as [|b]; [lia|]. simpl.
      rewrite !Nat.sub_0_r. unfold vset. rewrite Nat.eqb_refl. destruct (Nat.eqb_spec b a); [congruence|]. lra.
    + intros e1 a1 b1 v1 I1 S1. destruct (F e1 I1 a1 b1 v1 S1). rewrite Forall_forall in RG2.
      destruct (RG2 e1 I1 a1 b1 v1 S1). lia.
    + intros e1 a1 b1 v1 I1 S1. destruct (F e1 I1 a1 b1 v1 S1). rewrite Forall_forall in RG2.
      destruct (RG2 e1 I1 a1 b1 v1 S1). lia.
  - intros i H. rewrite B by (intros; eapply H; [right|]; eauto). rewrite ic_voltage_sets.
    destruct (sets e) as [[[a b] v]|] eqn:S0; [|reflexivity]. unfold vset.
    destruct (RG1 a b v eq_refl) as [RA RB]. specialize (H e a b v (or_introl eq_refl) S0).
    destruct a as [|a]; [lia|]. simpl in *. destruct (Nat.eqb_spec i a); [lia|reflexivity].
Qed.

(** Current of the [k]-th voltage-defined element. *)
Lemma curr_loop : forall nv es k0 x,
  (forall es1 ic es2 v, es = (es1 ++ IInd (Some ic) :: es2)%list -> ic <> 0 -> v = ic ->
     ic_currents nv es k0 x (nv - 1 + (k0 + length (filter is_ivde es1)))%nat = v) /\
  (forall i, (forall es1 ic es2, es = (es1 ++ IInd (Some ic) :: es2)%list -> ic <> 0 ->
       i <> (nv - 1 + (k0 + length (filter is_ivde es1)))%nat) -> ic_currents nv es k0 x i = x i).
Proof.
  intros nv es. induction es as [|e es IH]; intros k0 x.
  - split; [intros [|? ?]; discriminate|reflexivity].
  - assert (ST : forall (e : icelem) es k0 x, ic_currents nv (e :: es) k0 x =
      ic_currents nv es (k0 + (if is_ivde e then 1 else 0))%nat
        (match e with IInd ic => match truthy ic with Some v => vset x (nv - 1 + k0) v | None => x end | _ => x end)).
    { clear. intros [a b ic|a b ic|ic|[]] es k0 x; simpl; rewrite ?Nat.add_0_r, ?Nat.add_1_r; reflexivity. }
    rewrite ST. set (x' := match e with IInd ic => _ | _ => x end).
    destruct (IH (k0 + (if is_ivde e then 1 else 0))%nat x') as [A B]. split.
    + intros es1 ic es2 v E N ->. destruct es1 as [|e1 es1]; simpl in E; injection E as -> E.
      * simpl length. rewrite Nat.add_0_r. rewrite B.
        -- subst x'. simpl. destruct (Req_EM_T ic 0); [contradiction|]. unfold vset. rewrite Nat.eqb_refl. reflexivity.
        -- intros es3 ic3 es4 _ _. simpl. lia.
      * rewrite <- (A es1 ic es2 ic E N eq_refl). f_equal. simpl. destruct (is_ivde e1); simpl; lia.
    + intros i H. rewrite B.
      * subst x'. destruct e as [a b ic|a b ic|[ic|]|vde]; auto. simpl. destruct (Req_EM_T ic 0); [reflexivity|].
        unfold vset. specialize (H [] ic es eq_refl n). simpl in H. rewrite Nat.add_0_r in H.
        destruct (Nat.eqb_spec i (nv - 1 + k0)); [contradiction|reflexivity].
      * intros es1 ic es2 E N. specialize (H (e :: es1) ic es2). rewrite E in H. specialize (H eq_refl N).
        simpl in H. destruct (is_ivde e); simpl in *; lia.
Qed.

(** With no terminal at ground and no conflict between the conditions, the
    conditions that are not zero hold afterwards and no other unknown changes.
    ([x i] is the voltage of node [i + 1] or, from [nv - 1] on, a current.) *)
Theorem C35_conditions_hold_guarded : forall nv es x, in_range nv es -> independent es ->
  let y := modify_x0 nv es x in
  (forall e a b v, In e es -> sets e = Some (a, b, v) -> y (a - 1)%nat - y (b - 1)%nat = v) /\
  (forall es1 ic es2, es = (es1 ++ IInd (Some ic) :: es2)%list -> ic <> 0 ->
     y (nv - 1 + length (filter is_ivde es1))%nat = ic) /\
  (forall i, (i < nv - 1)%nat -> (forall e a b v, In e es -> sets e = Some (a, b, v) -> i <> (a - 1)%nat) -> y i = x i) /\
  (forall k, (forall es1 ic es2, es = (es1 ++ IInd (Some ic) :: es2)%list -> ic <> 0 ->
     k <> length (filter is_ivde es1)) -> y (nv - 1 + k)%nat = x (nv - 1 + k)%nat).
Proof.
  intros nv es x RG IN y. subst y. unfold modify_x0.
  set (size := (nv - 1 + length (filter is_ivde es))%nat). set (z := fold_left (ic_voltage size) es x).
  destruct (volt_loop size nv es x RG IN) as [A B]. fold z in A, B.
  destruct (curr_loop nv es 0 z) as [C D].
  assert (LOW : forall i, (i < nv - 1)%nat -> ic_currents nv es 0 z i = z i) by (intros i L; apply D; intros; lia).
  assert (RG' := RG). unfold in_range in RG'. rewrite Forall_forall in RG'.
  repeat split.
  - intros e a b v I S0. destruct (RG' e I a b v S0). rewrite !LOW by lia. eapply A; eauto.
  - intros es1 ic es2 E N. exact (C es1 ic es2 ic E N eq_refl).
  - intros i L H. rewrite LOW by exact L. apply B. exact H.
  - intros k H. rewrite D.
    + apply B. intros e a b v I S0. destruct (RG' e I a b v S0). lia.
    + intros es1 ic es2 E N. specialize (H es1 ic es2 E N). lia.
Qed.
Print Assumptions C35_conditions_hold_guarded.

Example C35_example : let es := [ICap 1 2 (Some 5); IOther true; IInd (Some 2)] in
  in_range 3 es /\ independent es /\ modify_x0 3 es vzero 0%nat = 5 /\ modify_x0 3 es vzero 3%nat = 2.
Proof.
  assert (S5 : sets (ICap 1 2 (Some 5)) = Some (1%nat, 2%nat, 5)) by (simpl; destruct (Req_EM_T 5 0); [lra|reflexivity]).
  split; [|split; [|split]].
  - apply Forall_forall. intros e [<-|[<-|[<-|[]]]] a b v H; rewrite ?S5 in H; try discriminate.
    injection H as <- <- <-. lia.
  - intros es1 e es2 a b v H H0. destruct es1 as [|? [|? [|? es1]]]; simpl in H; injection H; intros; subst; try discriminate.
    + rewrite S5 in H0. injection H0 as <- <- <-. split; [lia|].
      apply Forall_forall. intros e [<-|[<-|[]]]; discriminate.
    + destruct es1; discriminate.
  - unfold modify_x0, ic_voltage, truthy. simpl. destruct (Req_EM_T 5 0); [lra|]. destruct (Req_EM_T 2 0); [lra|].
    unfold vset, vzero. simpl. lra.
  - unfold modify_x0, ic_voltage, truthy. simpl. destruct (Req_EM_T 5 0); [lra|]. destruct (Req_EM_T 2 0); [lra|].
    unfold vset, vzero. simpl. lra.
Qed.
