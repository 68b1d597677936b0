(** From the text of a netlist to the reported operating point (C192). *)
From Coq Require Import Ascii String Reals List Bool Arith ZArith Lia Lra.
From Verif Require Import Base BaseFacts Str Units Directive Lines Reader Netlist ModelLines Nodes NodesFacts Circuit CircuitFacts Rsum Mna MnaSpec DcSolve Newton
  NewtonFacts DynFacts Csv Results PropsReader PropsNetlist PropsResults PropsMna PropsDc Session Simulate.
Import ListNotations.
Open Scope R_scope.

(** * What a netlist of linear elements says about voltages and currents *)

(** [V n] is the voltage of the node called [n], [I id] the current that enters the
    element called [id] at its first terminal, for the elements whose current is not
    given by the voltages, [src e] the value of the independent source [e]. *)
Section Laws.
  Variables (src : pelem -> R) (V I : str -> R).

  (** The current that flows through the element, from the first to the second node. *)
  Definition through (e : pelem) : R :=
    match e with
    | PR _ a b r => (V a - V b) / dR r
    | PI _ _ _ _ _ _ => src e
    | PG _ _ _ c d g => dR g * (V c - V d)
    | PF _ _ _ from k => dR k * I from
    | PV id _ _ _ _ _ | PL id _ _ _ _ | PE id _ _ _ _ _ | PH id _ _ _ _ => I id
    | _ => 0
    end.
  Definition first_end (e : pelem) : str :=
    match e with
    | PR _ a _ _ | PC _ a _ _ _ | PL _ a _ _ _ | PV _ a _ _ _ _ | PI _ a _ _ _ _ | PE _ a _ _ _ _ | PG _ a _ _ _ _ | PH _ a _ _ _
    | PF _ a _ _ _ | PD _ a _ _ _ _ | PM _ a _ _ _ _ _ _ _ _ | PS _ a _ _ _ _ => a
    | PK _ _ _ _ _ _ => lit "0"
    end.
  Definition second_end (e : pelem) : str :=
    match e with
    | PR _ _ b _ | PC _ _ b _ _ | PL _ _ b _ _ | PV _ _ b _ _ _ | PI _ _ b _ _ _ | PE _ _ b _ _ _ | PG _ _ b _ _ _ | PH _ _ b _ _
    | PF _ _ b _ _ | PD _ _ b _ _ _ | PM _ _ _ b _ _ _ _ _ _ | PS _ _ b _ _ _ => b
    | PK _ _ _ _ _ _ => lit "0"
    end.
  (** The sum of the currents that leave the node called [n]. *)
  Definition leaving1 (n : str) (e : pelem) : R :=
    (if streqb n (first_end e) then through e else 0) - (if streqb n (second_end e) then through e else 0).
  Fixpoint leaving (n : str) (parts : list pelem) : R :=
    match parts with [] => 0 | e :: parts' => leaving1 n e + leaving n parts' end.

  (** The law of the elements whose voltage is given. *)
  Definition law (e : pelem) : Prop :=
    match e with
    | PV _ a b _ _ _ => V a - V b = src e
    | PL _ a b _ _ => V a - V b = 0
    | PE _ a b c d k => V a - V b = dR k * (V c - V d)
    | PH _ a b from k => V a - V b = dR k * I from
    | _ => True
    end.

  Definition laws (parts : list pelem) : Prop :=
    V (lit "0") = 0 /\ (forall n, leaving n parts = 0) /\ Forall law parts.
End Laws.

(** The DC value on the line.  A source with a time function has the value [at0] of its
    name. *)
Definition written_dc (e : pelem) : R :=
  match e with PV _ _ _ (Some d) _ _ | PI _ _ _ (Some d) _ _ => dR d | _ => 0 end.
Definition driven (at0 : str -> R) (val : pelem -> R) (e : pelem) : R :=
  match e with PV id _ _ _ _ (Some _) | PI id _ _ _ _ (Some _) => at0 id | _ => val e end.
Definition dc_source (at0 : str -> R) : pelem -> R := driven at0 written_dc.

Definition has_current (e : pelem) : bool := match e with PV _ _ _ _ _ _ | PL _ _ _ _ _ | PE _ _ _ _ _ _ | PH _ _ _ _ _ => true | _ => false end.
Definition current_ids (parts : list pelem) : list str := map pid (filter has_current parts).
Definition nodes_in (e : pelem) : list str :=
  match e with
  | PR _ a b _ | PC _ a b _ _ | PL _ a b _ _ | PV _ a b _ _ _ | PI _ a b _ _ _ | PH _ a b _ _ | PF _ a b _ _ | PD _ a b _ _ _ => [a; b]
  | PE _ a b c d _ | PG _ a b c d _ | PS _ a b c d _ | PM _ a b c d _ _ _ _ _ => [a; b; c; d]
  | PK _ _ _ _ _ _ => []
  end.
Definition node_list (parts : list pelem) : list str := flat_map nodes_in parts.

(** The laws of the netlist have one solution and only one. *)
Definition well_posed (src : pelem -> R) (parts : list pelem) : Prop :=
  exists V I, laws src V I parts /\
    forall V' I', laws src V' I' parts ->
      (forall n, In n (node_list parts) -> V' n = V n) /\ (forall id, In id (current_ids parts) -> I' id = I id).

(** Linear elements, without H sources (C06); voltage-defined ones are not shorted, the
    sense nodes of an E source are not its output nodes (C05), the sources named by F
    elements exist. *)
Definition sound (parts : list pelem) (e : pelem) : Prop :=
  match e with
  | PV _ a b _ _ _ | PL _ a b _ _ => a <> b
  | PE _ a b c d _ =>
      a <> b /\ (c <> lit "0" -> c <> a /\ c <> b) /\ (d <> lit "0" -> d <> a /\ d <> b) /\ (c = d -> c = lit "0")
  | PF _ _ _ src _ => In src (current_ids parts)
  | PH _ _ _ _ _ | PD _ _ _ _ _ _ | PM _ _ _ _ _ _ _ _ _ _ | PS _ _ _ _ _ _ => False
  | PR _ _ _ _ | PC _ _ _ _ _ | PK _ _ _ _ _ _ | PI _ _ _ _ _ _ | PG _ _ _ _ _ _ => True
  end.

Definition lower_case (e : pelem) : Prop := slower (pid e) = pid e /\ Forall (fun n => slower n = n) (nodes_in e).

(** * Lemmas *)

(** The reader puts everything in lower case. *)
Definition low (s : str) : Prop := Forall (fun c => lower_ascii c = c) s.
Lemma low_slower : forall s, low (slower s).
Proof. intros s. unfold low, slower. apply Forall_map. apply Forall_forall. intros c _. apply lower_ascii_idem. Qed.
Lemma low_eq : forall s, low s -> slower s = s.
Proof. intros s H. induction H as [|c s E _ IH]; [reflexivity|]. cbn [slower map]. rewrite E. f_equal. exact IH. Qed.
Lemma low_split : forall s, low s -> Forall low (split s).
Proof.
  intros s H. unfold split. assert (G : forall w, low w -> Forall low (split_aux w s)); [|apply G; constructor].
  induction H as [|c s E H IH]; intros w W; cbn [split_aux].
  - destruct w; constructor; [exact W|constructor].
  - destruct (is_ws c).
    + destruct w; [apply IH; constructor|]. constructor; [exact W|apply IH; constructor].
    + apply IH. apply Forall_app. split; [exact W|repeat constructor; exact E].
Qed.
Lemma low_join : forall fp line, low line -> low (fst (join_lines fp line)).
Proof.
  intros fp. induction fp as [|l fp IH]; intros line H; [exact H|]. cbn [join_lines].
  pose proof (low_slower (strip l)) as K. destruct (slower (strip l)) as [|c next]; [exact H|].
  destruct (ascii_dec c c_cont); [|exact H]. apply IH. apply Forall_app. split; [exact H|]. constructor; [reflexivity|exact (Forall_inv_tail K)].
Qed.
Lemma low_take : forall fs wd s line s' b, low line -> Forall (fun l => low (fst l)) (r_lines s) -> take_line fs wd s line = Ok (s', b) ->
  Forall (fun l => low (fst l)) (r_lines s').
Proof.
  intros fs wd s line s' b L F H. unfold take_line in H.
  repeat match type of H with (if ?c then _ else _) = _ => destruct c end; try discriminate H; try (injection H as <- _; exact F).
  - destruct (parse_include fs wd line); [|discriminate H]. cbn [bindr] in H. injection H as <- _. exact F.
  - injection H as <- _. cbn [add_line r_lines]. apply Forall_app. split; [exact F|]. repeat constructor. exact L.
Qed.
Lemma low_file : forall fs wd fuel fp s s', Forall (fun l => low (fst l)) (r_lines s) -> read_file fs fuel wd s fp = Ok s' ->
  Forall (fun l => low (fst l)) (r_lines s').
Proof.
  intros fs wd fuel. induction fuel as [|fuel IH]; intros fp s s' F H.
  - destruct fp; [injection H as <-; exact F|discriminate H].
  - destruct fp as [|l fp]; [injection H as <-; exact F|]. cbn [read_file] in H. cbv zeta in H.
    destruct (r_n (at_line s (S (r_n s))) =? 1)%nat; [eapply IH; [|exact H]; exact F|].
    pose proof (low_slower (strip l)) as K. destruct (slower (strip l)) as [|c line]; [eapply IH; [|exact H]; exact F|].
    destruct (join_lines fp (c :: line)) as [line' fp2] eqn:J. pose proof (low_join fp _ K) as K2. rewrite J in K2. cbn [fst] in K2.
    destruct (take_line fs wd (at_line s (S (r_n s))) line') as [[s1 stop]|] eqn:T; [|discriminate H]. cbn [bindr] in H.
    pose proof (low_take _ _ (at_line s (S (r_n s))) _ _ _ K2 F T) as F1. destruct stop; [injection H as <-; exact F1|]. eapply IH; [exact F1|exact H].
Qed.
Lemma low_read : forall fs fuel f s, read_netlist fs fuel f = Ok s -> Forall (fun l => low (fst l)) (r_lines s).
Proof.
  intros fs fuel f s H. unfold read_netlist in H. destruct (fs f) as [fp|]; [|discriminate H].
  assert (G : forall n wd s0 fp0 s1, Forall (fun l => low (fst l)) (r_lines s0) -> read_files fs n wd s0 fp0 = Ok s1 -> Forall (fun l => low (fst l)) (r_lines s1)).
  { clear. intros n. induction n as [|n IH]; intros wd s0 fp0 s1 F H; [discriminate H|]. cbn [read_files] in H.
    destruct (read_file fs (List.length fp0) wd s0 fp0) as [s2|] eqn:R; [|discriminate H]. cbn [bindr] in H.
    pose proof (low_file _ _ _ _ _ _ F R) as F2. destruct (r_within s2); [discriminate H|].
    destruct (r_files s2) as [|p ps]; [injection H as <-; exact F2|]. destruct (fs p) as [fp1|]; [|discriminate H].
    eapply IH; [|exact H]. exact F2. }
  eapply G; [|exact H]. constructor.
Qed.
Lemma lower_case_line : forall models other line prev l, low line -> (forall x l, other x = Ok l -> Forall lower_case l) ->
  parse_line models other line prev = Ok l -> Forall lower_case l.
Proof.
  intros models other line prev l L OT H. destruct line as [|c r]; [discriminate H|].
  destruct (in_dec ascii_dec c (list_ascii_of_string "xy")) as [X|X].
  - unfold parse_line, parse_letter in H. cbv zeta in H. simpl in X. destruct X as [<-|[<-|[]]]; cbn in H; eapply OT; exact H.
  - destruct (C129_words models other (c :: r) prev c l) as (e & rest & -> & _ & SP & _); [exists r; reflexivity|exact X|exact H|].
    pose proof (low_split _ L) as K. rewrite SP in K. apply Forall_app in K. destruct K as [K _].
    repeat constructor; destruct e; cbn [words pid nodes_in] in *;
      repeat match goal with K : Forall _ (_ :: _) |- _ => inversion K; clear K; subst end; repeat constructor; apply low_eq; assumption.
Qed.
Lemma lower_case_parts : forall models other, (forall x l, other x = Ok l -> Forall lower_case l) ->
  forall lines acc parts, Forall low lines -> Forall lower_case acc -> main_netlist_parser models other lines acc = Ok parts -> Forall lower_case parts.
Proof.
  intros models other OT lines. induction lines as [|line lines IH]; intros acc parts L A H.
  - injection H as <-. exact A.
  - cbn [main_netlist_parser] in H. destruct (parse_line models other line acc) as [l|] eqn:P; [|discriminate H]. cbn [bindr] in H.
    eapply IH; [exact (Forall_inv_tail L)| |exact H]. apply Forall_app. split; [exact A|]. eapply lower_case_line; [exact (Forall_inv L)|exact OT|exact P].
Qed.
Lemma load_lower : forall fs other fuel f parts t es, (forall x l, other x = Ok l -> Forall lower_case l) ->
  load fs other fuel f = Ok (parts, t, es) -> Forall lower_case parts.
Proof.
  intros fs other fuel f parts t es OT H. unfold load in H. destruct (read_netlist fs fuel f) as [s|] eqn:R; [|discriminate H]. cbn [bindr] in H.
  destruct (parse_models (map fst (r_models s)) []) as [models|]; [|discriminate H]. cbn [bindr] in H.
  match type of H with bindr ?m _ = _ => destruct m as [ps|] eqn:M; [|discriminate H] end. cbn [bindr] in H.
  destruct (place_all empty_ntab ps) as [[t' es']|]; [|discriminate H]. cbn [bindr] in H.
  match type of H with (if ?b then _ else _) = _ => destruct b; [|discriminate H] end. injection H as <- _ _.
  eapply lower_case_parts; [exact OT| |constructor|exact M]. apply Forall_map. eapply low_read. exact R.
Qed.
Lemma ss_inj : forall a b, ss a = ss b -> a = b.
Proof. intros a b H. rewrite <- (list_ascii_of_string_of_list_ascii a), <- (list_ascii_of_string_of_list_ascii b). unfold ss in H. rewrite H. reflexivity. Qed.
Lemma ss_la : forall s, ss (list_ascii_of_string s) = s.
Proof. intros s. apply string_of_list_ascii_of_string. Qed.

Definition at_node (t : ntab) (n : str) (i : nat) : Prop := ext_node_to_int t (ss n) = Ok i.
Definition grows (t t' : ntab) (names : list str) : Prop :=
  tinv t' /\ (forall s j, ext_node_to_int t s = Ok j -> ext_node_to_int t' s = Ok j) /\
  (forall s j, ext_node_to_int t' s = Ok j -> (exists k, ext_node_to_int t s = Ok k) \/ exists n, In n names /\ s = ss n).

Lemma grows_trans : forall a b c l m, grows a b l -> grows b c m -> grows a c (l ++ m).
Proof.
  intros a b c l m (T1 & K1 & N1) (T2 & K2 & N2). split; [exact T2|]. split; [auto|].
  intros s j H. destruct (N2 s j H) as [[k E]|(n & I & E)].
  - destruct (N1 s k E) as [E'|(n & I & E')]; [left; exact E'|]. right. exists n. split; [apply in_or_app; auto|exact E'].
  - right. exists n. split; [apply in_or_app; auto|exact E].
Qed.
Lemma grows_refl : forall t, tinv t -> grows t t [].
Proof. intros t T. split; [exact T|]. split; [auto|]. intros s j H. left. exists j. exact H. Qed.

Lemma node_grows : forall t s t' i, tinv t -> node t s = Ok (t', i) -> grows t t' [s] /\ at_node t' s i.
Proof.
  intros t s t' i T H. unfold node in H. destruct (add_ok t (ss s) T) as (j & A & B).
  pose proof (add_node_tinv t (Text (ss s)) T) as T'.
  pose proof (fun u k => step_keeps t (OAdd (Text (ss s))) u k T) as K. cbn [step_nop] in K.
  assert (N : forall u k, ext_node_to_int (fst (add_node t (Text (ss s)))) u = Ok k -> (exists k', ext_node_to_int t u = Ok k') \/ u = ss s).
  { intros u k E. destruct (String.eqb_spec u (ss s)) as [->|NE]; [right; reflexivity|left]. exists k.
    unfold add_node in E. destruct (dget nkey_eqb (nodes_dict t) (KStr (ss s))) as [[?|?]|]; [exact E|exact E|].
    cbn [fst] in E. unfold ext_node_to_int in *. cbn [nodes_dict] in E. rewrite get_register in E. cbn [nkey_eqb] in E.
    apply String.eqb_neq in NE. rewrite NE in E. exact E. }
  destruct (add_node t (Text (ss s))) as [t2 r]. cbn [fst snd] in *. subst r. cbn [bindr] in H. injection H as <- <-.
  split; [|exact B]. split; [exact T'|]. split; [exact K|]. intros u k E. destruct (N u k E) as [L| ->]; [left; exact L|right]. exists s. simpl. auto.
Qed.
Lemma nodes2_grows : forall t a b t' i j, tinv t -> nodes2 t a b = Ok (t', (i, j)) -> grows t t' [a; b] /\ at_node t' a i /\ at_node t' b j.
Proof.
  intros t a b t' i j T H. unfold nodes2 in H. destruct (node t a) as [[t1 i1]|] eqn:N1; [|discriminate]. cbn [bindr] in H.
  destruct (node t1 b) as [[t2 j2]|] eqn:N2; [|discriminate]. cbn [bindr] in H. injection H as <- <- <-.
  destruct (node_grows _ _ _ _ T N1) as (G1 & A1). destruct (node_grows _ _ _ _ (proj1 G1) N2) as (G2 & A2).
  split; [exact (grows_trans _ _ _ _ _ G1 G2)|]. split; [|exact A2]. apply (proj1 (proj2 G2)). exact A1.
Qed.

(** The element that stands for a line, once the nodes have numbers; [val] is the DC
    value of the sources. *)
Definition placed (val : pelem -> R) (t : ntab) (e : pelem) (l : lelem) : Prop :=
  match e with
  | PR id a b v => exists i j, l = ER (ss id) i j (dR v) /\ at_node t a i /\ at_node t b j
  | PC id a b v _ => exists i j, l = EC (ss id) i j (dR v) /\ at_node t a i /\ at_node t b j
  | PL id a b v _ => exists i j, l = EL (ss id) i j (dR v) /\ at_node t a i /\ at_node t b j
  | PK id l1 l2 k v1 v2 => exists m, l = EK (ss id) (ss l1) (ss l2) (dR k) m /\ m = mutual (dR v1) (dR v2) (dR k)
  | PV id a b _ _ f => exists i j, l = EV (ss id) i j (val e) (timed f) /\ at_node t a i /\ at_node t b j
  | PI id a b _ _ f => exists i j, l = EI (ss id) i j (val e) (timed f) /\ at_node t a i /\ at_node t b j
  | PE id a b c d v => exists i j k m, l = EE (ss id) i j k m (dR v) /\ at_node t a i /\ at_node t b j /\ at_node t c k /\ at_node t d m
  | PG id a b c d v => exists i j k m, l = EG (ss id) i j k m (dR v) /\ at_node t a i /\ at_node t b j /\ at_node t c k /\ at_node t d m
  | PH id a b src v => exists i j, l = EH (ss id) i j (ss src) (dR v) /\ at_node t a i /\ at_node t b j
  | PF id a b src v => exists i j, l = EF (ss id) i j (ss src) (dR v) /\ at_node t a i /\ at_node t b j
  | PD id _ _ _ _ _ | PM id _ _ _ _ _ _ _ _ _ | PS id _ _ _ _ _ => exists i j, l = ENL (ss id) i j
  end.

Lemma placed_grows : forall val t t' names e l, grows t t' names -> placed val t e l -> placed val t' e l.
Proof.
  intros val t t' names e l (_ & K & _) P. destruct e; cbn [placed] in *; try exact P.
  all: try (destruct P as (i & j & E & A & B); exists i, j; unfold at_node in *; split; [exact E|]; split; auto; fail).
  all: destruct P as (i & j & k' & m' & E & A & B & C & D); exists i, j, k', m'; unfold at_node in *; auto 6.
Qed.

Lemma place_ok : forall t e t' l, tinv t -> place t e = Ok (t', l) -> grows t t' (nodes_in e) /\ placed written_dc t' e l.
Proof.
  intros t e t' l T H.
  destruct e; cbn [place nodes_in placed] in *.
  all: try (match type of H with context [nodes2 ?u ?a ?b] => destruct (nodes2 u a b) as [[t1 [i1 j1]]|] eqn:N1; [|discriminate] end;
    cbn [bindr] in H; destruct (nodes2_grows _ _ _ _ _ _ T N1) as (G1 & A1 & A2)).
  all: try (match type of H with context [nodes2 ?u ?a ?b] => destruct (nodes2 u a b) as [[t2 [i2 j2]]|] eqn:N2; [|discriminate] end;
    cbn [bindr] in H; destruct (nodes2_grows _ _ _ _ _ _ (proj1 G1) N2) as (G2 & A3 & A4)).
  all: injection H as <- <-.
  all: try (split; [exact G1|]; eauto 6; fail).
  all: try (split; [exact (grows_trans _ _ _ _ _ G1 G2)|]; eauto 6; fail).
  all: try (split; [exact (grows_trans _ _ _ _ _ G1 G2)|]; do 4 eexists; split; [reflexivity|]; split; [apply (proj1 (proj2 G2)); exact A1|];
    split; [apply (proj1 (proj2 G2)); exact A2|auto]; fail).
  split; [apply grows_refl; exact T|eauto].
Qed.

Lemma place_all_ok : forall parts t t' es, tinv t -> place_all t parts = Ok (t', es) -> grows t t' (node_list parts) /\ Forall2 (placed written_dc t') parts es.
Proof.
  induction parts as [|e parts IH]; intros t t' es T H; cbn [place_all] in H.
  - injection H as <- <-. split; [apply grows_refl; exact T|constructor].
  - destruct (place t e) as [[t1 l]|] eqn:P; [|discriminate]. cbn [bindr] in H.
    destruct (place_all t1 parts) as [[t2 ls]|] eqn:Q; [|discriminate]. cbn [bindr] in H. injection H as <- <-.
    destruct (place_ok _ _ _ _ T P) as (G1 & P1). destruct (IH _ _ _ (proj1 G1) Q) as (G2 & P2).
    split; [exact (grows_trans _ _ _ _ _ G1 G2)|]. constructor; [eapply placed_grows; eassumption|exact P2].
Qed.

(** Names and numbers. *)
Lemma at_node_fun : forall t n i j, at_node t n i -> at_node t n j -> i = j.
Proof. unfold at_node. congruence. Qed.
Lemma at_node_inj : forall t n m i, tinv t -> at_node t n i -> at_node t m i -> n = m.
Proof.
  intros t n m i T A B. apply ss_inj. apply (ext_int_inverse _ _ _ T) in A. apply (ext_int_inverse _ _ _ T) in B. congruence.
Qed.
Definition grounded (t : ntab) : Prop := tinv t /\ at_node t (lit "0") 0.
Lemma grounded_number : forall t, grounded t -> (0 < get_nodes_number t)%nat.
Proof.
  intros t (T & G). pose proof T as [g [m I]]. unfold get_nodes_number. rewrite (ni_len _ _ _ I), div2_double.
  unfold at_node, ext_node_to_int in G. change (ss (lit "0")) with ground_name in G. rewrite (ni_gnd _ _ _ I) in G. destruct g; [lia|discriminate].
Qed.
Lemma grounded_range : forall t i, grounded t -> ((i < get_nodes_number t)%nat <-> exists n, at_node t n i).
Proof.
  intros t i G. pose proof (grounded_number t G) as NZ. destruct G as (T & G).
  assert (E : (i < get_nodes_number t)%nat <-> registered_int t i).
  { destruct i as [|i].
    - split; [intros _|intros _; exact NZ]. unfold registered_int. apply (ext_int_inverse _ _ _ T) in G. rewrite G. reflexivity.
    - rewrite (contiguous t (S i) T) by lia. unfold at_node in G. change (ss (lit "0")) with ground_name in G. rewrite G. cbn [isOk]. lia. }
  rewrite E. unfold registered_int, at_node. split.
  - destruct (int_node_to_ext t i) as [s|] eqn:H; [|discriminate]. intros _. exists (list_ascii_of_string s). rewrite ss_la.
    apply (ext_int_inverse _ _ _ T). exact H.
  - intros (n & H). apply (ext_int_inverse _ _ _ T) in H. rewrite H. reflexivity.
Qed.
Lemma grounded_zero : forall t n, grounded t -> (at_node t n 0 <-> n = lit "0").
Proof.
  intros t n (T & G). split; [|intros ->; exact G]. intros H. eapply at_node_inj; eassumption.
Qed.

Lemma placed_lid : forall val t e l, placed val t e l -> lid l = ss (pid e) /\ is_vde l = has_current e.
Proof.
  intros val t e l P. destruct e; cbn [placed] in P.
  all: try (destruct P as (i & j & -> & _); split; reflexivity).
  all: try (destruct P as (i & j & ? & ? & -> & _); split; reflexivity).
  all: try (destruct P as (i & j & ->); split; reflexivity).
  destruct P as (m & -> & _). split; reflexivity.
Qed.
Lemma placed_ids : forall val t parts es, Forall2 (placed val t) parts es -> map lid (vdes es) = map ss (current_ids parts).
Proof.
  intros val t parts es F. induction F as [|e l parts es P F IH]; [reflexivity|].
  destruct (placed_lid val t e l P) as (E1 & E2). unfold vdes, current_ids in *. cbn [filter]. rewrite E2.
  destruct (has_current e); [|exact IH]. cbn [map]. rewrite E1, IH. reflexivity.
Qed.
Lemma placed_all_ids : forall val t parts es, Forall2 (placed val t) parts es -> map lid es = map ss (map pid parts).
Proof.
  intros val t parts es F. induction F as [|e l parts es P F IH]; [reflexivity|].
  destruct (placed_lid val t e l P) as (E1 & E2). cbn [map]. rewrite E1, IH. reflexivity.
Qed.

Lemma slower_lower : forall s, lower (ss s) = ss (slower s).
Proof. induction s as [|c s IH]; [reflexivity|]. unfold ss, slower, lower in *. cbn [map string_of_list_ascii smap]. rewrite IH. reflexivity. Qed.
Lemma lower_names : forall a b, slower a = a -> slower b = b -> upper (ss a) = upper (ss b) -> a = b.
Proof.
  intros a b A B E. apply upper_eq_iff_lower_eq in E. rewrite !slower_lower, A, B in E. apply ss_inj. exact E.
Qed.
Lemma upper_nodup : forall l, Forall (fun s => slower s = s) l -> NoDup l -> NoDup (map (fun s => upper (ss s)) l).
Proof.
  intros l F N. induction N as [|a l H N IH]; [constructor|]. inversion F as [|? ? Fa F']; subst. cbn [map]. constructor; [|auto].
  intros K. apply in_map_iff in K. destruct K as (b & E & K). apply H. rewrite <- (lower_names b a); auto.
  rewrite Forall_forall in F'. apply F'. exact K.
Qed.

Definition proper (parts : list pelem) (e : pelem) : Prop := lower_case e /\ sound parts e.

(** ** The numbered equations are the named ones *)
Section Corr.
  Variables (at0 : str -> R) (val : pelem -> R) (t : ntab) (parts : list pelem) (es : list lelem).
  Hypothesis GR : grounded t.
  Hypothesis PL_ : Forall2 (placed val t) parts es.
  Hypothesis SO : Forall (proper parts) parts.
  Hypothesis ND : NoDup (map pid parts).
  Let nv := get_nodes_number t.
  Let tv := fun e : lelem => at0 (list_ascii_of_string (lid e)).
  Let es' := map (freeze tv) es.

  Lemma current_lower : Forall (fun s => slower s = s) (current_ids parts).
  Proof.
    apply Forall_forall. intros s H. apply in_map_iff in H. destruct H as (e & <- & H). apply filter_In in H. destruct H as (H & _).
    rewrite Forall_forall in SO. apply (SO e H).
  Qed.
  Lemma current_nodup : NoDup (current_ids parts).
  Proof.
    unfold current_ids. clear - ND. induction parts as [|e l IH]; [constructor|]. cbn [map] in ND. inversion ND as [|? ? H N]; subst. cbn [filter].
    destruct (has_current e); [|auto]. cbn [map]. constructor; [|auto]. intros K. apply H. apply in_map_iff in K. destruct K as (a & <- & K).
    apply filter_In in K. apply in_map. apply K.
  Qed.
  Lemma es_vdes : map (fun e => upper (lid e)) (vdes es) = map (fun s => upper (ss s)) (current_ids parts).
  Proof.
    change (fun e => upper (lid e)) with (fun e => upper (lid e)). rewrite <- (map_map lid upper), (placed_ids val t parts es PL_), map_map. reflexivity.
  Qed.
  Lemma es_index : forall k id, nth_error (current_ids parts) k = Some id -> vde_index es' (ss id) = Ok k.
  Proof.
    intros k id H. unfold es'. rewrite freeze_vde_index.
    assert (N : exists e, nth_error (vdes es) k = Some e /\ lid e = ss id).
    { assert (E : nth_error (map lid (vdes es)) k = Some (ss id)) by (rewrite (placed_ids val t parts es PL_); apply map_nth_error; exact H).
      rewrite nth_error_map in E. destruct (nth_error (vdes es) k) as [e|]; [|discriminate]. exists e. split; [reflexivity|]. cbn in E. congruence. }
    destruct N as (e & N & E). eapply nth_vde_index; [|exact N|rewrite E; reflexivity].
    rewrite es_vdes. apply upper_nodup; [exact current_lower|exact current_nodup].
  Qed.

  Variables (V I : str -> R) (x : vec).
  Hypothesis XV : forall n i, at_node t n i -> x i = V n.
  Hypothesis XI : forall k id, nth_error (current_ids parts) k = Some id -> x (nv + k)%nat = I id.

  Lemma one_element : forall e l k, placed val t e l -> proper parts e ->
    (has_current e = true -> nth_error (current_ids parts) k = Some (pid e)) ->
    dc_current nv es' x k (freeze tv l) = through (driven at0 val) V I e /\
    (forall n i, at_node t n i ->
       (if (term1 (freeze tv l) =? i)%nat then dc_current nv es' x k (freeze tv l) else 0)
       - (if (term2 (freeze tv l) =? i)%nat then dc_current nv es' x k (freeze tv l) else 0) = leaving1 (driven at0 val) V I n e) /\
    (has_current e = true -> (branch_law nv es' x (freeze tv l) = 0 <-> law (driven at0 val) V I e)).
  Proof.
    intros e l k P S HC.
    assert (C : dc_current nv es' x k (freeze tv l) = through (driven at0 val) V I e).
    { destruct e; cbn [placed] in P; cbn [through].
      - destruct P as (i & j & -> & A & B). cbn [freeze dc_current]. rewrite (XV _ _ A), (XV _ _ B). reflexivity.
      - destruct P as (i & j & -> & A & B). reflexivity.
      - destruct P as (i & j & -> & A & B). cbn [freeze dc_current]. apply XI. apply HC. reflexivity.
      - destruct P as (m & -> & _). reflexivity.
      - destruct P as (i & j & -> & A & B). specialize (HC eq_refl). cbn [pid] in HC. destruct f; cbn [timed freeze dc_current]; apply XI; exact HC.
      - destruct P as (i & j & -> & A & B). destruct f; cbn [timed freeze dc_current].
        + unfold tv. cbn [lid]. unfold ss. rewrite list_ascii_of_string_of_list_ascii. reflexivity.
        + reflexivity.
      - destruct S as (_ & []).
      - destruct S as (_ & []).
      - destruct P as (i & j & a & b & -> & _). cbn [freeze dc_current]. apply XI. apply HC. reflexivity.
      - destruct P as (i & j & a & b & -> & _ & _ & A & B). cbn [freeze dc_current]. rewrite (XV _ _ A), (XV _ _ B). reflexivity.
      - destruct S as (_ & []).
      - destruct P as (i & j & -> & _). cbn [freeze dc_current]. destruct S as (_ & S). apply In_nth_error in S. destruct S as (q & S).
        rewrite (es_index q src S), (XI q src S). reflexivity.
      - destruct S as (_ & []). }
    split; [exact C|].
    assert (EQ : forall n m i j, at_node t n i -> at_node t m j -> (j =? i)%nat = streqb n m).
    { intros n m i j A B. destruct (Nat.eqb_spec j i) as [->|NE].
      - rewrite (at_node_inj t n m i (proj1 GR) A B). symmetry. unfold streqb. destruct (list_eq_dec ascii_dec m m); congruence.
      - symmetry. unfold streqb. destruct (list_eq_dec ascii_dec n m) as [->|]; [|reflexivity]. exfalso. apply NE. eapply at_node_fun; eassumption. }
    split.
    - intros n i A. unfold leaving1. rewrite C.
      destruct e; cbn [placed] in P; cbn [first_end second_end].
      1,2,3,12: destruct P as (i1 & j1 & -> & A1 & B1); cbn [freeze term1 term2]; rewrite (EQ _ _ _ _ A A1), (EQ _ _ _ _ A B1); reflexivity.
      1: cbn [through]; repeat match goal with |- context [if ?b then _ else _] => destruct b end; lra.
      1,2: destruct P as (i1 & j1 & -> & A1 & B1); destruct f; cbn [timed freeze term1 term2]; rewrite (EQ _ _ _ _ A A1), (EQ _ _ _ _ A B1); reflexivity.
      1,2,5,6: destruct S as (_ & []).
      all: destruct P as (i1 & j1 & a1 & b1 & -> & A1 & B1 & _); cbn [freeze term1 term2]; rewrite (EQ _ _ _ _ A A1), (EQ _ _ _ _ A B1); reflexivity.
    - intros HV. destruct e; try discriminate HV; cbn [placed] in P; cbn [law].
      + destruct P as (i & j & -> & A & B). cbn [freeze branch_law]. rewrite (XV _ _ A), (XV _ _ B). lra.
      + destruct P as (i & j & -> & A & B).
        destruct f; cbn [timed freeze branch_law driven]; rewrite (XV _ _ A), (XV _ _ B); [|lra].
        unfold tv. cbn [lid]. unfold ss. rewrite list_ascii_of_string_of_list_ascii. lra.
      + destruct P as (i & j & a & b & -> & A & B & A' & B'). cbn [freeze branch_law]. rewrite (XV _ _ A), (XV _ _ B), (XV _ _ A'), (XV _ _ B'). lra.
      + destruct S as (_ & []).
  Qed.

  Lemma kcl_named : forall suf les pre, Forall2 (placed val t) suf les -> parts = (pre ++ suf)%list ->
    forall n i, at_node t n i ->
    kcl nv es' (map (freeze tv) les) (List.length (filter has_current pre)) i x = leaving (driven at0 val) V I n suf.
  Proof.
    intros suf les pre F. revert pre. induction F as [|e l suf les P F IH]; intros pre E n i A; [reflexivity|]. cbn [map kcl leaving].
    assert (SE : proper parts e) by (rewrite Forall_forall in SO; apply SO; rewrite E; apply in_or_app; right; left; reflexivity).
    destruct (one_element e l (List.length (filter has_current pre)) P SE) as (_ & L1 & _).
    { intros HC. rewrite E. unfold current_ids. rewrite filter_app, map_app. rewrite nth_error_app2; rewrite map_length; [|lia].
      rewrite Nat.sub_diag. cbn [filter]. rewrite HC. reflexivity. }
    rewrite (L1 n i A). f_equal. rewrite freeze_vde, (proj2 (placed_lid val t e l P)).
    specialize (IH (pre ++ [e])%list). rewrite <- app_assoc in IH. specialize (IH E n i A). rewrite <- IH. f_equal.
    rewrite filter_app, app_length. cbn [filter]. destruct (has_current e); cbn [List.length]; lia.
  Qed.
  Lemma leaving_other : forall n l, (forall i, ~ at_node t n i) -> (forall e, In e l -> exists le, placed val t e le) -> Forall (proper parts) l -> leaving (driven at0 val) V I n l = 0.
  Proof.
    intros n l N. induction l as [|e l IH]; intros F S; [reflexivity|]. cbn [leaving]. inversion S as [|? ? Se S']; subst. rewrite IH; [|intros; apply F; right; auto|exact S'].
    destruct (F e) as (le & P); [left; reflexivity|].
    assert (NE : forall m i, at_node t m i -> streqb n m = false).
    { intros m i A. unfold streqb. destruct (list_eq_dec ascii_dec n m) as [->|]; [exfalso; apply (N i A)|reflexivity]. }
    unfold leaving1. destruct e; cbn [placed] in P; cbn [first_end second_end].
    all: try (destruct Se as (_ & []); fail).
    all: try (destruct P as (i & j & _ & A & B); rewrite (NE _ _ A), (NE _ _ B); lra).
    all: try (destruct P as (i & j & a & b & _ & A & B & _); rewrite (NE _ _ A), (NE _ _ B); lra).
    cbn [through]. repeat match goal with |- context [if ?b then _ else _] => destruct b end; lra.
  Qed.

  Lemma laws_numbered :
    ((forall i, (i < nv)%nat -> kcl nv es' es' 0 i x = 0) /\ (forall e, In e es' -> is_vde e = true -> branch_law nv es' x e = 0)) <->
    ((forall n, leaving (driven at0 val) V I n parts = 0) /\ Forall (law (driven at0 val) V I) parts).
  Proof.
    assert (K : forall n i, at_node t n i -> kcl nv es' es' 0 i x = leaving (driven at0 val) V I n parts).
    { intros n i A. apply (kcl_named parts es [] PL_ eq_refl n i A). }
    assert (B : forall pre e post l, parts = (pre ++ e :: post)%list -> placed val t e l -> has_current e = true ->
              (branch_law nv es' x (freeze tv l) = 0 <-> law (driven at0 val) V I e)).
    { intros pre e post l E P HC.
      apply (one_element e l (List.length (filter has_current pre)) P); [|intros _|exact HC].
      - rewrite Forall_forall in SO. apply SO. rewrite E. apply in_or_app. right. left. reflexivity.
      - rewrite E. unfold current_ids. rewrite filter_app, map_app. rewrite nth_error_app2; rewrite map_length; [|lia].
        rewrite Nat.sub_diag. cbn [filter]. rewrite HC. reflexivity. }
    assert (PAIR : forall e, In e parts -> exists l, In l es /\ placed val t e l).
    { clear - PL_. induction PL_ as [|e0 l0 p0 e1 P F IH]; intros e H; [destruct H|]. destruct H as [->|H]; [exists l0; split; [left|]; auto|].
      destruct (IH F e H) as (l & A & C). exists l. split; [right|]; auto. }
    assert (PAIR' : forall l, In l es -> exists e, In e parts /\ placed val t e l).
    { clear - PL_. induction PL_ as [|e0 l0 p0 e1 P F IH]; intros l H; [destruct H|]. destruct H as [->|H]; [exists e0; split; [left|]; auto|].
      destruct (IH F l H) as (e & A & C). exists e. split; [right|]; auto. }
    split; intros (H1 & H2).
    - split.
      + intros n. destruct (ext_node_to_int t (ss n)) as [i|ex] eqn:A.
        * rewrite <- (K n i A). apply H1. apply (grounded_range t i GR). exists n. exact A.
        * apply leaving_other; [intros i A'; unfold at_node in A'; congruence| |exact SO]. intros e H. destruct (PAIR e H) as (l & _ & P). eauto.
      + apply Forall_forall. intros e H. destruct (has_current e) eqn:HC.
        * destruct (PAIR e H) as (l & IL & P). apply in_split in H. destruct H as (pre & post & E).
          apply (B pre e post l E P HC). apply H2; [apply in_map; exact IL|]. rewrite freeze_vde, (proj2 (placed_lid val t e l P)). exact HC.
        * destruct e; try discriminate HC; exact Logic.I.
    - split.
      + intros i Hi. apply (grounded_range t i GR) in Hi. destruct Hi as (n & A). rewrite (K n i A). apply H1.
      + intros l' H HC. apply in_map_iff in H. destruct H as (l & <- & H). destruct (PAIR' l H) as (e & IE & P).
        rewrite freeze_vde, (proj2 (placed_lid val t e l P)) in HC. rewrite Forall_forall in H2. specialize (H2 e IE).
        apply in_split in IE. destruct IE as (pre & post & E). apply (B pre e post l E P HC). exact H2.
  Qed.
End Corr.

(** ** Names to numbers and back *)
Definition volt (t : ntab) (x : vec) (n : str) : R := match ext_node_to_int t (ss n) with Ok i => x i | Err _ => 0 end.
Definition amp (nv : nat) (es : list lelem) (x : vec) (id : str) : R := match vde_index es (ss id) with Ok k => x (nv + k)%nat | Err _ => 0 end.
(** The unknowns, without ground. *)
Definition unknowns (t : ntab) (ids : list str) (V I : str -> R) : vec := fun i =>
  if (S i <? get_nodes_number t)%nat
  then match int_node_to_ext t (S i) with Ok s => V (list_ascii_of_string s) | Err _ => 0 end
  else I (nth (S i - get_nodes_number t) ids []).

Lemma unknowns_V : forall t ids V I, grounded t -> V (lit "0") = 0 ->
  forall n i, at_node t n i -> with_ground (unknowns t ids V I) i = V n.
Proof.
  intros t ids V I G V0 n i A. destruct i as [|i].
  - apply (grounded_zero t n G) in A. subst n. symmetry. exact V0.
  - cbn [with_ground]. unfold unknowns. replace (S i <? get_nodes_number t)%nat with true.
    + pose proof A as A'. apply (ext_int_inverse _ _ _ (proj1 G)) in A. rewrite A. unfold ss. rewrite list_ascii_of_string_of_list_ascii. reflexivity.
    + symmetry. apply Nat.ltb_lt. apply (grounded_range t (S i) G). exists n. exact A.
Qed.
Lemma unknowns_I : forall t ids V I, grounded t ->
  forall k id, nth_error ids k = Some id -> with_ground (unknowns t ids V I) (get_nodes_number t + k)%nat = I id.
Proof.
  intros t ids V I G k id H. pose proof (grounded_number t G) as NZ. set (nv := get_nodes_number t) in *.
  replace (nv + k)%nat with (S (nv - 1 + k)) by lia. cbn [with_ground]. unfold unknowns. fold nv.
  replace (S (nv - 1 + k) <? nv)%nat with false by (symmetry; apply Nat.ltb_ge; lia).
  replace (S (nv - 1 + k) - nv)%nat with k by lia. f_equal. apply nth_error_nth. exact H.
Qed.

Lemma names_of_ok : forall t l, tinv t -> (forall i, In i l -> exists n, at_node t n i) ->
  exists ns, names_of t l = Ok ns /\ List.length ns = List.length l /\
    forall k i, nth_error l k = Some i -> exists n, nth_error ns k = Some n /\ at_node t n i.
Proof.
  intros t l T. induction l as [|i l IH]; intros H.
  - exists []. split; [reflexivity|]. split; [reflexivity|]. intros [|k] i E; discriminate.
  - destruct IH as (ns & E & L & N); [intros j J; apply H; right; exact J|].
    destruct (H i (or_introl eq_refl)) as (n & A). pose proof A as A'. apply (ext_int_inverse _ _ _ T) in A.
    exists (n :: ns). cbn [names_of]. rewrite A, E. cbn [bindr]. unfold ss. rewrite list_ascii_of_string_of_list_ascii.
    split; [reflexivity|]. split; [cbn [List.length]; rewrite L; reflexivity|].
    intros [|k] j J; cbn [nth_error] in *; [|apply N; exact J]. injection J as <-. exists n. auto.
Qed.

(** What a loaded netlist is. *)
Lemma load_facts : forall fs other fuel filename parts t es, load fs other fuel filename = Ok (parts, t, es) ->
  grounded t /\ (1 < get_nodes_number t)%nat /\ Forall2 (placed written_dc t) parts es /\ NoDup (map pid parts) /\ (forall n i, at_node t n i -> In n (node_list parts)).
Proof.
  intros fs other fuel filename parts t es H. unfold load in H.
  destruct (read_netlist fs fuel filename) as [s|]; [|discriminate]. cbn [bindr] in H.
  destruct (parse_models (map fst (r_models s)) []) as [models|]; [|discriminate]. cbn [bindr] in H.
  destruct (main_netlist_parser _ other (map fst (r_lines s)) []) as [p|]; [|discriminate]. cbn [bindr] in H.
  destruct (place_all empty_ntab p) as [[t1 es1]|] eqn:PA; [|discriminate]. cbn [bindr] in H.
  destruct (fst (check_circuit (mkCirc (map as_celem es1) t1 []))) eqn:CK; [|discriminate]. injection H as -> -> ->.
  assert (T0 : tinv empty_ntab) by (exists false, 0%nat; apply ninv_empty).
  destruct (place_all_ok parts empty_ntab t es T0 PA) as (G & P).
  unfold check_circuit in CK. cbn [Circuit.tab elems] in CK.
  destruct (get_nodes_number t <? 2)%nat eqn:N2; [discriminate CK|].
  destruct (dmem nkey_eqb (nodes_dict t) (KInt 0)) eqn:GD; [|discriminate CK]. cbn [negb] in CK.
  destruct (List.length (map as_celem es) <? 2)%nat; [discriminate CK|].
  destruct (has_duplicate_elem (mkCirc (map as_celem es) t [])) eqn:DU; [discriminate CK|]. clear CK.
  pose proof (proj1 G) as T.
  split; [|split; [|split; [exact P|split]]].
  - split; [exact T|]. unfold at_node, ext_node_to_int. change (ss (lit "0")) with ground_name. destruct T as [g [m I]]. rewrite (ni_gnd _ _ _ I).
    destruct g; [reflexivity|]. exfalso. unfold dmem in GD. destruct (dget nkey_eqb (nodes_dict t) (KInt 0)) as [v|] eqn:E; [|discriminate].
    assert (R : dget nkey_eqb (nodes_dict t) (KInt 0) <> None) by congruence. apply (ni_range _ _ _ I) in R. destruct R as [[_ R]|R]; [discriminate|lia].
  - apply Nat.ltb_ge in N2. lia.
  - unfold has_duplicate_elem in DU. cbn [elems] in DU. apply negb_false_iff, Nat.eqb_eq in DU. rewrite map_map in DU.
    change (fun x => part_id (as_celem x)) with lid in DU. rewrite (placed_all_ids written_dc t parts es P) in DU.
    apply (NoDup_map_inv ss).
    assert (Q : forall l : list string, List.length (nodup string_dec l) = List.length l -> NoDup l).
    { clear. induction l as [|a l IH]; intros E; [constructor|]. cbn [nodup] in E.
      assert (LE : forall l' : list string, (List.length (nodup string_dec l') <= List.length l')%nat).
      { clear. induction l' as [|b l' IH]; [auto|]. cbn [nodup]. destruct (in_dec string_dec b l'); cbn [List.length]; lia. }
      destruct (in_dec string_dec a l) as [IN|NI].
      - specialize (LE l). cbn [List.length] in E. lia.
      - constructor; [exact NI|]. apply IH. cbn [List.length] in E. lia. }
    apply Q. exact DU.
  - intros n i A. destruct G as (_ & _ & N). destruct (N _ _ A) as [(k & E)|(m & I & E)]; [discriminate|]. apply ss_inj in E. subst. exact I.
Qed.

Lemma proper_wf : forall val t parts es, grounded t -> Forall2 (placed val t) parts es -> Forall (proper parts) parts ->
  wf_circ (get_nodes_number t) es /\ Forall sense_apart es /\ (forall id n1 n2 src a, ~ In (EH id n1 n2 src a) es) /\ nonlinear es = false.
Proof.
  intros val t parts es G F SO. set (nv := get_nodes_number t).
  assert (RG : forall n i, at_node t n i -> (i < nv)%nat) by (intros n i A; apply (grounded_range t i G); eauto).
  assert (NE : forall n m i j, at_node t n i -> at_node t m j -> n <> m -> i <> j).
  { intros n m i j A B D E. subst j. apply D. eapply at_node_inj; [apply G|exact A|exact B]. }
  assert (ALL : forall e l, placed val t e l -> proper parts e -> wf_elem nv l /\ sense_apart l /\ (forall id n1 n2 src a, l <> EH id n1 n2 src a) /\
             (forall id n1 n2, l <> ENL id n1 n2)).
  { intros e l P (_ & S). pose proof (grounded_number t G) as NZ. fold nv in NZ.
    destruct e; cbn [placed] in P; try (destruct S; fail).
    all: try (destruct P as (m & -> & _)).
    all: try (destruct P as (i & j & -> & A & B); pose proof (RG _ _ A); pose proof (RG _ _ B)).
    all: try (destruct P as (i & j & ii & jj & -> & A & B & A2 & B2); pose proof (RG _ _ A); pose proof (RG _ _ B); pose proof (RG _ _ A2); pose proof (RG _ _ B2)).
    all: split; [unfold wf_elem; cbn [term1 term2 sense_nodes is_vde];
      split; [assumption|split; [assumption|split; [repeat (constructor; [assumption|]); constructor|]]]|split; [|split; congruence]].
    all: try (intros X; discriminate X).
    all: try exact Logic.I.
    all: try (intros _; eapply NE; [exact A|exact B|exact S]).
    - intros _. eapply NE; [exact A|exact B|apply S].
    - cbn [sense_apart]. destruct S as (S0 & S1 & S2 & S3).
      assert (Z : forall n i, at_node t n i -> i <> 0%nat -> n <> lit "0").
      { intros n q A' D E. subst n. apply D. eapply at_node_fun; [exact A'|apply G]. }
      split; [|split].
      + intros D. destruct (S1 (Z _ _ A2 D)). split; eapply NE; eassumption.
      + intros D. destruct (S2 (Z _ _ B2 D)). split; eapply NE; eassumption.
      + intros E. subst jj. assert (EQ : s1 = s2) by (eapply at_node_inj; [apply G|exact A2|exact B2]). subst s2. pose proof (S3 eq_refl) as E0. subst s1. eapply at_node_fun; [exact A2|apply G]. }
  assert (ALL' : forall l, In l es -> wf_elem nv l /\ sense_apart l /\ (forall id n1 n2 src a, l <> EH id n1 n2 src a) /\ (forall id n1 n2, l <> ENL id n1 n2)).
  { intros l H.
    assert (FP : exists e, In e parts /\ placed val t e l).
    { clear - F H. induction F as [|e0 l0 p0 e1 P F IH]; [destruct H|]. destruct H as [->|H]; [exists e0; split; [left|]; auto|].
      destruct (IH H) as (e & A & C). exists e. split; [right|]; auto. }
    destruct FP as (e & IE & P). apply (ALL e l P). rewrite Forall_forall in SO. apply SO. exact IE. }
  split; [apply Forall_forall; intros l H; apply ALL'; exact H|]. split; [apply Forall_forall; intros l H; apply ALL'; exact H|].
  split.
  - intros id n1 n2 src a H. destruct (ALL' _ H) as (_ & _ & C & _). eapply C. reflexivity.
  - unfold nonlinear. apply not_true_iff_false. intros H. apply existsb_exists in H. destruct H as (l & H & E).
    destruct (ALL' l H) as (_ & _ & _ & C). destruct l; try discriminate. eapply C. reflexivity.
Qed.

(** ** The computed vector is the solution of the laws *)
(** The laws of the netlist and the system that is assembled from it. *)
Lemma system_core : forall at0 val t parts es, grounded t -> Forall2 (placed val t) parts es -> Forall (proper parts) parts -> NoDup (map pid parts) ->
  (forall n i, at_node t n i -> In n (node_list parts)) -> well_posed (driven at0 val) parts ->
  forall m N, generate_mna_and_N (get_nodes_number t) es = Ok (m, N) ->
  let n := op_size t es in
  let es' := map (freeze (fun e => at0 (list_ascii_of_string (lid e)))) es in
  (* the matrix is regular *)
  (forall z, (forall i, (i < n)%nat -> row n (reduce_mat m) i z = 0) -> forall i, (i < n)%nat -> z i = 0) /\
  (* the solution of the circuit is the solution of the laws *)
  (forall x, (forall n, (n < get_nodes_number t)%nat -> kcl (get_nodes_number t) es' es' 0 n (with_ground x) = 0) ->
     (forall e, In e es' -> is_vde e = true -> branch_law (get_nodes_number t) es' (with_ground x) e = 0) ->
     forall V I, laws (driven at0 val) V I parts ->
       (forall n i, In n (node_list parts) -> at_node t n (S i) -> x i = V n) /\
       (forall k id, nth_error (current_ids parts) k = Some id -> x (get_nodes_number t - 1 + k)%nat = I id)).
Proof.
  intros at0 val t parts es G PL SO ND MEN (V0 & I0 & L0 & UN) m N GE n_ es_. unfold n_, es_ in *. clear n_ es_.
  destruct (proper_wf val t parts es G PL SO) as (W & SA & NH & NL).
  pose proof (grounded_number t G) as NZ. set (nv := get_nodes_number t) in *.
  set (tv := fun e : lelem => at0 (list_ascii_of_string (lid e))).
  assert (LEN : List.length (current_ids parts) = n_vde es).
  { pose proof (placed_ids val t parts es PL) as E. apply (f_equal (@List.length string)) in E. rewrite !map_length in E. symmetry. exact E. }
  fold tv nv. fold nv in GE.
  destruct (frozen_system tv nv es m N W NZ GE) as (N' & GE' & EN).
  set (es' := map (freeze tv) es) in *.
  assert (W' : wf_circ nv es') by (apply freeze_wf; exact W).
  assert (SA' : Forall sense_apart es').
  { unfold es'. apply Forall_map. eapply Forall_impl; [|exact SA]. intros e He. destruct e as [| | | |? ? ? ? []|? ? ? ? []| | | | |]; exact He. }
  assert (NH' : forall id n1 n2 src a, ~ In (EH id n1 n2 src a) es').
  { intros id n1 n2 src a H. unfold es' in H. apply in_map_iff in H. destruct H as (e & E & H). apply (NH id n1 n2 src a).
    destruct e as [| | | |? ? ? ? []|? ? ? ? []| | | | |]; cbn [freeze] in E; try discriminate. rewrite <- E. exact H. }
  assert (SZ : (nv + n_vde es' - 1 = op_size t es)%nat) by (unfold es', op_size; rewrite freeze_n_vde; reflexivity).
  set (size := op_size t es) in *.
  assert (SZ' : (size = nv - 1 + List.length (current_ids parts))%nat) by (unfold size, op_size; fold nv; lia).
  (* solutions of the system are solutions of the laws *)
  assert (PHYS : forall y, (forall i, (i < size)%nat -> row size (reduce_mat m) i y + reduce_vec N' i = 0) <->
     laws (driven at0 val) (volt t (with_ground y)) (amp nv es' (with_ground y)) parts).
  { intros y. pose proof (C05_reduced_iff_physical nv es' m N' y W' NZ GE' SA' NH') as C. cbv zeta in C. rewrite SZ in C.
    rewrite C. unfold laws.
    assert (Z : volt t (with_ground y) (lit "0") = 0) by (unfold volt; destruct G as (_ & GZ); unfold at_node in GZ; rewrite GZ; reflexivity).
    pose proof (laws_numbered at0 val t parts es G PL SO ND (volt t (with_ground y)) (amp nv es' (with_ground y)) (with_ground y)) as LN.
    cbv zeta in LN. fold nv tv es' in LN. rewrite LN; [tauto| |].
    - intros n i A. unfold volt. unfold at_node in A. rewrite A. reflexivity.
    - intros k id H. unfold amp, es', tv. rewrite (es_index at0 val t parts es PL SO ND k id H). reflexivity. }
  assert (EXT : forall V V' I I', (forall n, In n (node_list parts) -> V n = V' n) -> (forall id, In id (current_ids parts) -> I id = I' id) ->
     V (lit "0") = V' (lit "0") -> laws (driven at0 val) V I parts -> laws (driven at0 val) V' I' parts).
  { intros V V' I I' EV EI E0 (A & B & C).
    assert (ONE : forall e, In e parts -> through (driven at0 val) V I e = through (driven at0 val) V' I' e /\ (law (driven at0 val) V I e -> law (driven at0 val) V' I' e)).
    { intros e H.
      assert (NI : forall n, In n (nodes_in e) -> V n = V' n) by (intros n Hn; apply EV; unfold node_list; apply in_flat_map; exists e; auto).
      assert (CI : has_current e = true -> I (pid e) = I' (pid e)) by (intros HC; apply EI; unfold current_ids; apply in_map; apply filter_In; auto).
      rewrite Forall_forall in SO. specialize (SO e H). destruct SO as (_ & S).
      destruct e; cbn [through law nodes_in has_current pid] in *; try (destruct S; fail); try (split; [reflexivity|auto]; fail).
      - rewrite (NI n1), (NI n2) by (simpl; auto). auto.
      - rewrite (NI n1), (NI n2) by (simpl; auto). auto.
      - rewrite (NI n1), (NI n2) by (simpl; auto). auto.
      - rewrite (NI n1), (NI n2), (NI s1), (NI s2) by (simpl; auto). auto.
      - rewrite (NI s1), (NI s2) by (simpl; auto). auto.
      - rewrite (EI src S). auto. }
    split; [congruence|]. split.
    - intros n. rewrite <- (B n).
      assert (L : forall l, incl l parts -> leaving (driven at0 val) V' I' n l = leaving (driven at0 val) V I n l).
      { induction l as [|e l IH]; intros IN; [reflexivity|]. cbn [leaving]. rewrite IH by (intros q Q; apply IN; right; exact Q). f_equal.
        unfold leaving1. rewrite (proj1 (ONE e (IN e (or_introl eq_refl)))). reflexivity. }
      apply L. apply incl_refl.
    - rewrite Forall_forall in *. intros e H. apply (ONE e H). apply C. exact H. }
  set (y0 := unknowns t (current_ids parts) V0 I0).
  assert (Y0V : forall n i, at_node t n i -> with_ground y0 i = V0 n) by (apply unknowns_V; [exact G|apply L0]).
  assert (Y0I : forall k id, nth_error (current_ids parts) k = Some id -> with_ground y0 (nv + k)%nat = I0 id) by (apply unknowns_I; exact G).
  assert (VOLT : forall y n i, at_node t n i -> volt t (with_ground y) n = with_ground y i) by (intros y n i A; unfold volt; unfold at_node in A; rewrite A; reflexivity).
  assert (AMP : forall y k id, nth_error (current_ids parts) k = Some id -> amp nv es' (with_ground y) id = with_ground y (nv + k)%nat).
  { intros y k id H. unfold amp, es', tv. rewrite (es_index at0 val t parts es PL SO ND k id H). reflexivity. }
  assert (REGD : forall n, In n (node_list parts) -> exists i, at_node t n i).
  { intros n H. unfold node_list in H. apply in_flat_map in H. destruct H as (e & IE & H).
    assert (PE : exists l, placed val t e l).
    { clear - PL IE. induction PL as [|e0 l0 p0 e1 P F IH]; [destruct IE|]. destruct IE as [->|IE]; [eauto|auto]. }
    destruct PE as (l & P). rewrite Forall_forall in SO. specialize (SO e IE). destruct SO as (_ & S).
    destruct e; cbn [placed] in P; cbn [nodes_in] in H; try (destruct S; fail); try (destruct H; fail).
    all: try (destruct P as (i & j & _ & A & B); destruct H as [<-|[<-|[]]]; eauto; fail).
    all: destruct P as (i & j & ii & jj & _ & A & B & A2 & B2); destruct H as [<-|[<-|[<-|[<-|[]]]]]; eauto. }
  assert (SOL0 : forall i, (i < size)%nat -> row size (reduce_mat m) i y0 + reduce_vec N' i = 0).
  { apply PHYS. apply (EXT V0 _ I0 _); [| | |exact L0].
    - intros n H. destruct (REGD n H) as (i & A). rewrite (VOLT y0 n i A). symmetry. apply Y0V. exact A.
    - intros id H. apply In_nth_error in H. destruct H as (k & H). rewrite (AMP y0 k id H). symmetry. apply Y0I. exact H.
    - destruct G as (_ & GZ). rewrite (VOLT y0 _ _ GZ). symmetry. apply Y0V. exact GZ. }
  (* every solution is this one *)
  assert (UNI : forall y, (forall i, (i < size)%nat -> row size (reduce_mat m) i y + reduce_vec N' i = 0) -> forall i, (i < size)%nat -> y i = y0 i).
  { intros y H i Hi. apply PHYS in H. destruct (UN _ _ H) as (U1 & U2).
    destruct (lt_dec (S i) nv) as [IN|OUT].
    - pose proof (proj1 (grounded_range t (S i) G) IN) as (n & A). specialize (U1 n (MEN n _ A)).
      rewrite (VOLT y n _ A) in U1. rewrite <- (Y0V n _ A) in U1. exact U1.
    - assert (K : (S i - nv < List.length (current_ids parts))%nat) by lia.
      destruct (nth_error (current_ids parts) (S i - nv)) as [id|] eqn:E; [|apply nth_error_None in E; lia].
      specialize (U2 id (nth_error_In _ _ E)). rewrite (AMP y _ _ E), <- (Y0I _ _ E) in U2.
      replace (nv + (S i - nv))%nat with (S i) in U2 by lia. exact U2. }
  assert (REG : forall z, (forall i, (i < size)%nat -> row size (reduce_mat m) i z = 0) -> forall i, (i < size)%nat -> z i = 0).
  { intros z Z i Hi. pose proof (UNI (fun k => y0 k + z k)) as U.
    assert (Q : y0 i + z i = y0 i); [|lra]. apply U; [|exact Hi]. intros k Hk.
    assert (RS : row size (reduce_mat m) k (fun q => y0 q + z q) = row size (reduce_mat m) k y0 + row size (reduce_mat m) k z).
    { unfold row. rewrite <- rsum_plus. apply rsum_ext. intros j _. ring. }
    rewrite RS, (Z k Hk). specialize (SOL0 k Hk). lra. }
  split; [exact REG|]. intros x K1 K2.
  assert (SOLX : forall i, (i < size)%nat -> row size (reduce_mat m) i x + reduce_vec N' i = 0).
  { pose proof (C05_reduced_iff_physical nv es' m N' x W' NZ GE' SA' NH') as C. cbv zeta in C. rewrite SZ in C. apply C. split; assumption. }
  pose proof (UNI x SOLX) as XY.
  intros V I L. destruct (UN V I L) as (U1 & U2).
  split.
  - intros n i H A. assert (Hi : (S i < nv)%nat) by (apply (grounded_range t (S i) G); eauto).
    rewrite XY by lia. rewrite (U1 n H). apply (Y0V n (S i) A).
  - intros k id H. assert (Hk : (k < List.length (current_ids parts))%nat) by (apply nth_error_Some; congruence).
    rewrite XY by lia. rewrite (U2 id (nth_error_In _ _ H)). rewrite <- (Y0I k id H). replace (nv + k)%nat with (S (nv - 1 + k)) by lia. reflexivity.
Qed.
Lemma op_core : forall at0 val t parts es, grounded t -> Forall2 (placed val t) parts es -> Forall (proper parts) parts -> NoDup (map pid parts) ->
  (forall n i, at_node t n i -> In n (node_list parts)) -> well_posed (driven at0 val) parts ->
  forall solve JT check locked o tdo maxit fuel' gmin x0 x flag,
  let n := op_size t es in
  (forall A b y, solve n A b = Some y -> forall i, (i < n)%nat -> row n A i y = b i) ->
  (forall A b, solve n A b = None -> exists z, (forall i, (i < n)%nat -> row n A i z = 0) /\ exists i, (i < n)%nat /\ z i <> 0) ->
  d_first tdo = false -> (0 < maxit)%nat -> o_std o = true ->
  op_run solve JT check locked o tdo maxit (S fuel') gmin at0 t es x0 = Ok (Some (x, flag)) ->
  flag = true /\
  forall V I, laws (driven at0 val) V I parts ->
    (forall n i, In n (node_list parts) -> at_node t n (S i) -> x i = V n) /\
    (forall k id, nth_error (current_ids parts) k = Some id -> x (get_nodes_number t - 1 + k)%nat = I id).
Proof.
  intros at0 val t parts es G PL SO ND MEN WP solve JT check locked o tdo maxit fuel' gmin x0 x flag n_ SS SC DF MX OS RUN. unfold n_ in *. clear n_.
  destruct (proper_wf val t parts es G PL SO) as (W & SA & NH & NL).
  pose proof (grounded_number t G) as NZ.
  pose proof (system_core at0 val t parts es G PL SO ND MEN WP) as SYS. set (nv := get_nodes_number t) in *.
  set (tv := fun e : lelem => at0 (list_ascii_of_string (lid e))) in *.
  unfold op_run in RUN. fold tv nv in RUN.
  destruct (generate_mna_and_N nv es) as [[m N]|ex] eqn:GE; [|unfold op_analysis in RUN; rewrite GE in RUN; discriminate].
  destruct (SYS m N eq_refl) as (REG & PHYS). clear SYS.
  set (size := op_size t es) in *.
  assert (RUN' : op_analysis o (fun _ A b q => mdn_solver size (solve size) false JT (fun dx it => get_td tdo size dx [] (Some it)) check maxit A b (Some (size, q)))
     gmin tv nv es (S fuel') x0 = Ok (Some (x, flag))).
  { unfold op_newton in RUN. unfold ports in RUN. rewrite NL in RUN. exact RUN. }
  pose proof (C68_linear_op_physical o gmin tv nv es (solve size) JT (fun dx it => get_td tdo size dx [] (Some it)) check maxit fuel' x0 x flag m N W NZ SA NH GE) as C68.
  cbv zeta in C68. change (nv + n_vde es - 1)%nat with size in C68.
  specialize (C68 SS SC REG).
  destruct C68 as (FL & K1 & K2); [|exact MX|exact OS|exact RUN'|].
  { intros dx n. unfold get_td, td_first. rewrite DF. destruct (d_lock tdo); reflexivity. }
  split; [exact FL|].
  apply PHYS; assumption.
Qed.
Lemma named_nodes : forall val t parts es, Forall2 (placed val t) parts es -> Forall (proper parts) parts ->
  forall n, In n (node_list parts) -> exists i, at_node t n i.
Proof.
  intros val t parts es PL SO n H. unfold node_list in H. apply in_flat_map in H. destruct H as (e & IE & H).
  assert (PE : exists l, placed val t e l).
  { clear - PL IE. induction PL as [|e0 l0 p0 e1 P F IH]; [destruct IE|]. destruct IE as [->|IE]; [eauto|auto]. }
  destruct PE as (l & P). rewrite Forall_forall in SO. specialize (SO e IE). destruct SO as (_ & S).
  destruct e; cbn [placed] in P; cbn [nodes_in] in H; try (destruct S; fail); try (destruct H; fail).
  all: try (destruct P as (i & j & _ & A & B); destruct H as [<-|[<-|[]]]; eauto; fail).
  all: destruct P as (i & j & ii & jj & _ & A & B & A2 & B2); destruct H as [<-|[<-|[<-|[<-|[]]]]]; eauto.
Qed.

(** * C192 *)
Theorem C192_operating_point : forall fs other fuel filename parts t es, load fs other fuel filename = Ok (parts, t, es) ->
  (* nothing is said of subcircuits and user-defined elements, except the case of their names *)
  (forall line l, other line = Ok l -> Forall lower_case l) ->
  forall at0, Forall (sound parts) parts -> well_posed (dc_source at0) parts ->
  forall solve JT check locked o tdo maxit fuel' gmin x0 x flag,
  let n := op_size t es in
  (* the linear solver solves, and refuses singular matrices only *)
  (forall A b y, solve n A b = Some y -> forall i, (i < n)%nat -> row n A i y = b i) ->
  (forall A b, solve n A b = None -> exists z, (forall i, (i < n)%nat -> row n A i z = 0) /\ exists i, (i < n)%nat /\ z i <> 0) ->
  d_first tdo = false -> (0 < maxit)%nat -> o_std o = true ->
  op_run solve JT check locked o tdo maxit (S fuel') gmin at0 t es x0 = Ok (Some (x, flag)) ->
  flag = true /\
  forall V I, laws (dc_source at0) V I parts ->
    (forall n name, In n (node_list parts) -> n <> lit "0" -> slower name = slower (lit "V" ++ n) -> op_report t es x name = Ok (V n)) /\
    (forall id name, In id (current_ids parts) -> slower name = slower (lit "I(" ++ id ++ lit ")") -> op_report t es x name = Ok (I id)).
Proof.
  intros fs other fuel filename parts t es LD OT at0 SO_ WP solve JT check locked o tdo maxit fuel' gmin x0 x flag n_ SS SC DF MX OS RUN. unfold n_ in *. clear n_.
  assert (SO : Forall (proper parts) parts).
  { pose proof (load_lower _ _ _ _ _ _ _ OT LD) as LC. apply Forall_forall. rewrite Forall_forall in SO_, LC. intros e H. split; auto. }
  destruct (load_facts _ _ _ _ _ _ _ LD) as (G & NV & PL & ND & MEN).
  destruct (op_core at0 written_dc t parts es G PL SO ND MEN WP solve JT check locked o tdo maxit fuel' gmin x0 x flag SS SC DF MX OS RUN) as (FL & CORE).
  split; [exact FL|]. intros V I L. destruct (CORE V I L) as (C1 & C2). pose proof (named_nodes written_dc t parts es PL SO) as REGD.
  pose proof (grounded_number t G) as NZ. set (nv := get_nodes_number t) in *. set (size := op_size t es) in *.
  assert (LEN : List.length (current_ids parts) = n_vde es).
  { pose proof (placed_ids written_dc t parts es PL) as E. apply (f_equal (@List.length string)) in E. rewrite !map_length in E. symmetry. exact E. }
  assert (SZ' : (size = nv - 1 + List.length (current_ids parts))%nat) by (unfold size, op_size; fold nv; lia).
  destruct (names_of_ok t (seq 1 (nv - 1)) (proj1 G)) as (ns & NS & NL1 & NS').
  { intros i H. apply in_seq in H. apply (grounded_range t i G). fold nv. lia. }
  rewrite seq_length in NL1.
  assert (NSK : forall k n, nth_error ns k = Some n -> at_node t n (S k)).
  { intros k n H. assert (K : (k < nv - 1)%nat) by (rewrite <- NL1; apply nth_error_Some; congruence).
    destruct (NS' k (S k)) as (n' & E & A); [|congruence]. rewrite (nth_error_nth' (seq 1 (nv - 1)) 0%nat) by (rewrite seq_length; exact K). rewrite seq_nth by exact K. reflexivity. }
  assert (DN : distinct ns).
  { unfold distinct. replace (map slower ns) with ns.
    - apply NoDup_nth_error. intros a b Ha E. destruct (nth_error ns a) as [n|] eqn:EA; [|apply nth_error_None in EA; lia].
      symmetry in E. apply NSK in EA. apply NSK in E. pose proof (at_node_fun _ _ _ _ EA E). lia.
    - assert (Q : forall n, In n ns -> slower n = n).
      { intros n H. apply In_nth_error in H. destruct H as (k & H). apply NSK in H. apply MEN in H. unfold node_list in H. apply in_flat_map in H.
        destruct H as (e & IE & H). rewrite Forall_forall in SO. destruct (SO e IE) as ((_ & F) & _). rewrite Forall_forall in F. apply F. exact H. }
      symmetry. rewrite <- (map_id ns) at 2. apply map_ext_in. exact Q. }
  assert (IDS : map (fun e => list_ascii_of_string (lid e)) (filter is_vde es) = current_ids parts).
  { rewrite <- (map_map lid list_ascii_of_string). fold (vdes es). rewrite (placed_ids written_dc t parts es PL), map_map. rewrite <- (map_id (current_ids parts)) at 2.
    apply map_ext. intros s. apply list_ascii_of_string_of_list_ascii. }
  assert (DI : distinct (current_ids parts)).
  { unfold distinct. replace (map slower (current_ids parts)) with (current_ids parts); [apply (current_nodup parts ND)|].
    symmetry. rewrite <- (map_id (current_ids parts)) at 2. apply map_ext_in. pose proof (current_lower parts SO) as F. rewrite Forall_forall in F. exact F. }
  assert (LX : List.length (map x (seq 0 size)) = (List.length ns + List.length (current_ids parts))%nat) by (rewrite map_length, seq_length, NL1; exact SZ').
  destruct (C36_op R 0 ns (current_ids parts) (map x (seq 0 size)) DN DI LX) as (F1 & F2 & _).
  assert (VAL : forall k, (k < size)%nat -> nth k (map x (seq 0 size)) 0 = x k).
  { intros k K. rewrite (nth_indep _ 0 (x 0%nat)) by (rewrite map_length, seq_length; exact K). rewrite map_nth, seq_nth by exact K. reflexivity. }
  assert (RP : forall name, op_report t es x name = op_getitem 0 (op_vars ns (current_ids parts)) (map x (seq 0 size)) name).
  { intros name. unfold op_report. fold nv size. rewrite NS, IDS. reflexivity. }
  split.
  - intros n name H NG E. destruct (REGD n H) as ([|i] & A); [exfalso; apply NG; apply (grounded_zero t n G); exact A|].
    assert (Hi : (S i < nv)%nat) by (apply (grounded_range t (S i) G); eauto).
    assert (EN' : nth_error ns i = Some n).
    { destruct (nth_error ns i) as [n'|] eqn:E'; [|apply nth_error_None in E'; lia]. f_equal. apply NSK in E'. eapply at_node_inj; [apply G|exact E'|exact A]. }
    rewrite RP, (F1 i n name EN' E), VAL by lia. f_equal. apply C1; assumption.
  - intros id name H E. apply In_nth_error in H. destruct H as (k & H).
    assert (Hk : (k < List.length (current_ids parts))%nat) by (apply nth_error_Some; congruence).
    rewrite RP, (F2 k id name H E), VAL by lia. f_equal. rewrite NL1. apply C2. exact H.
Qed.
Print Assumptions C192_operating_point.

(** A divider: its laws have one solution. *)
Definition divider : list str := [lit "a divider"; lit "V1 IN 0 type=vdc vdc=10"; lit "* the load"; lit "R1 in Out"; lit "+ 1k"; lit "R2 out 0 3K"; lit ".op"].
Definition divider_parts : list pelem :=
  [PV (lit "v1") (lit "in") (lit "0") (Some (10, 0)%Z) None None; PR (lit "r1") (lit "in") (lit "out") (1, 3)%Z; PR (lit "r2") (lit "out") (lit "0") (3, 3)%Z].
Lemma dR_1k : dR (1, 3)%Z = 1000.
Proof. unfold dR. cbn [fst snd]. change (powerRZ 10 3) with (10 ^ 3). lra. Qed.
Lemma dR_3k : dR (3, 3)%Z = 3000.
Proof. unfold dR. cbn [fst snd]. change (powerRZ 10 3) with (10 ^ 3). lra. Qed.
Lemma dR_0 : forall z, dR (z, 0)%Z = IZR z.
Proof. intros z. unfold dR. cbn [fst snd powerRZ]. lra. Qed.
Ltac at_names := repeat match goal with |- context [streqb ?a ?b] => let r := eval vm_compute in (streqb a b) in match r with true => idtac | false => idtac end; change (streqb a b) with r end.
Ltac at_names_in H := repeat match type of H with context [streqb ?a ?b] => let r := eval vm_compute in (streqb a b) in match r with true => idtac | false => idtac end; change (streqb a b) with r in H end.
Example C192_divider : forall at0,
  (exists t es, load (fun _ => Some divider) (fun _ => Err NetlistParseError) 1 (lit "f") = Ok (divider_parts, t, es)) /\
  Forall (sound divider_parts) divider_parts /\ well_posed (dc_source at0) divider_parts /\
  laws (dc_source at0) (fun n => if streqb n (lit "in") then 10 else if streqb n (lit "out") then 15/2 else 0) (fun _ => -1/400) divider_parts.
Proof.
  intros at0.
  assert (L : laws (dc_source at0) (fun n => if streqb n (lit "in") then 10 else if streqb n (lit "out") then 15/2 else 0) (fun _ => -1/400) divider_parts).
  { split; [reflexivity|]. split.
    - intros n. unfold divider_parts. cbn [leaving]. unfold leaving1. cbn [first_end second_end through]. at_names. rewrite ?dR_1k, ?dR_3k.
      destruct (streqb n (lit "in")) eqn:E1, (streqb n (lit "0")) eqn:E2, (streqb n (lit "out")) eqn:E3; cbv iota; try lra;
        unfold streqb in *; destruct (list_eq_dec ascii_dec n (lit "in")), (list_eq_dec ascii_dec n (lit "0")), (list_eq_dec ascii_dec n (lit "out")); subst; try discriminate.
    - repeat constructor. cbn [law dc_source driven written_dc]. at_names. rewrite dR_0. lra. }
  split; [|split; [|split; [|exact L]]].
  - do 2 eexists. unfold load.
    match goal with |- context [read_netlist ?a ?b ?c] => let r := eval vm_compute in (read_netlist a b c) in change (read_netlist a b c) with r end. cbn [bindr r_models r_lines map parse_models fst snd].
    match goal with |- context [main_netlist_parser ?a ?b ?c ?d] => let r := eval vm_compute in (main_netlist_parser a b c d) in change (main_netlist_parser a b c d) with r end. cbn [bindr].
    cbv -[dR]. reflexivity.
  - repeat constructor; try (vm_compute; reflexivity); discriminate.
  - do 2 eexists. split; [exact L|]. intros V I (A & B & C).
    pose proof (B (lit "in")) as K1. pose proof (B (lit "out")) as K2. unfold divider_parts in K1, K2, C. cbn [leaving] in K1, K2. unfold leaving1 in K1, K2.
    cbn [first_end second_end through] in K1, K2. at_names_in K1. at_names_in K2. rewrite ?dR_1k, ?dR_3k in K1; rewrite ?dR_1k, ?dR_3k in K2.
    pose proof (Forall_inv C) as C1. cbn [law dc_source driven written_dc] in C1. rewrite A, dR_0 in C1.
    assert (VI : V (lit "in") = 10) by lra. rewrite VI, A in *.
    assert (VO : V (lit "out") = 15/2) by lra. rewrite VO in *.
    assert (IV : I (lit "v1") = -1/400) by lra.
    split; [intros n H|intros id H]; cbn in H.
    + repeat (destruct H as [<-|H]; [at_names; first [exact VI | exact VO | exact A]|]). destruct H.
    + destruct H as [<-|[]]. exact IV.
Qed.

(** ** From the text *)

Lemma node_total : forall t s, tinv t -> exists t' i, node t s = Ok (t', i).
Proof. intros t s T. unfold node. destruct (add_ok t (ss s) T) as (i & A & _). rewrite A. cbn [bindr]. eauto. Qed.
Lemma nodes2_total : forall t a b, tinv t -> exists t' i j, nodes2 t a b = Ok (t', (i, j)).
Proof.
  intros t a b T. unfold nodes2. destruct (node_total t a T) as (t1 & i & E1). rewrite E1. cbn [bindr].
  destruct (node_total t1 b (proj1 (proj1 (node_grows _ _ _ _ T E1)))) as (t2 & j & E2). rewrite E2. cbn [bindr]. eauto.
Qed.
Lemma place_total : forall t e, tinv t -> exists t' l, place t e = Ok (t', l) /\ forall n, In n (nodes_in e) -> exists i, at_node t' n i.
Proof.
  intros t e T. destruct e; cbn [place nodes_in].
  4: { do 2 eexists. split; [reflexivity|intros n []]. }
  all: match goal with |- context [nodes2 ?u ?a ?b] => destruct (nodes2_total u a b T) as (t1 & i & j & E1) end; rewrite E1; cbn [bindr];
    destruct (nodes2_grows _ _ _ _ _ _ T E1) as (G1 & A1 & B1).
  all: try (do 2 eexists; split; [reflexivity|]; intros nn H; repeat (destruct H as [<-|H]; [eauto|]); destruct H; fail).
  all: match goal with |- context [nodes2 ?u ?a ?b] => destruct (nodes2_total u a b (proj1 G1)) as (t2 & i2 & j2 & E2) end; rewrite E2; cbn [bindr];
    destruct (nodes2_grows _ _ _ _ _ _ (proj1 G1) E2) as (G2 & A2 & B2).
  all: do 2 eexists; split; [reflexivity|]; intros nn H; repeat (destruct H as [<-|H]; [first [eexists; apply (proj1 (proj2 G2)); eassumption | eauto]|]); destruct H.
Qed.
Lemma place_all_total : forall parts t, tinv t ->
  exists t' es, place_all t parts = Ok (t', es) /\ forall n, In n (node_list parts) -> exists i, at_node t' n i.
Proof.
  induction parts as [|e parts IH]; intros t T; cbn [place_all].
  - do 2 eexists. split; [reflexivity|intros n []].
  - destruct (place_total t e T) as (t1 & l & E1 & N1). rewrite E1. cbn [bindr]. destruct (place_ok _ _ _ _ T E1) as (G1 & _).
    destruct (IH t1 (proj1 G1)) as (t2 & ls & E2 & N2). rewrite E2. cbn [bindr]. do 2 eexists. split; [reflexivity|].
    intros n H. unfold node_list in H. cbn [flat_map] in H. apply in_app_or in H. destruct H as [H|H]; [|apply N2; exact H].
    destruct (N1 n H) as (i & A). exists i. destruct (place_all_ok _ _ _ _ (proj1 G1) E2) as (G2 & _). apply (proj1 (proj2 G2)). exact A.
Qed.

(** The check is passed exactly by at least two elements with different names, between
    nodes one of which is "0" and one is not. *)
Definition a_circuit (parts : list pelem) : Prop :=
  (2 <= List.length parts)%nat /\ NoDup (map pid parts) /\ In (lit "0") (node_list parts) /\ exists n, In n (node_list parts) /\ n <> lit "0".

Lemma check_placed : forall parts t es, place_all empty_ntab parts = Ok (t, es) ->
  (fst (check_circuit (mkCirc (map as_celem es) t [])) = true <-> a_circuit parts).
Proof.
  intros parts t es PA. assert (T0 : tinv empty_ntab) by (exists false, 0%nat; apply ninv_empty).
  destruct (place_all_total parts empty_ntab T0) as (t' & es' & PA' & REG). rewrite PA in PA'. injection PA' as <- <-.
  destruct (place_all_ok parts empty_ntab t es T0 PA) as (G & P). pose proof (proj1 G) as T.
  assert (MEN : forall n i, at_node t n i -> In n (node_list parts)).
  { intros n i A. destruct G as (_ & _ & N). destruct (N _ _ A) as [(k & E)|(m & I & E)]; [discriminate|]. apply ss_inj in E. subst. exact I. }
  assert (Z : dmem nkey_eqb (nodes_dict t) (KInt 0) = true <-> at_node t (lit "0") 0).
  { unfold at_node, ext_node_to_int. change (ss (lit "0")) with ground_name. destruct T as [g [m I]]. rewrite (ni_gnd _ _ _ I), (ninv_zero_mem _ _ _ I).
    destruct g; split; intros H; try reflexivity; discriminate H. }
  assert (Z' : at_node t (lit "0") 0 <-> In (lit "0") (node_list parts)).
  { split; [apply MEN|]. intros H. destruct (REG _ H) as (i & A). unfold at_node, ext_node_to_int in *. change (ss (lit "0")) with ground_name in *.
    destruct T as [g [m I]]. rewrite (ni_gnd _ _ _ I) in *. destruct g; [reflexivity|discriminate A]. }
  assert (LN : List.length (map as_celem es) = List.length parts) by (rewrite map_length; clear - P; induction P; cbn; congruence).
  assert (IDS : map part_id (map as_celem es) = map ss (map pid parts)).
  { rewrite map_map. change (fun x => part_id (as_celem x)) with lid. rewrite (placed_all_ids written_dc t parts es P). rewrite map_map. reflexivity. }
  assert (DU : has_duplicate_elem (mkCirc (map as_celem es) t []) = false <-> NoDup (map pid parts)).
  { rewrite has_duplicate_spec. cbn [elems]. rewrite IDS. split; [apply NoDup_map_inv|]. intros N. apply FinFun.Injective_map_NoDup; [|exact N]. exact ss_inj. }
  assert (N2 : at_node t (lit "0") 0 -> ((2 <= get_nodes_number t)%nat <-> exists n, In n (node_list parts) /\ n <> lit "0")).
  { intros G0. assert (GR : grounded t) by (split; [exact T|exact G0]). split.
    - intros L. destruct (proj1 (grounded_range t 1 GR)) as (n & A); [lia|]. exists n. split; [eapply MEN; exact A|]. intros ->.
      pose proof (at_node_fun _ _ _ _ A G0). discriminate.
    - intros (n & H & NE). destruct (REG n H) as (i & A). pose proof (proj2 (grounded_range t i GR) (ex_intro _ n A)) as L.
      destruct i as [|i]; [|lia]. exfalso. apply NE. apply (grounded_zero t n GR). exact A. }
  unfold check_circuit, a_circuit. cbn [Circuit.tab elems]. rewrite LN.
  destruct (get_nodes_number t <? 2)%nat eqn:C1.
  { apply Nat.ltb_lt in C1. cbn [fst]. split; [discriminate|]. intros (_ & _ & H0 & H1). apply Z' in H0. apply (N2 H0) in H1. lia. }
  apply Nat.ltb_ge in C1. destruct (dmem nkey_eqb (nodes_dict t) (KInt 0)) eqn:C2; cbn [negb].
  2: { cbn [fst]. split; [discriminate|]. intros (_ & _ & H0 & _). apply Z' in H0. apply Z in H0. discriminate. }
  destruct (List.length parts <? 2)%nat eqn:C3.
  { apply Nat.ltb_lt in C3. cbn [fst]. split; [discriminate|]. intros (H & _). lia. }
  apply Nat.ltb_ge in C3. destruct (has_duplicate_elem (mkCirc (map as_celem es) t [])) eqn:C4; cbn [fst].
  { split; [discriminate|]. intros (_ & H & _). apply DU in H. discriminate. }
  split; [intros _|reflexivity]. split; [exact C3|]. split; [apply DU; reflexivity|]. assert (G0 : at_node t (lit "0") 0) by (apply Z; reflexivity).
  split; [apply Z'; exact G0|]. apply (N2 G0). exact C1.
Qed.

(** A netlist whose element lines are written in the documented syntax (C129) is read as
    the elements they describe, and is refused only if they do not make a circuit. *)
Definition describes (models : list (str * mtype)) (line : str) (e : pelem) : Prop := exists c, begins c line /\ syntax models c (split line) e.

Theorem C192_text : forall fs filename title fp bs ps rest fuel other models parts,
  fs filename = Some (title :: fp) -> holds fs (path_dir filename) fp bs ps -> visits fs (path_dir filename) ps rest -> (List.length rest < fuel)%nat ->
  let all := (bs ++ concat rest)%list in
  parse_models (of_kind KModel (texts all)) [] = Ok models ->
  Forall2 (describes (map (fun m => (fst m, fst (snd m))) models)) (main_lines all) parts ->
  (a_circuit parts -> exists t es, load fs other fuel filename = Ok (parts, t, es)) /\
  (~ a_circuit parts -> load fs other fuel filename = Err SystemExit).
Proof.
  intros fs filename title fp bs ps rest fuel other models parts F H V LF all PM DOC.
  destruct (C113_groups fs filename title fp bs ps rest fuel F H V LF) as (s & R & _ & _ & MO & _ & LI & _). fold all in MO, LI.
  unfold load. rewrite R. cbn [bindr]. rewrite MO, PM, LI. cbn [bindr].
  assert (MP : forall acc, main_netlist_parser (map (fun m => (fst m, fst (snd m))) models) other (main_lines all) acc = Ok (acc ++ parts)%list).
  { clear - DOC. induction DOC as [|line e lines parts (c & B & S) _ IH]; intros acc; cbn [main_netlist_parser].
    - rewrite app_nil_r. reflexivity.
    - rewrite (C129_documented _ other line acc c _ e B eq_refl S). cbn [bindr]. rewrite IH, <- app_assoc. reflexivity. }
  rewrite MP. cbn [bindr app].
  assert (T0 : tinv empty_ntab) by (exists false, 0%nat; apply ninv_empty).
  destruct (place_all_total parts empty_ntab T0) as (t & es & PA & _). rewrite PA. cbn [bindr].
  pose proof (check_placed parts t es PA) as CK. destruct (fst (check_circuit (mkCirc (map as_celem es) t []))).
  - split; [intros _; eauto|]. intros N. exfalso. apply N, CK. reflexivity.
  - split; [intros A; apply CK in A; discriminate|reflexivity].
Qed.
Print Assumptions C192_text.

(** The same name twice, nothing but resistors in the air, one element. *)
Example C192_refused :
  Forall (fun lines => load (fun _ => Some (lit "title" :: map lit lines)) (fun _ => Err NetlistParseError) 1 (lit "f") = Err SystemExit)
    [["r1 a 0 1"; "R1 a 0 2"]; ["r1 a b 1"; "r2 b a 2"]; ["v1 a 0 type=vdc vdc=1"]]%string.
Proof.
  repeat constructor; unfold load;
  match goal with |- context [read_netlist ?a ?b ?c] => let r := eval vm_compute in (read_netlist a b c) in change (read_netlist a b c) with r end;
    cbn [bindr r_models r_lines map parse_models fst snd];
  match goal with |- context [main_netlist_parser ?a ?b ?c ?d] => let r := eval vm_compute in (main_netlist_parser a b c d) in change (main_netlist_parser a b c d) with r end;
    cbn [bindr]; cbv -[dR]; reflexivity.
Qed.

(** And an operating point that is returned: 3 A drawn from a node with 2 Ohm to ground. *)
Definition shunt : list str := [lit "shunt"; lit "R1 A 0 2"; lit "I1 a 0 type=idc idc=3"; lit ".OP"].
Definition shunt_parts : list pelem := [PR (lit "r1") (lit "a") (lit "0") (2, 0)%Z; PI (lit "i1") (lit "a") (lit "0") (Some (3, 0)%Z) None None].
Definition shunt_t : ntab := mkNtab [(KInt 1, KStr "a"); (KStr "a", KInt 1); (KInt 0, KStr "0"); (KStr "0", KInt 0)] 0.
Definition shunt_es : list lelem := [ER "r1" 1 0 2; EI "i1" 1 0 3 false].
Lemma shunt_newton : forall mx JT check locked,
  op_newton (fun _ => solve1) JT check locked (mkTd false true (1/10)) (S mx) shunt_t shunt_es = newt1 mx JT check.
Proof. intros. reflexivity. Qed.

Lemma shunt_run : forall mx JT check locked at0, exists x,
  op_run (fun _ => solve1) JT check locked PropsDc.default_opts (mkTd false true (1/10)) (S mx) 30 (1/1000000000000) at0 shunt_t shunt_es vzero = Ok (Some (x, true)) /\
  x 0%nat = -6.
Proof.
  intros mx JT check locked at0. unfold op_run. rewrite shunt_newton.
  apply (C68_example mx JT check (fun e => at0 (list_ascii_of_string (lid e)))).
Qed.

Lemma shunt_report : forall x, op_report shunt_t shunt_es x (lit "va") = Ok (x 0%nat).
Proof.
  intros x. unfold op_report.
  assert (N : names_of shunt_t (seq 1 (get_nodes_number shunt_t - 1)) = @Ok (list str) [lit "a"]) by (vm_compute; reflexivity).
  assert (Z : op_size shunt_t shunt_es = 1%nat) by reflexivity.
  assert (L : map (fun e : lelem => list_ascii_of_string (lid e)) (filter is_vde shunt_es) = []) by reflexivity.
  rewrite N, Z, L. cbn [bindr map seq]. unfold op_getitem.
  assert (U : upper_mem (op_vars [lit "a"] (@nil (list Ascii.ascii))) (lit "va") = true) by (vm_compute; reflexivity).
  assert (F : find_header (op_vars [lit "a"] (@nil (list Ascii.ascii))) (lit "va") 0 = Some 0%nat) by (vm_compute; reflexivity).
  rewrite U, F. reflexivity.
Qed.

Lemma shunt_load : load (fun _ => Some shunt) (fun _ => Err NetlistParseError) 1 (lit "f") =
  Ok (shunt_parts, shunt_t, [ER "r1" 1 0 (dR (2, 0)%Z); EI "i1" 1 0 (dR (3, 0)%Z) false]).
Proof.
  unfold load.
  match goal with |- context [read_netlist ?a ?b ?c] => let r := eval vm_compute in (read_netlist a b c) in change (read_netlist a b c) with r end. cbn [bindr r_models r_lines map parse_models fst snd].
  match goal with |- context [main_netlist_parser ?a ?b ?c ?d] => let r := eval vm_compute in (main_netlist_parser a b c d) in change (main_netlist_parser a b c d) with r end. cbn [bindr].
  cbv -[dR]. reflexivity.
Qed.

Example C192_example : forall mx JT check locked at0,
  load (fun _ => Some shunt) (fun _ => Err NetlistParseError) 1 (lit "f") = Ok (shunt_parts, shunt_t, shunt_es) /\
  exists x, op_run (fun _ => solve1) JT check locked PropsDc.default_opts (mkTd false true (1/10)) (S mx) 30 (1/1000000000000) at0 shunt_t shunt_es vzero = Ok (Some (x, true)) /\
  op_report shunt_t shunt_es x (lit "va") = Ok (-6).
Proof.
  intros mx JT check locked at0. split.
  - rewrite shunt_load, !dR_0. reflexivity.
  - destruct (shunt_run mx JT check locked at0) as (x & RUN & Y). exists x. split; [exact RUN|]. rewrite shunt_report, Y. reflexivity.
Qed.
