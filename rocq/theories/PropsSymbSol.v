(** Property theorems about the symbolic analysis (C167-C172). *)
From Coq Require Import Reals String Ascii List Bool Arith Lia Lra.
From Verif Require Import Base BaseFacts Str Nodes Circuit CircuitFacts Rsum Mna MnaSpec MnaFacts DynFacts Symb SymbFacts PropsSymb SymbSol.
Import ListNotations.
Open Scope R_scope.

(** ** Values of symbols *)
Lemma set_same : forall en y t, set_sym en y t y = t.
Proof. intros. unfold set_sym. destruct (sym_eqb_spec y y); congruence. Qed.
Lemma set_other : forall en y t z, z <> y -> set_sym en y t z = en z.
Proof. intros. unfold set_sym. destruct (sym_eqb_spec y z); congruence. Qed.
Definition set_list (en : env) (l : list (sym * R)) : env := fold_left (fun en p => set_sym en (fst p) (snd p)) l en.
Lemma set_list_out : forall l en z, ~ In z (map fst l) -> set_list en l z = en z.
Proof.
  unfold set_list. induction l as [|[y t] l IH]; intros en z H; [reflexivity|]. cbn [fold_left map fst snd In] in *.
  rewrite IH by tauto. apply set_other. intros ->. tauto.
Qed.
Lemma set_list_in : forall l en y t, NoDup (map fst l) -> In (y, t) l -> set_list en l y = t.
Proof.
  unfold set_list. induction l as [|[z u] l IH]; intros en y t ND H; [destruct H|]. cbn [map fst] in ND. inversion ND as [|? ? N ND']; subst.
  cbn [fold_left fst snd]. destruct H as [H|H].
  - injection H as -> ->. fold (set_list (set_sym en y t) l). rewrite set_list_out by exact N. apply set_same.
  - apply IH; assumption.
Qed.
Lemma set_list_inv : forall (P : env -> Prop) l en, (forall en y t, In y (map fst l) -> P en -> P (set_sym en y t)) -> P en -> P (set_list en l).
Proof.
  intros P. unfold set_list. induction l as [|[y t] l IH]; intros en H P0; [exact P0|]. cbn [fold_left fst snd]. apply IH.
  - intros en' z u Z. apply H. right. exact Z.
  - apply H; [left; reflexivity|exact P0].
Qed.

(** ** The matrices depend on the symbols of the elements only *)
Section Ext.
  Variables (ac : bool) (s : R) (isy : lelem -> bool) (subs : sdict) (nv : nat) (es : list lelem) (en en' : env).
  Hypothesis H : forall e, In e es -> isy e = true -> en (subst subs (sym_of e)) = en' (subst subs (sym_of e)).
  Lemma value_ext : forall e, In e es -> value_of isy subs en e = value_of isy subs en' e.
  Proof. intros e I. unfold value_of. destruct (isy e) eqn:E; [rewrite H by assumption|]; reflexivity. Qed.
  Lemma pass1_ext : forall all l st, incl l es -> y_pass1 false ac s isy subs en all l st = y_pass1 false ac s isy subs en' all l st.
  Proof.
    intros all. induction l as [|e l IH]; intros st I; [reflexivity|]. cbn [y_pass1].
    assert (V : value_of isy subs en e = value_of isy subs en' e) by (apply value_ext, I; left; reflexivity).
    assert (E : y_stamp1 false ac s isy subs en all st e = y_stamp1 false ac s isy subs en' all st e).
    { destruct st as [m v]. destruct e; cbn [y_stamp1]; unfold conductance; rewrite ?andb_false_r, ?V; reflexivity. }
    rewrite E. destruct (y_stamp1 false ac s isy subs en' all st e); [|reflexivity]. cbn [bindr]. apply IH. intros x X. apply I. right. exact X.
  Qed.
  Lemma pass2_ext : forall l k st, incl l es -> y_pass2 ac s isy subs en nv es l k st = y_pass2 ac s isy subs en' nv es l k st.
  Proof.
    induction l as [|e l IH]; intros k st I; [reflexivity|]. cbn [y_pass2].
    assert (V : value_of isy subs en e = value_of isy subs en' e) by (apply value_ext, I; left; reflexivity).
    assert (E : y_stamp_vde ac s isy subs en nv es k st e = y_stamp_vde ac s isy subs en' nv es k st e).
    { destruct st as [m v]. destruct e; cbn [y_stamp_vde]; rewrite ?V; reflexivity. }
    assert (I' : incl l es) by (intros x X; apply I; right; exact X).
    destruct (is_vde e); [|apply IH; exact I']. rewrite E. destruct (y_stamp_vde ac s isy subs en' nv es k st e); [|reflexivity]. cbn [bindr]. apply IH. exact I'.
  Qed.
  Lemma couplings_ext : forall k id l m, incl l es -> y_couplings s isy subs en nv k es id l m = y_couplings s isy subs en' nv k es id l m.
  Proof.
    intros k id. induction l as [|e l IH]; intros m I; [reflexivity|]. cbn [y_couplings].
    assert (V : value_of isy subs en e = value_of isy subs en' e) by (apply value_ext, I; left; reflexivity).
    assert (I' : incl l es) by (intros x X; apply I; right; exact X).
    destruct e; try (apply IH; exact I'). rewrite V. destruct (_ || _)%bool; [|apply IH; exact I'].
    destruct (value_of isy subs en' (EK id0 l1 l2 k0 m0)); [|reflexivity]. cbn [bindr]. destruct (other_inductor _ _); [|reflexivity]. cbn [bindr].
    destruct (vde_index es _); [|reflexivity]. cbn [bindr]. apply IH. exact I'.
  Qed.
  Lemma pass3_ext : forall l m, incl l es -> y_pass3 ac s isy subs en nv es l m = y_pass3 ac s isy subs en' nv es l m.
  Proof.
    induction l as [|e l IH]; intros m I; [reflexivity|]. cbn [y_pass3].
    assert (V : value_of isy subs en e = value_of isy subs en' e) by (apply value_ext, I; left; reflexivity).
    assert (I' : incl l es) by (intros x X; apply I; right; exact X).
    destruct e; try (apply IH; exact I').
    - destruct ac; [|apply IH; exact I']. destruct (vde_index es id) as [q|]; [|reflexivity]. cbn [bindr]. rewrite couplings_ext by apply incl_refl.
      destruct (y_couplings s isy subs en' nv q es id es m); [|reflexivity]. cbn [bindr]. apply IH. exact I'.
    - destruct (vde_index es src); [|reflexivity]. cbn [bindr]. rewrite V. destruct (value_of isy subs en' _); [|reflexivity]. cbn [bindr]. apply IH. exact I'.
  Qed.
  Lemma mna_ext : symbolic_mna_and_N false ac s isy subs en nv es = symbolic_mna_and_N false ac s isy subs en' nv es.
  Proof.
    unfold symbolic_mna_and_N. rewrite pass1_ext by apply incl_refl. destruct (y_pass1 false ac s isy subs en' es es (mzero, vzero)) as [p|]; [|reflexivity]. cbn [bindr].
    rewrite pass2_ext by apply incl_refl. destruct (y_pass2 ac s isy subs en' nv es es 0 p); [|reflexivity]. cbn [bindr].
    rewrite pass3_ext by apply incl_refl. reflexivity.
  Qed.
End Ext.

(** * C167: the symbolic solution is the solution of the circuit *)

(** What is asked of [sympy.solve]: at the points where no denominator vanishes ([good],
    which does not depend on the unknowns) the equations hold if and only if every
    unknown in the dictionary has the value given; these values contain no unknown of
    the dictionary. *)
Definition solves (good : R -> env -> Prop) (eqs : list expr) (xs : list sym) (l : list (sym * expr)) : Prop :=
  (NoDup (map fst l) /\ incl (map fst l) xs) /\
  (forall k v y s en t, In (k, v) l -> In y (map fst l) -> v s (set_sym en y t) = v s en) /\
  (forall s en y t, In y xs -> good s en -> good s (set_sym en y t)) /\
  forall s en, good s en -> ((forall e, In e eqs -> e s en = 0) <-> (forall k v, In (k, v) l -> en k = v s en)).

(** No unknown has the symbol of an element, or of another unknown. *)
Definition separate (isy : lelem -> bool) (subs : sdict) (xs : list sym) (es : list lelem) : Prop :=
  NoDup xs /\ forall e, In e es -> isy e = true -> ~ In (subst subs (sym_of e)) xs.

Definition solution (n : nat) (m : mat) (v : vec) (X : vec) : Prop := forall i, (i < n)%nat -> rsum n (fun j => m (S i) (S j) * X j) + v (S i) = 0.
Definition unique (n : nat) (m : mat) (v : vec) : Prop := forall X Y, solution n m v X -> solution n m v Y -> forall j, (j < n)%nat -> X j = Y j.

Section Solve.
  Variables (good : R -> env -> Prop) (ac : bool) (isy : lelem -> bool) (subs : sdict) (nv : nat) (name : nat -> string) (es : list lelem) (l : list (sym * expr)).
  Let xs := get_variables nv name es.
  Let n := length xs.
  Hypothesis SEP : separate isy subs xs es.
  Hypothesis SOL : solves good (equations false ac isy subs nv name es) xs l.

  Lemma agree_xs : forall s en en', (forall z, ~ In z xs -> en z = en' z) ->
    symbolic_mna_and_N false ac s isy subs en nv es = symbolic_mna_and_N false ac s isy subs en' nv es.
  Proof. intros s en en' A. apply mna_ext. intros e I E. apply A. destruct SEP as [_ F]. apply F; assumption. Qed.
  Lemma hold_iff : forall s en m v, symbolic_mna_and_N false ac s isy subs en nv es = Ok (m, v) ->
    (forall e, In e (equations false ac isy subs nv name es) -> e s en = 0) <-> solution n m v (fun j => en (nth j xs (node_sym ""))).
  Proof.
    intros s en m v E. unfold solution, equations. split.
    - intros Hh i L. assert (Q := Hh (equation false ac isy subs nv name es i)). unfold equation in Q. rewrite E in Q. apply Q. apply in_map_iff.
      exists i. split; [reflexivity|]. apply in_seq. fold xs n. lia.
    - intros Hh e I. apply in_map_iff in I. destruct I as (i & <- & I). apply in_seq in I. unfold equation. rewrite E. apply Hh. unfold n, xs. lia.
  Qed.
  (** The values of the dictionary make a solution. *)
  Definition back (s : R) (en : env) : env := set_list en (map (fun kv => (fst kv, snd kv s en)) l).
  Lemma back_keys : forall s en, map fst (map (fun kv => (fst kv, snd kv s en)) l) = map fst l.
  Proof. intros. rewrite map_map. reflexivity. Qed.
  Lemma back_free : forall s en k v, In (k, v) l -> v s (back s en) = v s en.
  Proof.
    intros s en k v I. destruct SOL as (_ & FR & _). unfold back. apply (set_list_inv (fun e => v s e = v s en)); [|reflexivity].
    rewrite back_keys. intros en' y t Y E. rewrite (FR k v) by assumption. exact E.
  Qed.
  Lemma back_val : forall s en k v, In (k, v) l -> back s en k = v s en.
  Proof.
    intros s en k v I. destruct SOL as ((ND & _) & _). apply set_list_in; [rewrite back_keys; exact ND|]. apply in_map_iff. exists (k, v). split; [reflexivity|exact I].
  Qed.
  Lemma back_out : forall s en z, ~ In z (map fst l) -> back s en z = en z.
  Proof. intros. apply set_list_out. rewrite back_keys. assumption. Qed.
  Lemma back_out_xs : forall s en z, ~ In z xs -> back s en z = en z.
  Proof. intros s en z N. apply back_out. intros I. apply N. destruct SOL as ((_ & IN) & _). apply IN. exact I. Qed.
  Lemma back_good : forall s en, good s en -> good s (back s en).
  Proof.
    intros s en G. destruct SOL as ((_ & IN) & _ & GI & _). unfold back. apply set_list_inv; [|exact G]. rewrite back_keys. intros en' y t Y. apply GI. apply IN. exact Y.
  Qed.
  Lemma back_solution : forall s en m v, good s en -> symbolic_mna_and_N false ac s isy subs en nv es = Ok (m, v) ->
    solution n m v (fun j => back s en (nth j xs (node_sym ""))).
  Proof.
    intros s en m v G E. apply (hold_iff s (back s en)).
    - rewrite <- E. apply agree_xs. intros z Z. apply back_out_xs. exact Z.
    - destruct SOL as (_ & _ & _ & EQ). apply EQ; [apply back_good; exact G|]. intros k w I. rewrite (back_val s en k w I), (back_free s en k w I). reflexivity.
  Qed.
  (** Every unknown is in the dictionary if the system has one solution. *)
  Lemma all_keys : forall s en m v, good s en -> symbolic_mna_and_N false ac s isy subs en nv es = Ok (m, v) -> unique n m v -> incl xs (map fst l).
  Proof.
    intros s en m v G E U x X. destruct (in_dec (fun a b => match sym_eqb_spec a b with ReflectT _ e => left e | ReflectF _ e => right e end) x (map fst l)) as [I|I]; [exact I|exfalso].
    destruct (In_nth _ _ (node_sym "") X) as (j & J & NJ).
    set (en1 := set_sym en x (back s en x + 1)).
    assert (G1 : good s en1) by (destruct SOL as (_ & _ & GI & _); apply GI; assumption).
    assert (E1 : symbolic_mna_and_N false ac s isy subs en1 nv es = Ok (m, v)).
    { rewrite <- E. apply agree_xs. intros z Z. apply set_other. intros ->. contradiction. }
    assert (Q := U _ _ (back_solution s en m v G E) (back_solution s en1 m v G1 E1) j J). cbv beta in Q. rewrite NJ in Q.
    rewrite (back_out s en1 x I) in Q. unfold en1 in Q at 1. rewrite set_same in Q. lra.
  Qed.
  Lemma solution_sym : forall s en m v X, good s en -> symbolic_mna_and_N false ac s isy subs en nv es = Ok (m, v) -> unique n m v -> solution n m v X ->
    forall j, (j < n)%nat -> exists w, In (nth j xs (node_sym ""), w) l /\ w s en = X j.
  Proof.
    intros s en m v X G E U HX j J. assert (K := all_keys s en m v G E U (nth j xs (node_sym "")) (nth_In _ _ J)).
    apply in_map_iff in K. destruct K as ([k w] & EK & I). cbn [fst] in EK. subst k. exists w. split; [exact I|].
    rewrite <- (back_val s en _ w I). exact (U _ _ (back_solution s en m v G E) HX j J).
  Qed.
End Solve.

(** If the symbols are separate, the equations are solved, and the circuit with the
    values [en] of the symbols has one solution, then each unknown has an expression,
    whose value at [en] is the value of the unknown in the circuit. *)
Theorem C167_solution : forall good ac s isy subs en nv name es l m N d X,
  wf_circ nv es -> NoDup (map (fun e => upper (lid e)) (filter is_vde es)) -> Forall (wf_coupling es) es ->
  (forall e, In e es -> time_dependent e = false) ->
  (forall e, In e es -> isy e = true -> en (subst subs (sym_of e)) = val e) ->
  (forall e, In e es -> isy e = false -> number_read ac e) ->
  let xs := get_variables nv name es in
  separate isy subs xs es -> solves good (equations false ac isy subs nv name es) xs l -> good s en ->
  generate_mna_and_N nv es = Ok (m, N) -> generate_D 0 nv es = Ok d ->
  let system i j := m i j + (if ac then s * d i j else 0) in
  unique (length xs) system N -> solution (length xs) system N X ->
  forall j, (j < length xs)%nat -> exists w, In (nth j xs (node_sym ""), w) l /\ w s en = X j.
Proof.
  intros good ac s isy subs en nv name es l m N d X W ND WK TD HS HN xs SEP SOL G E ED system U HX j J.
  destruct (C63_agree ac s isy subs en nv es m N W ND WK TD HS HN E) as (ms & Ns & d' & A1 & A2 & A3 & A4).
  rewrite ED in A2. injection A2 as <-.
  assert (SS : forall Y, solution (length xs) ms Ns Y <-> solution (length xs) system N Y).
  { intros Y. unfold solution. split; intros H i I; rewrite <- (H i I); [symmetry|]; f_equal; try (rewrite A4; reflexivity); apply rsum_ext; intros k _; rewrite A3; reflexivity. }
  apply (solution_sym good ac isy subs nv name es l SEP SOL s en ms Ns X G A1); [|apply SS; exact HX|exact J].
  intros Y Z HY HZ. apply U; apply SS; assumption.
Qed.
Print Assumptions C167_solution.

(** A source "Vin" and a node "in": the equations say that every voltage is zero. *)
Definition clash : list lelem := [EV "Vin" 1 0 5 false; ER "R1" 1 2 1; ER "R2" 2 0 1]%string.
Definition clash_name (i : nat) : string := match i with 1%nat => "a" | 2%nat => "in" | _ => "0" end%string.
Theorem C167_clash_refuted : exists nv name es m N d,
  wf_circ nv es /\ NoDup (map lid es) /\ (forall i j, (i < nv)%nat -> (j < nv)%nat -> name i = name j -> i = j) /\
  generate_mna_and_N nv es = Ok (m, N) /\ generate_D 0 nv es = Ok d /\
  (forall s X, solution (nv - 1 + n_vde es) (fun i j => m i j + s * d i j) N X -> X 0%nat = 5) /\
  forall s en, (forall e, In e es -> is_vde e = false -> 0 < en (sym_of e)) ->
    (forall e, In e (equations false true (fun _ => true) [] nv name es) -> e s en = 0) -> en (node_sym (name 1%nat)) = 0.
Proof.
  exists 3%nat, clash_name, clash. eexists. eexists. eexists.
  split; [repeat constructor; cbn; try lia; discriminate|].
  split; [cbn; repeat constructor; cbn; intuition discriminate|].
  split; [intros i j I J; destruct i as [|[|[|i]]]; [| | |lia]; (destruct j as [|[|[|j]]]; [| | |lia]); intros E; try reflexivity; discriminate E|].
  split; [reflexivity|]. split; [reflexivity|]. split.
  - intros s X HX. change (3 - 1 + n_vde clash)%nat with 3%nat in HX. assert (Q := HX 2%nat ltac:(lia)). cbn [rsum] in Q.
    cbn in Q. unfold madd, mset, vset, mzero, vzero, add_cmin in Q. cbn in Q. destruct (Rlt_dec 0 0) as [L|L]; [lra|]. cbn in Q. unfold mzero in Q. lra.
  - intros s en HP HE. assert (P1 : 0 < en (sym_of (ER "R1" 1 2 1))) by (apply HP; [cbn; auto|reflexivity]).
    assert (P2 : 0 < en (sym_of (ER "R2" 2 0 1))) by (apply HP; [cbn; auto|reflexivity]).
    assert (Q : forall i, (i < 3)%nat -> equation false true (fun _ => true) [] 3 clash_name clash i s en = 0).
    { intros i I. apply HE. apply in_map. apply in_seq. cbn. lia. }
    assert (Q0 := Q 1%nat ltac:(lia)). assert (Q2 := Q 2%nat ltac:(lia)). clear Q HE HP.
    set (va := en (node_sym "a")). set (vi := en (node_sym "in")). set (r1 := en (sym_of (ER "R1" 1 2 1))) in *. set (r2 := en (sym_of (ER "R2" 2 0 1))) in *.
    set (ii := en (current_sym "Vin")).
    assert (X1 : equation false true (fun _ => true) [] 3 clash_name clash 1 s en = - (1 / r1) * va + (1 / r1 + 1 / r2) * vi).
    { transitivity (0 + (0 + - (1 / r1)) * va + (0 + 1 / r1 + 1 / r2) * vi + 0 * ii + 0); [reflexivity|ring]. }
    assert (X2 : equation false true (fun _ => true) [] 3 clash_name clash 2 s en = va - vi).
    { transitivity (0 + 1 * va + 0 * vi + 0 * ii + - vi); [reflexivity|ring]. }
    rewrite X1 in Q0. rewrite X2 in Q2. change (va = 0). assert (va = vi) by lra.
    assert (I2 : 0 < 1 / r2) by (apply Rdiv_lt_0_compat; lra). assert (Z : 1 / r2 * vi = 0) by (rewrite <- Q0; rewrite H; ring).
    apply Rmult_integral in Z. destruct Z; lra.
Qed.
Print Assumptions C167_clash_refuted.

(** V1 and R1 between the node "a" and the ground: the dictionary that is expected. *)
Definition tiny : list lelem := [EV "V1" 1 0 5 false; ER "R1" 1 0 2]%string.
Definition tiny_name (i : nat) : string := match i with 1%nat => "a" | _ => "0" end%string.
Definition tiny_sol : list (sym * expr) :=
  [(node_sym "a", fun _ en => en (sym_of (EV "V1" 1 0 5 false))); (current_sym "V1", fun _ en => - en (sym_of (EV "V1" 1 0 5 false)) / en (sym_of (ER "R1" 1 0 2)))]%string.
Definition tiny_good (s : R) (en : env) : Prop := en (sym_of (ER "R1" 1 0 2)) <> 0.
Example C167_example : separate (fun _ => true) [] (get_variables 2 tiny_name tiny) tiny /\
  solves tiny_good (equations false true (fun _ => true) [] 2 tiny_name tiny) (get_variables 2 tiny_name tiny) tiny_sol.
Proof.
  assert (XS : get_variables 2 tiny_name tiny = [node_sym "a"; current_sym "V1"]%string) by reflexivity. rewrite XS. split.
  - split; [repeat constructor; cbn; intuition discriminate|]. intros e [<-|[<-|[]]] _; cbn; intuition discriminate.
  - split; [|split; [|split]].
    + split; [cbn; repeat constructor; cbn; intuition discriminate|]. intros x X. exact X.
    + intros k v y s en t I Y. cbn in Y. destruct I as [I|[I|[]]]; injection I as <- <-; destruct Y as [<-|[<-|[]]]; reflexivity.
    + intros s en y t [<-|[<-|[]]] G; unfold tiny_good in *; (rewrite set_other; [exact G|discriminate]).
    + intros s en G. unfold tiny_good in G. unfold equations. rewrite XS. cbn [length seq map].
      set (va := en (node_sym "a")). set (v1 := en (sym_of (EV "V1" 1 0 5 false))). set (r1 := en (sym_of (ER "R1" 1 0 2))) in *. set (ii := en (current_sym "V1")).
      assert (X0 : equation false true (fun _ => true) [] 2 tiny_name tiny 0 s en = 1 / r1 * va + ii).
      { transitivity (0 + (0 + 1 / r1) * va + 1 * ii + 0); [reflexivity|ring]. }
      assert (X1 : equation false true (fun _ => true) [] 2 tiny_name tiny 1 s en = va - v1).
      { transitivity (0 + 1 * va + 0 * ii + - v1); [reflexivity|ring]. }
      split.
      * intros H. assert (A := H _ (or_introl eq_refl)). assert (B := H _ (or_intror (or_introl eq_refl))). rewrite X0 in A. rewrite X1 in B.
        intros k w [I|[I|[]]]; injection I as <- <-; [change (va = v1); lra|change (ii = - v1 / r1)]. replace v1 with va by lra. unfold Rdiv in *. lra.
      * intros H. assert (A := H _ _ (or_introl eq_refl)). assert (B := H _ _ (or_intror (or_introl eq_refl))). change (va = v1) in A. change (ii = - v1 / r1) in B.
        intros e [<-|[<-|[]]]; [rewrite X0, B, A; field; exact G|rewrite X1; lra].
Qed.

(** * C168: transfer functions *)

(** ** The sources come in linearly *)
Section Affine.
  Variables (ac : bool) (s : R) (isy : lelem -> bool) (subs : sdict) (nv : nat) (es : list lelem) (en0 en1 ent : env) (t : R).
  Definition aff (x0 x1 xt : R) : Prop := xt = x0 + t * (x1 - x0).
  Definition same3 (e : lelem) : Prop := value_of isy subs en0 e = value_of isy subs ent e /\ value_of isy subs en1 e = value_of isy subs ent e.
  Definition is_source (e : lelem) : bool := match e with EV _ _ _ _ _ | EI _ _ _ _ _ | ENL _ _ _ => true | _ => false end.
  Hypothesis HV : forall e, In e es ->
    if is_source e then exists x0 x1 xt, value_of isy subs en0 e = Ok x0 /\ value_of isy subs en1 e = Ok x1 /\ value_of isy subs ent e = Ok xt /\ aff x0 x1 xt
    else same3 e.
  Definition rel (p0 p1 pt : mat * vec) : Prop := fst p0 = fst pt /\ fst p1 = fst pt /\ forall i, aff (snd p0 i) (snd p1 i) (snd pt i).
  Lemma aff_pass1 : forall all l p0 p1 pt rt, incl l es -> rel p0 p1 pt -> y_pass1 false ac s isy subs ent all l pt = Ok rt ->
    exists r0 r1, y_pass1 false ac s isy subs en0 all l p0 = Ok r0 /\ y_pass1 false ac s isy subs en1 all l p1 = Ok r1 /\ rel r0 r1 rt.
  Proof.
    intros all. induction l as [|e l IH]; intros p0 p1 pt rt I H E; cbn [y_pass1] in *; [injection E as <-; eauto|].
    assert (Ie : In e es) by (apply I; left; reflexivity). assert (I' : incl l es) by (intros x X; apply I; right; exact X). specialize (HV e Ie).
    destruct (y_stamp1 false ac s isy subs ent all pt e) as [qt|] eqn:Et; [cbn [bindr] in E|discriminate E].
    assert (Q : exists q0 q1, y_stamp1 false ac s isy subs en0 all p0 e = Ok q0 /\ y_stamp1 false ac s isy subs en1 all p1 e = Ok q1 /\ rel q0 q1 qt).
    { destruct p0 as [m0 v0]. destruct p1 as [m1 v1]. destruct pt as [mt vt]. destruct H as (H0 & H1 & H2). cbn [fst snd] in H0, H1, H2. subst m0 m1.
      destruct e; cbn [is_source] in HV; cbn [y_stamp1] in *; unfold conductance in *; rewrite ?andb_false_r in *;
        try (destruct HV as [V0 V1]; rewrite V0, V1; destruct (value_of isy subs ent _) as [a|]; cbn [bindr] in *; [|discriminate Et]; injection Et as <-;
             eexists; eexists; split; [reflexivity|]; split; [reflexivity|]; split; [reflexivity|]; split; [reflexivity|exact H2]);
        try (injection Et as <-; eexists; eexists; split; [reflexivity|]; split; [reflexivity|]; split; [reflexivity|]; split; [reflexivity|exact H2]).
      - destruct ac; [|injection Et as <-; eexists; eexists; split; [reflexivity|]; split; [reflexivity|]; split; [reflexivity|]; split; [reflexivity|exact H2]].
        destruct HV as [V0 V1]; rewrite V0, V1; destruct (value_of isy subs ent _) as [a|]; cbn [bindr] in *; [|discriminate Et]; injection Et as <-;
             eexists; eexists; split; [reflexivity|]; split; [reflexivity|]; split; [reflexivity|]; split; [reflexivity|exact H2].
      - destruct HV as (x0 & x1 & xt & V0 & V1 & Vt & A). rewrite V0, V1. rewrite Vt in Et. cbn [bindr] in *. injection Et as <-.
        eexists; eexists; split; [reflexivity|]; split; [reflexivity|]; split; [reflexivity|]; split; [reflexivity|]. cbn [snd].
        assert (VA : forall a x y z, aff x y z -> forall u0 u1 ut, (forall i, aff (u0 i) (u1 i) (ut i)) -> forall i, aff (vadd u0 a x i) (vadd u1 a y i) (vadd ut a z i)).
        { intros a x y z AA u0 u1 ut UU i. unfold vadd, vset. assert (B := UU a). assert (C := UU i). unfold aff in *. destruct (i =? a)%nat; [rewrite AA, B; ring|exact C]. }
        apply VA; [unfold aff in *; rewrite A; ring|]. apply VA; assumption. }
    destruct Q as (q0 & q1 & Q0 & Q1 & QR). rewrite Q0, Q1. cbn [bindr]. exact (IH q0 q1 qt rt I' QR E).
  Qed.
  Lemma aff_pass2 : forall l k p0 p1 pt rt, incl l es -> rel p0 p1 pt -> y_pass2 ac s isy subs ent nv es l k pt = Ok rt ->
    exists r0 r1, y_pass2 ac s isy subs en0 nv es l k p0 = Ok r0 /\ y_pass2 ac s isy subs en1 nv es l k p1 = Ok r1 /\ rel r0 r1 rt.
  Proof.
    induction l as [|e l IH]; intros k p0 p1 pt rt I H E; cbn [y_pass2] in *; [injection E as <-; eauto|].
    assert (Ie : In e es) by (apply I; left; reflexivity). assert (I' : incl l es) by (intros x X; apply I; right; exact X). specialize (HV e Ie).
    destruct (is_vde e); [|exact (IH k p0 p1 pt rt I' H E)].
    destruct (y_stamp_vde ac s isy subs ent nv es k pt e) as [qt|] eqn:Et; [cbn [bindr] in E|discriminate E].
    assert (Q : exists q0 q1, y_stamp_vde ac s isy subs en0 nv es k p0 e = Ok q0 /\ y_stamp_vde ac s isy subs en1 nv es k p1 e = Ok q1 /\ rel q0 q1 qt).
    { destruct p0 as [m0 v0]. destruct p1 as [m1 v1]. destruct pt as [mt vt]. destruct H as (H0 & H1 & H2). cbn [fst snd] in H0, H1, H2. subst m0 m1.
      destruct e; cbn [is_source] in HV; cbn [y_stamp_vde] in *;
        try (injection Et as <-; eexists; eexists; split; [reflexivity|]; split; [reflexivity|]; split; [reflexivity|]; split; [reflexivity|exact H2]).
      - destruct ac; [|injection Et as <-; eexists; eexists; split; [reflexivity|]; split; [reflexivity|]; split; [reflexivity|]; split; [reflexivity|exact H2]].
        destruct HV as [V0 V1]; rewrite V0, V1; destruct (value_of isy subs ent _) as [a|]; cbn [bindr] in *; [|discriminate Et]; injection Et as <-;
             eexists; eexists; split; [reflexivity|]; split; [reflexivity|]; split; [reflexivity|]; split; [reflexivity|exact H2].
      - destruct HV as (x0 & x1 & xt & V0 & V1 & Vt & A). rewrite V0, V1. rewrite Vt in Et. cbn [bindr] in *. injection Et as <-.
        eexists; eexists; split; [reflexivity|]; split; [reflexivity|]; split; [reflexivity|]; split; [reflexivity|]. cbn [snd].
        intros i. unfold vset. assert (C := H2 i). unfold aff in *. destruct (i =? nv + k)%nat; [rewrite A; ring|exact C].
      - destruct HV as [V0 V1]; rewrite V0, V1; destruct (value_of isy subs ent _) as [a|]; cbn [bindr] in *; [|discriminate Et]; injection Et as <-;
             eexists; eexists; split; [reflexivity|]; split; [reflexivity|]; split; [reflexivity|]; split; [reflexivity|exact H2].
      - destruct HV as [V0 V1]; rewrite V0, V1; destruct (value_of isy subs ent _) as [a|]; cbn [bindr] in *; [|discriminate Et].
        destruct (vde_index es src) as [j|]; cbn [bindr] in *; [|discriminate Et]. destruct (j <=? k)%nat; [|discriminate Et]. injection Et as <-;
             eexists; eexists; split; [reflexivity|]; split; [reflexivity|]; split; [reflexivity|]; split; [reflexivity|exact H2]. }
    destruct Q as (q0 & q1 & Q0 & Q1 & QR). rewrite Q0, Q1. cbn [bindr]. exact (IH (S k) q0 q1 qt rt I' QR E).
  Qed.
  Lemma aff_value : forall e, In e es -> is_source e = false -> value_of isy subs en0 e = value_of isy subs ent e /\ value_of isy subs en1 e = value_of isy subs ent e.
  Proof. intros e I N. specialize (HV e I). rewrite N in HV. exact HV. Qed.
  Lemma aff_couplings : forall k id l m, incl l es ->
    y_couplings s isy subs en0 nv k es id l m = y_couplings s isy subs ent nv k es id l m /\ y_couplings s isy subs en1 nv k es id l m = y_couplings s isy subs ent nv k es id l m.
  Proof.
    intros k id. induction l as [|e l IH]; intros m I; [split; reflexivity|]. cbn [y_couplings]. assert (I' : incl l es) by (intros x X; apply I; right; exact X).
    destruct e; try (apply IH; exact I'). destruct (aff_value (EK id0 l1 l2 k0 m0)) as [V0 V1]; [apply I; left; reflexivity|reflexivity|]. rewrite V0, V1.
    destruct (_ || _)%bool; [|apply IH; exact I']. destruct (value_of isy subs ent (EK id0 l1 l2 k0 m0)); [|split; reflexivity]. cbn [bindr].
    destruct (other_inductor _ _); [|split; reflexivity]. cbn [bindr]. destruct (vde_index es _); [|split; reflexivity]. cbn [bindr]. apply IH. exact I'.
  Qed.
  Lemma aff_pass3 : forall l m, incl l es ->
    y_pass3 ac s isy subs en0 nv es l m = y_pass3 ac s isy subs ent nv es l m /\ y_pass3 ac s isy subs en1 nv es l m = y_pass3 ac s isy subs ent nv es l m.
  Proof.
    induction l as [|e l IH]; intros m I; [split; reflexivity|]. cbn [y_pass3]. assert (I' : incl l es) by (intros x X; apply I; right; exact X).
    destruct e; try (apply IH; exact I').
    - destruct ac; [|apply IH; exact I']. destruct (vde_index es id) as [q|]; [|split; reflexivity]. cbn [bindr].
      destruct (aff_couplings q id es m (incl_refl es)) as [C0 C1]. rewrite C0, C1.
      destruct (y_couplings s isy subs ent nv q es id es m); [|split; reflexivity]. cbn [bindr]. apply IH. exact I'.
    - destruct (vde_index es src); [|split; reflexivity]. cbn [bindr]. destruct (aff_value (EF id n1 n2 src alpha)) as [V0 V1]; [apply I; left; reflexivity|reflexivity|]. rewrite V0, V1.
      destruct (value_of isy subs ent _); [|split; reflexivity]. cbn [bindr]. apply IH. exact I'.
  Qed.
  Lemma aff_mna : forall m vt, symbolic_mna_and_N false ac s isy subs ent nv es = Ok (m, vt) ->
    exists v0 v1, symbolic_mna_and_N false ac s isy subs en0 nv es = Ok (m, v0) /\ symbolic_mna_and_N false ac s isy subs en1 nv es = Ok (m, v1) /\
      forall i, vt i = v0 i + t * (v1 i - v0 i).
  Proof.
    intros m vt E. unfold symbolic_mna_and_N in *.
    destruct (y_pass1 false ac s isy subs ent es es (mzero, vzero)) as [pt|] eqn:E1; [cbn [bindr] in E|discriminate E].
    destruct (aff_pass1 es es (mzero, vzero) (mzero, vzero) (mzero, vzero) pt (incl_refl es)) as (p0 & p1 & P0 & P1 & PR); [|exact E1|].
    { split; [reflexivity|]. split; [reflexivity|]. intros i. unfold aff. cbn. unfold vzero. ring. }
    rewrite P0, P1. cbn [bindr]. destruct (y_pass2 ac s isy subs ent nv es es 0 pt) as [qt|] eqn:E2; [cbn [bindr] in E|discriminate E].
    destruct (aff_pass2 es 0 p0 p1 pt qt (incl_refl es) PR E2) as (q0 & q1 & Q0 & Q1 & (R0 & R1 & RA)). rewrite Q0, Q1. cbn [bindr]. rewrite R0, R1.
    destruct (aff_pass3 es (fst qt) (incl_refl es)) as [T0 T1]. rewrite T0, T1.
    destruct (y_pass3 ac s isy subs ent nv es es (fst qt)) as [m3|]; [cbn [bindr] in *|discriminate E]. injection E as <- <-. eauto.
  Qed.
End Affine.

(** The symbols that replace others are never those of independent sources. *)
Definition real_subs (subs : sdict) : Prop := forall y, sget subs y <> None -> y_real (subst subs y) = true.
Lemma parse_real : forall gs l, real_subs (parse_substitutions gs l).
Proof.
  intros gs l. unfold parse_substitutions.
  assert (K : forall l d, real_subs d -> real_subs (fold_left (fun d p => let '(k, v) := parse_substitution gs p in supdate d k v) l d)).
  { clear l. induction l as [|[a b] l IH]; intros d D; [exact D|]. cbn [fold_left]. apply IH. unfold parse_substitution. cbv zeta.
    intros y Y. unfold subst. rewrite sget_supdate in *. destruct (sym_eqb _ y); [reflexivity|]. apply D. exact Y. }
  apply K. intros y Y. cbn in Y. congruence.
Qed.

Definition regular (n : nat) (m : mat) : Prop := forall z : vec, (forall i, (i < n)%nat -> rsum n (fun j => m (S i) (S j) * z j) = 0) -> forall j, (j < n)%nat -> z j = 0.
Lemma regular_unique : forall n m v, regular n m -> unique n m v.
Proof.
  intros n m v H X Y HX HY j J. assert (Q := H (fun j => X j - Y j)). assert (X j - Y j = 0); [|lra]. apply Q; [|exact J]. intros i I.
  rewrite (rsum_ext _ _ (fun j => m (S i) (S j) * X j - m (S i) (S j) * Y j)) by (intros; ring). rewrite rsum_minus. assert (A := HX i I). assert (B := HY i I). lra.
Qed.
(** What is asked of [diff]: the derivative where there is one. *)
Definition differentiates (diff : expr -> sym -> expr) : Prop :=
  forall w y s en g, derivable_pt_lim (fun t => w s (set_sym en y t)) (en y) g -> diff w y s en = g.

Lemma affine_derivative : forall f a b x, (forall t, f t = a + t * b) -> derivable_pt_lim f x b.
Proof.
  intros f a b x H eps E. exists (mkposreal 1 Rlt_0_1). intros h Hh _. rewrite !H.
  replace ((a + (x + h) * b - (a + x * b)) / h - b) with 0 by (field; exact Hh). rewrite Rabs_R0. exact E.
Qed.

Section Gain.
  Variables (good : R -> env -> Prop) (ac : bool) (isy : lelem -> bool) (subs : sdict) (nv : nat) (name : nat -> string) (es : list lelem) (l : list (sym * expr)).
  Variables (id : string) (s : R) (en : env) (m : mat) (v : vec).
  Let src := symbol_factory (upper id) false false.
  Let xs := get_variables nv name es.
  Hypothesis RS : real_subs subs.
  Hypothesis SEP : separate isy subs xs es.
  Hypothesis SOL : solves good (equations false ac isy subs nv name es) xs l.
  Hypothesis NX : ~ In src xs.
  Hypothesis G0 : good s en.
  Hypothesis G : forall t, good s (set_sym en src t).
  Hypothesis E : symbolic_mna_and_N false ac s isy subs en nv es = Ok (m, v).
  Hypothesis REG : regular (length xs) m.

  Lemma src_value : forall e t, In e es -> isy e = true ->
    (subst subs (sym_of e) <> src /\ set_sym en src t (subst subs (sym_of e)) = en (subst subs (sym_of e))) \/
    (is_source e = true /\ subst subs (sym_of e) = src /\ set_sym en src t (subst subs (sym_of e)) = t).
  Proof.
    intros e t I S0. destruct (sym_eqb_spec (subst subs (sym_of e)) src) as [Q|Q].
    - right. assert (GS : sget subs (sym_of e) = None).
      { destruct (sget subs (sym_of e)) eqn:GE; [|reflexivity]. assert (W := RS (sym_of e)). rewrite Q in W. rewrite GE in W. specialize (W ltac:(discriminate)). discriminate W. }
      split; [|split; [exact Q|rewrite Q; apply set_same]]. unfold subst in Q. rewrite GS in Q. destruct e; try reflexivity; discriminate Q.
    - left. split; [exact Q|]. apply set_other. exact Q.
  Qed.
  Lemma src_affine : forall a b u c, c = a + u * (b - a) -> forall e, In e es ->
      if is_source e then exists x0 x1 xt, value_of isy subs (set_sym en src a) e = Ok x0 /\ value_of isy subs (set_sym en src b) e = Ok x1 /\
        value_of isy subs (set_sym en src c) e = Ok xt /\ aff u x0 x1 xt
      else same3 isy subs (set_sym en src a) (set_sym en src b) (set_sym en src c) e.
  Proof.
    intros a b u c EC0 e I. unfold same3, value_of. destruct (isy e) eqn:S0.
    - destruct (src_value e a I S0) as [(A1 & A2)|(A1 & A2 & A3)]; destruct (src_value e b I S0) as [(B1 & B2)|(B1 & B2 & B3)];
        destruct (src_value e c I S0) as [(C1 & C2)|(C1 & C2 & C3)]; try congruence.
      + rewrite A2, B2, C2. destruct (is_source e); [|split; reflexivity]. do 3 eexists. split; [reflexivity|]. split; [reflexivity|]. split; [reflexivity|]. unfold aff. ring.
      + rewrite A1, A3, B3, C3. do 3 eexists. split; [reflexivity|]. split; [reflexivity|]. split; [reflexivity|]. exact EC0.
    - destruct (is_source e) eqn:IE; [|split; reflexivity]. destruct e; try discriminate IE; cbn [num_of]; do 3 eexists; (split; [reflexivity|]); (split; [reflexivity|]); (split; [reflexivity|]); unfold aff; ring.
  Qed.
  Lemma gain_any : forall t, exists vt, symbolic_mna_and_N false ac s isy subs (set_sym en src t) nv es = Ok (m, vt).
  Proof.
    intros t.
    assert (EE : symbolic_mna_and_N false ac s isy subs (set_sym en src (en src)) nv es = Ok (m, v)).
    { rewrite <- E. apply mna_ext. intros e _ _. unfold set_sym. destruct (sym_eqb_spec src (subst subs (sym_of e))) as [<-|]; reflexivity. }
    destruct (aff_mna ac s isy subs nv es _ _ _ 0 (src_affine (en src) t 0 (en src) ltac:(ring)) m v EE) as (v0 & v1 & _ & H1 & _). eauto.
  Qed.
  Lemma gain_mna : forall t, exists v0 v1 vt,
    symbolic_mna_and_N false ac s isy subs (set_sym en src 0) nv es = Ok (m, v0) /\ symbolic_mna_and_N false ac s isy subs (set_sym en src 1) nv es = Ok (m, v1) /\
    symbolic_mna_and_N false ac s isy subs (set_sym en src t) nv es = Ok (m, vt) /\ forall i, vt i = v0 i + t * (v1 i - v0 i).
  Proof.
    intros t. destruct (gain_any t) as (vt & Ht).
    destruct (aff_mna ac s isy subs nv es _ _ _ t (src_affine 0 1 t t ltac:(ring)) m vt Ht) as (v0 & v1 & H0 & H1 & HA). exists v0, v1, vt. auto.
  Qed.
  Lemma gain_affine : forall k w, In (k, w) l -> forall t, w s (set_sym en src t) = w s (set_sym en src 0) + t * (w s (set_sym en src 1) - w s (set_sym en src 0)).
  Proof.
    intros k w I t. destruct (gain_mna t) as (v0 & v1 & vt & H0 & H1 & Ht & HA).
    assert (IN : In k xs) by (destruct SOL as ((_ & IN) & _); apply IN; apply in_map_iff; exists (k, w); split; [reflexivity|exact I]).
    destruct (In_nth _ _ (node_sym "") IN) as (j & J & NJ).
    assert (S0 := back_solution good ac isy subs nv name es l SEP SOL s _ m v0 (G 0) H0).
    assert (S1 := back_solution good ac isy subs nv name es l SEP SOL s _ m v1 (G 1) H1).
    assert (St := back_solution good ac isy subs nv name es l SEP SOL s _ m vt (G t) Ht).
    assert (Q := regular_unique _ _ vt REG _ (fun j => back l s (set_sym en src 0) (nth j xs (node_sym "")) +
      t * (back l s (set_sym en src 1) (nth j xs (node_sym "")) - back l s (set_sym en src 0) (nth j xs (node_sym "")))) St).
    assert (SC : solution (length xs) m vt (fun j => back l s (set_sym en src 0) (nth j xs (node_sym "")) +
      t * (back l s (set_sym en src 1) (nth j xs (node_sym "")) - back l s (set_sym en src 0) (nth j xs (node_sym ""))))).
    { intros i Hi. specialize (S0 i Hi). specialize (S1 i Hi). cbv beta in S0, S1. fold xs in S0, S1. rewrite HA.
      rewrite (rsum_ext _ _ (fun j => (1 - t) * (m (S i) (S j) * back l s (set_sym en src 0) (nth j xs (node_sym ""))) + t * (m (S i) (S j) * back l s (set_sym en src 1) (nth j xs (node_sym ""))))) by (intros; ring).
      rewrite rsum_plus, !rsum_scal.
      assert (A0 : rsum (length xs) (fun j => m (S i) (S j) * back l s (set_sym en src 0) (nth j xs (node_sym ""))) = - v0 (S i)) by lra.
      assert (A1 : rsum (length xs) (fun j => m (S i) (S j) * back l s (set_sym en src 1) (nth j xs (node_sym ""))) = - v1 (S i)) by lra.
      rewrite A0, A1. ring. }
    specialize (Q SC j J). cbv beta in Q. fold xs in Q. rewrite NJ in Q. rewrite !(fun en => back_val good ac isy subs nv name es l SOL s en k w I) in Q. exact Q.
  Qed.
  Lemma gain_self : forall k w, In (k, w) l -> w s (set_sym en src (en src)) = w s en.
  Proof.
    intros k w I.
    assert (EE : symbolic_mna_and_N false ac s isy subs (set_sym en src (en src)) nv es = Ok (m, v)).
    { rewrite <- E. apply mna_ext. intros e _ _. unfold set_sym. destruct (sym_eqb_spec src (subst subs (sym_of e))) as [<-|]; reflexivity. }
    assert (IN : In k xs) by (destruct SOL as ((_ & IN) & _); apply IN; apply in_map_iff; exists (k, w); split; [reflexivity|exact I]).
    destruct (In_nth _ _ (node_sym "") IN) as (j & J & NJ).
    assert (S0 := back_solution good ac isy subs nv name es l SEP SOL s _ m v (G (en src)) EE).
    assert (S1 := back_solution good ac isy subs nv name es l SEP SOL s en m v G0 E).
    assert (Q := regular_unique _ _ v REG _ _ S0 S1 j J). cbv beta in Q. fold xs in Q. rewrite NJ in Q. rewrite !(fun en => back_val good ac isy subs nv name es l SOL s en k w I) in Q. exact Q.
  Qed.
End Gain.

(** The transfer functions with respect to the source [id]: one for each unknown of the
    solution, in its order; the gain is what the unknown changes by when the value of the
    source grows by one, whatever the value, the unknown is its value at zero plus gain
    times source, and the second gain is the first at [s = 0]. *)
Theorem C168_gain : forall good diff ac isy gs names nv name es l id s en m v,
  let src := symbol_factory (upper id) false false in
  let subs := parse_substitutions gs names in
  let xs := get_variables nv name es in
  differentiates diff -> separate isy subs xs es -> solves good (equations false ac isy subs nv name es) xs l ->
  good s en -> (forall t, good s (set_sym en src t)) ->
  symbolic_mna_and_N false ac s isy subs en nv es = Ok (m, v) -> regular (length xs) m ->
  map fst (calculate_gains diff l src) = map (fun kv => y_name (fst kv) ++ "/" ++ upper id)%string l /\
  forall i k w, nth_error l i = Some (k, w) -> exists key g, nth_error (calculate_gains diff l src) i = Some (key, g) /\
    (forall a, t_gain g s en = w s (set_sym en src (a + 1)) - w s (set_sym en src a)) /\
    w s en = w s (set_sym en src 0) + en src * t_gain g s en /\
    (forall z, t_gain0 g z en = t_gain g 0 en).
Proof.
  intros good diff ac isy gs names nv name es l id s en m v src subs xs D SEP SOL G0 G E REG. split.
  - unfold calculate_gains. rewrite map_map. apply map_ext. intros kv. cbn [fst]. unfold src, symbol_factory. cbn [y_name]. rewrite upper_idem. reflexivity.
  - intros i k w NE. unfold calculate_gains. rewrite nth_error_map, NE. cbn [option_map fst snd]. do 2 eexists. split; [reflexivity|]. cbn [t_gain t_gain0].
    assert (I := nth_error_In _ _ NE).
    assert (A := gain_affine good ac isy subs nv name es l id s en m v (parse_real gs names) SEP SOL G E REG k w I).
    assert (B := gain_self good ac isy subs nv name es l id s en m v SEP SOL G0 G E REG k w I). fold src in A, B.
    assert (DG : diff w src s en = w s (set_sym en src 1) - w s (set_sym en src 0)).
    { apply D. apply (affine_derivative _ (w s (set_sym en src 0))). intros t. rewrite A. reflexivity. }
    rewrite DG. split; [|split; [|reflexivity]].
    + intros a. rewrite (A (a + 1)), (A a). ring.
    + rewrite <- B. apply A.
Qed.
Print Assumptions C168_gain.

(** A source that the circuit does not have (or that is not symbolic) is not an error:
    every transfer function is then zero. *)
Theorem C168_unknown_refuted : forall good solve diff ac isy gs names nv name es l id s en m v outfile py3,
  let src := symbol_factory (upper id) false false in
  let subs := parse_substitutions gs names in
  let xs := get_variables nv name es in
  differentiates diff -> separate isy subs xs es -> solves good (equations false ac isy subs nv name es) xs l ->
  good s en -> (forall t, good s (set_sym en src t)) -> ~ In src xs ->
  symbolic_mna_and_N false ac s isy subs en nv es = Ok (m, v) -> regular (length xs) m ->
  (forall e, In e es -> isy e = true -> subst subs (sym_of e) <> src) ->
  solve (equations false ac isy subs nv name es) xs = SDict l ->
  (exists mv, symbolic_mna_and_N false ac 0 isy subs (fun _ => 1) nv es = Ok mv) ->
  exists out tfs, symbolic_analysis solve diff false py3 false ac isy subs nv name es (Some id) outfile = Ok out /\
    o_tfs out = Some tfs /\ length tfs = length l /\ forall key g, In (key, g) tfs -> t_gain g s en = 0.
Proof.
  intros good solve diff ac isy gs names nv name es l id s en m v outfile py3 src subs xs D SEP SOL G0 G NX E REG NS SV (mv & MV).
  eexists. exists (calculate_gains diff l src). split; [unfold symbolic_analysis; fold subs; rewrite MV; cbn [bindr]; fold xs; rewrite SV, andb_false_r; cbn [bindr]; reflexivity|].
  split; [reflexivity|split; [unfold calculate_gains; apply map_length|]].
  intros key g I. unfold calculate_gains in I. apply in_map_iff in I. destruct I as ([k w] & EK & I). injection EK as _ <-. cbn [t_gain snd].
    apply D. apply (affine_derivative _ (w s en)). intros t. rewrite Rmult_0_r, Rplus_0_r.
    assert (IN : In k xs) by (destruct SOL as ((_ & IN) & _); apply IN; apply in_map_iff; exists (k, w); split; [reflexivity|exact I]).
    destruct (In_nth _ _ (node_sym "") IN) as (j & J & NJ).
    assert (Et : symbolic_mna_and_N false ac s isy subs (set_sym en src t) nv es = Ok (m, v)).
    { rewrite <- E. apply mna_ext. intros e Ie Se. apply set_other. apply NS; assumption. }
    assert (S0 := back_solution good ac isy subs nv name es l SEP SOL s _ m v (G t) Et).
    assert (S1 := back_solution good ac isy subs nv name es l SEP SOL s en m v G0 E).
    assert (Q := regular_unique _ _ v REG _ _ S0 S1 j J). cbv beta in Q. fold xs in Q. rewrite NJ in Q.
    rewrite !(fun en => back_val good ac isy subs nv name es l SOL s en k w I) in Q. exact Q.
Qed.
Print Assumptions C168_unknown_refuted.

(** V1 and R1: the gains of the voltage and of the current, and those with respect to a
    source that is not there. *)
Lemma tiny_regular : forall s en m v, tiny_good s en -> symbolic_mna_and_N false true s (fun _ => true) [] en 2 tiny = Ok (m, v) -> regular 2 m.
Proof.
  intros s en m v G E z H j J. assert (H0 := H 0%nat ltac:(auto)). assert (H1 := H 1%nat ltac:(auto)).
  apply (f_equal (fun r => match r with Ok p => fst p | Err _ => mzero end)) in E.
  change ((match symbolic_mna_and_N false true s (fun _ => true) [] en 2 tiny with Ok p => fst p | Err _ => mzero end) = m) in E.
  set (r1 := en (sym_of (ER "R1" 1 0 2))) in *.
  assert (A : m 1%nat 1%nat = 1 / r1) by (rewrite <- E; transitivity (0 + 1 / r1); [reflexivity|ring]).
  assert (B : m 1%nat 2%nat = 1) by (rewrite <- E; reflexivity). assert (C : m 2%nat 1%nat = 1) by (rewrite <- E; reflexivity).
  assert (D : m 2%nat 2%nat = 0) by (rewrite <- E; reflexivity).
  cbn [rsum] in H0, H1. rewrite A, B in H0. rewrite C, D in H1.
  assert (Z0 : z 0%nat = 0) by lra. rewrite Z0 in H0. assert (Z1 : z 1%nat = 0) by lra.
  destruct j as [|[|j]]; [exact Z0|exact Z1|]. exfalso. inversion J as [|? J']. inversion J' as [|? J'']. inversion J''.
Qed.
Example C168_example : forall diff, differentiates diff -> forall s en, tiny_good s en ->
  map fst (calculate_gains diff tiny_sol (symbol_factory "V1" false false)) = ["VA/V1"; "I[V1]/V1"]%string /\
  map (fun g => t_gain (snd g) s en) (calculate_gains diff tiny_sol (symbol_factory "V1" false false)) = [1; - 1 / en (sym_of (ER "R1" 1 0 2)%string)] /\
  map (fun g => t_gain (snd g) s en) (calculate_gains diff tiny_sol (symbol_factory "V9" false false)) = [0; 0].
Proof.
  intros diff D s en G. split; [reflexivity|]. destruct C167_example as [SEP SOL].
  assert (GT : forall y t, y <> sym_of (ER "R1" 1 0 2)%string -> tiny_good s (set_sym en y t)).
  { intros y t N. unfold tiny_good in *. rewrite set_other; [exact G|]. intros X. apply N. symmetry. exact X. }
  split.
  - destruct (symbolic_mna_and_N false true s (fun _ => true) [] en 2 tiny) as [[m v]|] eqn:E; [|discriminate E].
    destruct (C168_gain tiny_good diff true (fun _ => true) false [] 2 tiny_name tiny tiny_sol "V1" s en m v D SEP SOL G) as [_ K];
      [intros t; apply GT; discriminate|exact E|exact (tiny_regular s en m v G E)|].
    destruct (K 0%nat _ _ eq_refl) as (k0 & g0 & N0 & A0 & _). destruct (K 1%nat _ _ eq_refl) as (k1 & g1 & N1 & A1 & _).
    cbn [calculate_gains tiny_sol map nth_error] in N0, N1. injection N0 as _ <-. injection N1 as _ <-. cbn [calculate_gains tiny_sol map fst snd]. f_equal; [|f_equal].
    + etransitivity; [exact (A0 0)|]. rewrite !set_same. ring.
    + etransitivity; [exact (A1 0)|]. unfold tiny_good in G. cbn [snd]. rewrite !set_same. rewrite !(set_other en _ _ (sym_of (ER "R1" 1 0 2)%string)) by discriminate. field. exact G.
  - cbn [calculate_gains tiny_sol map fst snd]. f_equal; [|f_equal]; cbn [t_gain]; apply D.
    + apply (affine_derivative _ (en (sym_of (EV "V1" 1 0 5 false)%string))). intros t. rewrite set_other by discriminate. ring.
    + apply (affine_derivative _ (- en (sym_of (EV "V1" 1 0 5 false)%string) / en (sym_of (ER "R1" 1 0 2)%string))). intros t. rewrite !set_other by discriminate. ring.
Qed.

(** * C169, C170: the analysis ends *)

Definition base_name (outfile : option string) : list string := match outfile with Some f => if String.eqb f "stdout" then [] else [f] | None => [] end.
(** Without the command line (or under Python 2) a solution is returned as it is, and
    written: the results, and with transfer functions a second file; a dictionary that is
    empty gives a warning. *)
Theorem C169_returns : forall solve diff cli py3 gs ac isy subs nv name es l source outfile,
  (cli && py3)%bool = false ->
  (exists mv, symbolic_mna_and_N gs ac 0 isy subs (fun _ => 1) nv es = Ok mv) ->
  solve (equations gs ac isy subs nv name es) (get_variables nv name es) = SDict l ->
  exists out, symbolic_analysis solve diff cli py3 gs ac isy subs nv name es source outfile = Ok out /\
    o_sol out = l /\ (o_warned out = true <-> l = []) /\ (o_tfs out = None <-> source = None) /\
    o_files out = (base_name outfile ++ if match source with Some _ => negb (length l =? 0)%nat | None => false end then map (fun f => f ++ ".tfs")%string (base_name outfile) else [])%list.
Proof.
  intros solve diff cli py3 gs ac isy subs nv name es l source outfile CP (mv & MV) SV.
  assert (PS : forall b : bool, (if (b && cli)%bool then print_sorted py3 else Ok tt) = Ok tt).
  { intros b. destruct b, cli, py3; try discriminate CP; reflexivity. }
  assert (PS' : (if cli then print_sorted py3 else Ok tt) = Ok tt) by exact (PS true).
  unfold symbolic_analysis. rewrite MV. cbn [bindr]. rewrite SV, PS. cbn [bindr]. destruct source as [src|].
  - rewrite PS'. cbn [bindr]. eexists. split; [reflexivity|]. cbn [o_sol o_warned o_tfs o_files]. split; [reflexivity|].
    split; [destruct l; split; intros H; congruence|]. split; [split; discriminate|].
    destruct outfile as [f|]; cbn [base_name]; [destruct (String.eqb f "stdout")|]; destruct l; reflexivity.
  - eexists. split; [reflexivity|]. cbn [o_sol o_warned o_tfs o_files]. split; [reflexivity|].
    split; [destruct l; split; intros H; congruence|]. split; [split; reflexivity|].
    destruct outfile as [f|]; cbn [base_name]; [destruct (String.eqb f "stdout")|]; reflexivity.
Qed.
Print Assumptions C169_returns.

(** Equations without a solution, for which [sympy.solve] gives the empty list, end in an
    exception, before the warning. *)
Theorem C169_no_solution_refuted : forall solve diff cli py3 gs ac isy subs nv name es source outfile,
  (exists mv, symbolic_mna_and_N gs ac 0 isy subs (fun _ => 1) nv es = Ok mv) ->
  solve (equations gs ac isy subs nv name es) (get_variables nv name es) = SEmptyList ->
  symbolic_analysis solve diff cli py3 gs ac isy subs nv name es source outfile = Err AttributeError.
Proof. intros solve diff cli py3 gs ac isy subs nv name es source outfile (mv & MV) SV. unfold symbolic_analysis. rewrite MV. cbn [bindr]. rewrite SV. reflexivity. Qed.
Print Assumptions C169_no_solution_refuted.
(** There are such circuits: two sources of current in series. *)
Definition series_i : list lelem := [EI "I1" 0 1 1 false; EI "I2" 1 0 2 false]%string.
Example C169_example : (forall en, (forall e, In e (equations false true (fun _ => true) [] 2 tiny_name series_i) -> e 0 en = 0) ->
    en (sym_of (EI "I1" 0 1 1 false)%string) = en (sym_of (EI "I2" 1 0 2 false)%string)) /\
  exists mv, symbolic_mna_and_N false true 0 (fun _ => true) [] (fun _ => 1) 2 series_i = Ok mv.
Proof.
  split; [|eexists; reflexivity]. intros en H. assert (A := H _ (or_introl eq_refl)).
  set (i1 := en (sym_of (EI "I1" 0 1 1 false)%string)). set (i2 := en (sym_of (EI "I2" 1 0 2 false)%string)). set (va := en (node_sym "a")).
  assert (X : equation false true (fun _ => true) [] 2 tiny_name series_i 0 0 en = i2 - i1).
  { transitivity (0 + 0 * va + (0 + - i1 + i2)); [reflexivity|ring]. }
  rewrite X in A. lra.
Qed.

(** From the command line under Python 3 there is no symbolic analysis with a solution. *)
Theorem C170_command_line_refuted : forall solve diff gs ac isy subs nv name es l source outfile,
  (exists mv, symbolic_mna_and_N gs ac 0 isy subs (fun _ => 1) nv es = Ok mv) -> l <> [] ->
  solve (equations gs ac isy subs nv name es) (get_variables nv name es) = SDict l ->
  symbolic_analysis solve diff true true gs ac isy subs nv name es source outfile = Err TypeError.
Proof.
  intros solve diff gs ac isy subs nv name es l source outfile (mv & MV) NL SV. unfold symbolic_analysis. rewrite MV. cbn [bindr]. rewrite SV.
  destruct l; [congruence|]. reflexivity.
Qed.
Print Assumptions C170_command_line_refuted.
(** V1 and R1: two results, none of which is printed. *)
Example C170_example : forall diff source,
  let solve := fun (_ : list expr) (_ : list sym) => SDict tiny_sol in
  symbolic_analysis solve diff true true false true (fun _ => true) [] 2 tiny_name tiny source (Some "out"%string) = Err TypeError /\
  exists out, symbolic_analysis solve diff false true false true (fun _ => true) [] 2 tiny_name tiny (Some "V1"%string) (Some "out"%string) = Ok out /\
    o_files out = ["out"; "out.tfs"]%string.
Proof.
  intros diff source solve. split.
  - apply (C170_command_line_refuted solve diff false true (fun _ => true) [] 2 tiny_name tiny tiny_sol); [eexists; reflexivity|discriminate|reflexivity].
  - eexists. split; reflexivity.
Qed.

(** * C171: the symbol of a name *)

Definition has_name (v : string) (y : sym) : Prop := lower (y_name y) = lower v.
Lemma add_new_spec : forall ys l, exists zs, add_new l ys = (l ++ map ESym zs)%list /\ (forall y, In y ys -> In (ESym y) (add_new l ys)) /\ incl zs ys.
Proof.
  unfold add_new. induction ys as [|y ys IH]; intros l; [exists []; cbn; rewrite app_nil_r; split; [reflexivity|split; [tauto|intros x []]]|]. cbn [fold_left].
  destruct (existsb _ l) eqn:EX.
  - destruct (IH l) as (zs & A & B & C). exists zs. split; [exact A|]. split; [|intros x X; right; apply C; exact X]. intros z [<-|Z]; [|apply B; exact Z]. rewrite A. apply in_app_iff. left.
    apply existsb_exists in EX. destruct EX as ([x|x] & X1 & X2); [|discriminate X2]. destruct (sym_eqb_spec x y); [subst x; exact X1|discriminate X2].
  - destruct (IH (l ++ [ESym y])%list) as (zs & A & B & C). exists (y :: zs). split; [rewrite A, <- app_assoc; reflexivity|]. split.
    + intros z [<-|Z]; [|apply B; exact Z]. rewrite A. apply in_app_iff. left. apply in_app_iff. right. left. reflexivity.
    + intros x [<-|X]; [left; reflexivity|right; apply C; exact X].
Qed.
Lemma symbols_spec : forall atoms keys, exists zs, symbols_of keys atoms = (keys ++ map ESym zs)%list /\ (forall ys y, In ys atoms -> In y ys -> In (ESym y) (symbols_of keys atoms)) /\
  forall z, In z zs -> exists ys, In ys atoms /\ In z ys.
Proof.
  unfold symbols_of. induction atoms as [|ys atoms IH]; intros keys; [exists []; cbn; rewrite app_nil_r; split; [reflexivity|split; [tauto|intros z []]]|]. cbn [fold_left].
  destruct (add_new_spec ys keys) as (z1 & A1 & B1 & C1). destruct (IH (add_new keys ys)) as (z2 & A2 & B2 & C2). exists (z1 ++ z2)%list. split; [|split].
  - rewrite A2, A1, map_app, app_assoc. reflexivity.
  - intros us u [<-|U] I; [rewrite A2; apply in_app_iff; left; apply B1; exact I|apply (B2 us); assumption].
  - intros z Z. apply in_app_iff in Z. destruct Z as [Z|Z]; [exists ys; split; [left; reflexivity|apply C1; exact Z]|]. destruct (C2 z Z) as (us & U1 & U2). exists us. split; [right; exact U1|exact U2].
Qed.
Lemma named_map : forall v zs, named v (map ESym zs) = Ok (filter (fun y => String.eqb (lower (y_name y)) (lower v)) zs).
Proof. intros v. induction zs as [|z zs IH]; [reflexivity|]. cbn [map named filter]. rewrite IH. cbn [bindr]. destruct (String.eqb _ _); reflexivity. Qed.
Lemma as_symbol_map : forall v zs, match find (fun y => String.eqb (lower (y_name y)) (lower v)) zs with Some y => as_symbol (map ESym zs) v = Ok y | None => as_symbol (map ESym zs) v = Err ValueError end.
Proof.
  intros v zs. unfold as_symbol. rewrite named_map. cbn [bindr]. induction zs as [|z zs IH]; [reflexivity|]. cbn [find filter]. destruct (String.eqb _ _); [reflexivity|exact IH].
Qed.

(** The symbol of a name: for a solution, an unknown or a symbol of one of the results,
    whose name is the given one but for capitals; ValueError if there is none. *)
Theorem C171_solution : forall (keys : list sym) atoms v,
  let known y := In y keys \/ exists ys, In ys atoms /\ In y ys in
  match as_symbol (symbols_of (map ESym keys) atoms) v with
  | Ok y => known y /\ has_name v y
  | Err e => e = ValueError /\ forall y, known y -> ~ has_name v y
  end.
Proof.
  intros keys atoms v known. destruct (symbols_spec atoms (map ESym keys)) as (zs & A & B & C). rewrite A, <- map_app.
  assert (K : forall y, In y (keys ++ zs)%list <-> known y).
  { intros y. rewrite in_app_iff. unfold known. split; (intros [H|H]; [left; exact H|]).
    - right. apply C. exact H.
    - destruct H as (ys & Y1 & Y2). assert (Q := B ys y Y1 Y2). rewrite A in Q. rewrite <- map_app in Q. apply in_map_iff in Q. destruct Q as (x & X1 & X2). injection X1 as ->.
      apply in_app_iff in X2. exact X2. }
  assert (F := as_symbol_map v (keys ++ zs)). destruct (find _ (keys ++ zs)) as [y|] eqn:EF; rewrite F.
  - apply find_some in EF. destruct EF as [I N]. apply String.eqb_eq in N. split; [apply K; exact I|exact N].
  - split; [reflexivity|]. intros y KY N. apply K in KY. assert (X := find_none _ _ EF y KY). cbv beta in X. unfold has_name in N. rewrite N, String.eqb_refl in X. discriminate X.
Qed.
Print Assumptions C171_solution.

(** For transfer functions the keys are strings, and no symbol can be asked for. *)
Theorem C171_tfs_refuted : forall diff l src atoms v, l <> [] ->
  as_symbol (symbols_of (map (fun kt => EStr (fst kt)) (calculate_gains diff l src)) atoms) v = Err AttributeError.
Proof.
  intros diff l src atoms v NL. destruct (symbols_spec atoms (map (fun kt => EStr (fst kt)) (calculate_gains diff l src))) as (zs & A & _). rewrite A.
  destruct l; [congruence|]. reflexivity.
Qed.
Print Assumptions C171_tfs_refuted.
Example C171_example : let r1 := sym_of (ER "R1" 1 0 2)%string in let v1 := sym_of (EV "V1" 1 0 5 false)%string in
  let s := symbols_of (map ESym [node_sym "a"; current_sym "V1"]%string) [[v1]; [v1; r1]] in
  as_symbol s "r1" = Ok r1 /\ as_symbol s "VA" = Ok (node_sym "a") /\ as_symbol s "R2" = Err ValueError /\ length s = 4%nat /\
  as_symbol (symbols_of [EStr "VA/V1"] [[r1]])%string "r1" = Err AttributeError.
Proof. repeat split. Qed.

(** * C172: transistors and diodes *)

(** The current that leaves the node [i] through the elements that are not linear, at the
    voltages [x]. *)
Definition gate (i a b : nat) : R := (if (i =? a)%nat then 1 else 0) - (if (i =? b)%nat then 1 else 0).
Definition device_current (en : env) (subs : sdict) (r0s : bool) (x : vec) (e : selem) (i : nat) : R :=
  match e with
  | SLin _ => 0
  | SMos id n1 n2 ng => gate i n1 n2 * (en (subst subs (gm_sym id)) * (x ng - x n2) + if r0s then (x n1 - x n2) / en (subst subs (r0_sym id)) else 0)
  | SDiode id n1 n2 => gate i n1 n2 * (en (subst subs (gd_sym id)) * (x n1 - x n2))
  end.
Definition device_currents (en : env) (subs : sdict) (r0s : bool) (l : list selem) (x : vec) (i : nat) : R :=
  fold_right (fun e r => device_current en subs r0s x e i + r) 0 l.
Definition in_circuit (nv : nat) (e : selem) : Prop :=
  match e with SLin _ => True | SMos _ n1 n2 ng => (n1 < nv /\ n2 < nv /\ ng < nv)%nat | SDiode _ n1 n2 => (n1 < nv /\ n2 < nv)%nat end.

Section Shift.
  Variables (nv : nat) (D : mat).
  Hypothesis SUP : forall i j, ((nv <= i) \/ (nv <= j))%nat -> D i j = 0.
  Definition shifted (m m' : mat) : Prop := forall i j, m' i j = m i j + D i j.
  Lemma sh_madd : forall m m' a b x, shifted m m' -> shifted (madd m a b x) (madd m' a b x).
  Proof. intros m m' a b x H i j. unfold madd, mset. rewrite !H. destruct (_ && _)%bool eqn:E; [|reflexivity]. apply andb_true_iff in E. destruct E as [A B]. apply Nat.eqb_eq in A, B. subst. ring. Qed.
  Lemma sh_mset : forall m m' a b x, (nv <= a \/ nv <= b)%nat -> shifted m m' -> shifted (mset m a b x) (mset m' a b x).
  Proof.
    intros m m' a b x C H i j. unfold mset. destruct (_ && _)%bool eqn:E; [|apply H]. apply andb_true_iff in E. destruct E as [A B]. apply Nat.eqb_eq in A, B. subst. rewrite SUP by exact C. ring.
  Qed.
  Variables (gs ac : bool) (s : R) (isy : lelem -> bool) (subs : sdict) (en : env).
  Lemma sh_pass1 : forall all x m m' v p, shifted m m' -> y_stamp1 gs ac s isy subs en all (m', v) x = Ok p ->
    exists m1, y_stamp1 gs ac s isy subs en all (m, v) x = Ok (m1, snd p) /\ shifted m1 (fst p).
  Proof.
    intros all x m m' v p H E. destruct x; cbn [y_stamp1] in *; try (injection E as <-; eexists; split; [reflexivity|exact H]).
    - destruct (conductance _ _ _ _ _ _); [cbn [bindr] in *|discriminate E]. injection E as <-. eexists. split; [reflexivity|]. cbn [fst]. repeat apply sh_madd. exact H.
    - destruct ac; [|injection E as <-; eexists; split; [reflexivity|exact H]].
      destruct (value_of _ _ _ _); [cbn [bindr] in *|discriminate E]. injection E as <-. eexists. split; [reflexivity|]. cbn [fst]. repeat apply sh_madd. exact H.
    - destruct (value_of _ _ _ _); [cbn [bindr] in *|discriminate E]. injection E as <-. eexists. split; [reflexivity|]. exact H.
    - destruct (value_of _ _ _ _); [cbn [bindr] in *|discriminate E]. injection E as <-. eexists. split; [reflexivity|]. cbn [fst]. repeat apply sh_madd. exact H.
  Qed.
  Lemma sh_pass2 : forall all l k m m' v p, shifted m m' -> y_pass2 ac s isy subs en nv all l k (m', v) = Ok p ->
    exists m1, y_pass2 ac s isy subs en nv all l k (m, v) = Ok (m1, snd p) /\ shifted m1 (fst p).
  Proof.
    intros all. induction l as [|e l IH]; intros k m m' v p H E; cbn [y_pass2] in *; [injection E as <-; eauto|].
    destruct (is_vde e); [|exact (IH k m m' v p H E)].
    destruct (y_stamp_vde ac s isy subs en nv all k (m', v) e) as [[m1' v1]|] eqn:E1; [cbn [bindr] in E|discriminate E].
    assert (Q : exists m1, y_stamp_vde ac s isy subs en nv all k (m, v) e = Ok (m1, v1) /\ shifted m1 m1').
    { assert (R1 : (nv <= nv + k)%nat) by apply Nat.le_add_r.
      destruct e; cbn [y_stamp_vde] in *; try (injection E1 as <- <-; eexists; split; [reflexivity|exact H]).
      - destruct ac; [destruct (value_of _ _ _ _); [cbn [bindr] in *|discriminate E1]|]; injection E1 as <- <-; eexists; (split; [reflexivity|]); repeat (apply sh_mset; [auto|]); exact H.
      - destruct (value_of _ _ _ _); [cbn [bindr] in *|discriminate E1]; injection E1 as <- <-; eexists; (split; [reflexivity|]); repeat (apply sh_mset; [auto|]); exact H.
      - destruct (value_of _ _ _ _); [cbn [bindr] in *|discriminate E1]; injection E1 as <- <-; eexists; (split; [reflexivity|]); repeat (apply sh_mset; [auto|]); exact H.
      - destruct (value_of _ _ _ _); [cbn [bindr] in *|discriminate E1]. destruct (vde_index all src) as [j|]; [cbn [bindr] in *|discriminate E1]. destruct (j <=? k)%nat; [|discriminate E1].
        injection E1 as <- <-; eexists; (split; [reflexivity|]); repeat (apply sh_mset; [auto|]); exact H. }
    destruct Q as (m1 & Q1 & Q2). rewrite Q1. cbn [bindr]. exact (IH (S k) m1 m1' v1 p Q2 E).
  Qed.
  Lemma sh_couplings : forall k all id l m m' p, shifted m m' -> y_couplings s isy subs en nv k all id l m' = Ok p ->
    exists m1, y_couplings s isy subs en nv k all id l m = Ok m1 /\ shifted m1 p.
  Proof.
    intros k all id. induction l as [|e l IH]; intros m m' p H E; cbn [y_couplings] in *; [injection E as <-; eauto|].
    destruct e; try exact (IH m m' p H E). destruct (_ || _)%bool; [|exact (IH m m' p H E)].
    destruct (value_of _ _ _ _); [cbn [bindr] in *|discriminate E]. destruct (other_inductor _ _); [cbn [bindr] in *|discriminate E]. destruct (vde_index _ _); [cbn [bindr] in *|discriminate E].
    eapply IH; [|exact E]. apply sh_madd. exact H.
  Qed.
  Lemma sh_pass3 : forall all l m m' p, shifted m m' -> y_pass3 ac s isy subs en nv all l m' = Ok p ->
    exists m1, y_pass3 ac s isy subs en nv all l m = Ok m1 /\ shifted m1 p.
  Proof.
    intros all. induction l as [|e l IH]; intros m m' p H E; cbn [y_pass3] in *; [injection E as <-; eauto|].
    destruct e; try exact (IH m m' p H E).
    - destruct ac; [|exact (IH m m' p H E)]. destruct (vde_index all id) as [q|]; [cbn [bindr] in *|discriminate E].
      destruct (y_couplings s isy subs en nv q all id all m') as [c'|] eqn:EC0; [cbn [bindr] in E|discriminate E].
      destruct (sh_couplings q all id all m m' c' H EC0) as (c & C1 & C2). rewrite C1. cbn [bindr]. exact (IH c c' p C2 E).
    - destruct (vde_index all src); [cbn [bindr] in *|discriminate E]. destruct (value_of _ _ _ _); [cbn [bindr] in *|discriminate E].
      eapply IH; [|exact E]. repeat apply sh_madd. exact H.
  Qed.
End Shift.

Lemma rsum_madd : forall n m a b x i z, (b < n)%nat -> rsum n (fun j => madd m a b x i j * z j) = rsum n (fun j => m i j * z j) + (if (i =? a)%nat then x * z b else 0).
Proof.
  intros n m a b x i z B. rewrite (rsum_ext _ _ (fun j => m i j * z j + (if (i =? a)%nat then dlt j b * (x * z j) else 0))).
  - rewrite rsum_plus. f_equal. destruct (i =? a)%nat; [apply (rsum_dlt n b (fun j => x * z j) B)|apply rsum_0; reflexivity].
  - intros j _. unfold madd, mset, dlt. destruct (i =? a)%nat eqn:A; destruct (j =? b)%nat eqn:B'; cbn [andb]; rewrite ?A, ?B'; cbn [andb]; try ring.
    apply Nat.eqb_eq in A, B'. subst. ring.
Qed.

(** With the elements that are not linear, at the operating point: the equations are those
    of the linear elements alone, to which each transistor adds gm times the voltage
    between gate and source (and, with [r0s], the current of r0) and each diode its
    conductance times its voltage. *)
Theorem C172_small_signal : forall gs ac s isy subs en r0s nv l m v, Forall (in_circuit nv) l ->
  s_mna_and_N gs ac s isy subs en r0s nv l = Ok (m, v) ->
  exists m0, symbolic_mna_and_N gs ac s isy subs en nv (linear l) = Ok (m0, v) /\
    forall n x i, (nv <= n)%nat -> rsum n (fun j => m i j * x j) = rsum n (fun j => m0 i j * x j) + device_currents en subs r0s l x i.
Proof.
  intros gs ac s isy subs en r0s nv l m v W E. unfold s_mna_and_N in E.
  assert (K : forall all l m m' v p, Forall (in_circuit nv) l -> (exists D : mat, shifted D m m' /\ forall i j, ((nv <= i) \/ (nv <= j))%nat -> D i j = 0) ->
    s_pass1 gs ac s isy subs en r0s all l (m', v) = Ok p ->
    exists m1, y_pass1 gs ac s isy subs en all (linear l) (m, v) = Ok (m1, snd p) /\ exists D, shifted D m1 (fst p) /\ (forall i j, ((nv <= i) \/ (nv <= j))%nat -> D i j = 0) /\
      forall D0, shifted D0 m m' -> forall n x i, (nv <= n)%nat -> rsum n (fun j => D i j * x j) = rsum n (fun j => D0 i j * x j) + device_currents en subs r0s l x i).
  { clear. intros all. induction l as [|e l IH]; intros m m' v p W HD E; cbn [s_pass1] in E.
    - injection E as <-. cbn [linear flat_map y_pass1]. exists m. split; [reflexivity|]. destruct HD as (D & HD & SUP). exists D. cbn [fst]. split; [exact HD|]. split; [exact SUP|].
      intros D0 H0 n x i _. cbn [device_currents fold_right]. rewrite Rplus_0_r. apply rsum_ext. intros j _. f_equal. assert (A := HD i j). assert (B := H0 i j). lra.
    - inversion W as [|? ? We Wl]; subst. destruct (s_stamp1 gs ac s isy subs en r0s all (m', v) e) as [[m1' v1]|] eqn:E1; [cbn [bindr] in E|discriminate E].
      destruct e as [x|id n1 n2 ng|id n1 n2].
      + destruct HD as (D & HD & SUP). destruct (sh_pass1 D gs ac s isy subs en all x m m' v (m1', v1) HD E1) as (m1 & M1 & M2). cbn [snd fst] in M1, M2.
        destruct (IH m1 m1' v1 p Wl (ex_intro _ D (conj M2 SUP)) E) as (m2 & A & D2 & B1 & B2 & B3). exists m2. split.
        * change (linear (SLin x :: l)) with (x :: linear l). cbn [y_pass1]. rewrite M1. exact A.
        * exists D2. split; [exact B1|]. split; [exact B2|]. intros D0 H0 n z i N. cbn [device_currents fold_right device_current]. rewrite Rplus_0_l.
          rewrite (B3 D M2 n z i N). f_equal. apply rsum_ext. intros j _. f_equal. assert (Y := HD i j). assert (Z := H0 i j). lra.
      + cbn [s_stamp1] in E1. change (linear (SMos id n1 n2 ng :: l)) with (linear l). destruct We as (L1 & L2 & LG).
        set (gm := en (subst subs (gm_sym id))) in *. set (r0 := en (subst subs (r0_sym id))) in *.
        destruct HD as (D & HD & SUP).
        set (D1 := fun i j => D i j + (m1' i j - m' i j)).
        assert (H1 : shifted D1 m m1') by (intros i j; unfold D1; rewrite (HD i j); ring).
        assert (EV1 : v1 = v) by (destruct r0s; injection E1 as _ <-; reflexivity). subst v1.
        assert (PM : forall a b i j, (a < nv)%nat -> (b < nv)%nat -> (nv <= i \/ nv <= j)%nat -> forall mm x, madd mm a b x i j = mm i j).
        { intros a b i j A B C mm x. unfold madd, mset. destruct (i =? a)%nat eqn:EA; [|reflexivity]. destruct (j =? b)%nat eqn:EB; [|reflexivity].
          apply Nat.eqb_eq in EA, EB. subst. exfalso. destruct C as [C|C]; [apply (Nat.lt_irrefl a), (Nat.lt_le_trans _ nv); assumption|apply (Nat.lt_irrefl b), (Nat.lt_le_trans _ nv); assumption]. }
        assert (S1 : forall i j, ((nv <= i) \/ (nv <= j))%nat -> D1 i j = 0).
        { intros i j C. unfold D1. rewrite (SUP i j C). destruct r0s; injection E1 as <-; rewrite !PM by assumption; ring. }
        destruct (IH m m1' v p Wl (ex_intro _ D1 (conj H1 S1)) E) as (m2 & A & D2 & B1 & B2 & B3). exists m2. split; [exact A|]. exists D2. split; [exact B1|]. split; [exact B2|].
        intros D0 H0 n z i N. rewrite (B3 D1 H1 n z i N). cbn [device_currents fold_right device_current]. fold gm r0. rewrite <- Rplus_assoc. f_equal.
        assert (LN : (n1 < n)%nat /\ (n2 < n)%nat /\ (ng < n)%nat) by (repeat split; eapply Nat.lt_le_trans; eassumption). destruct LN as (N1 & N2 & NG).
        assert (ED1 : rsum n (fun j => D1 i j * z j) = rsum n (fun j => D0 i j * z j) + (rsum n (fun j => m1' i j * z j) - rsum n (fun j => m' i j * z j))).
        { rewrite <- rsum_minus, <- rsum_plus. apply rsum_ext. intros j _. unfold D1. assert (Y := HD i j). assert (Z := H0 i j). replace (D i j) with (D0 i j) by lra. ring. }
        rewrite ED1. f_equal. destruct r0s; injection E1 as <-; rewrite !rsum_madd by assumption; unfold gate; destruct (i =? n1)%nat, (i =? n2)%nat; unfold Rdiv; ring.
      + cbn [s_stamp1] in E1. change (linear (SDiode id n1 n2 :: l)) with (linear l). destruct We as (L1 & L2).
        set (gd := en (subst subs (gd_sym id))) in *. destruct HD as (D & HD & SUP).
        set (D1 := fun i j => D i j + (m1' i j - m' i j)).
        assert (H1 : shifted D1 m m1') by (intros i j; unfold D1; rewrite (HD i j); ring).
        assert (EV1 : v1 = v) by (injection E1 as _ <-; reflexivity). subst v1.
        assert (PM : forall a b i j, (a < nv)%nat -> (b < nv)%nat -> (nv <= i \/ nv <= j)%nat -> forall mm x, madd mm a b x i j = mm i j).
        { intros a b i j A B C mm x. unfold madd, mset. destruct (i =? a)%nat eqn:EA; [|reflexivity]. destruct (j =? b)%nat eqn:EB; [|reflexivity].
          apply Nat.eqb_eq in EA, EB. subst. exfalso. destruct C as [C|C]; [apply (Nat.lt_irrefl a), (Nat.lt_le_trans _ nv); assumption|apply (Nat.lt_irrefl b), (Nat.lt_le_trans _ nv); assumption]. }
        assert (S1 : forall i j, ((nv <= i) \/ (nv <= j))%nat -> D1 i j = 0).
        { intros i j C. unfold D1. rewrite (SUP i j C). injection E1 as <-; rewrite !PM by assumption; ring. }
        destruct (IH m m1' v p Wl (ex_intro _ D1 (conj H1 S1)) E) as (m2 & A & D2 & B1 & B2 & B3). exists m2. split; [exact A|]. exists D2. split; [exact B1|]. split; [exact B2|].
        intros D0 H0 n z i N. rewrite (B3 D1 H1 n z i N). cbn [device_currents fold_right device_current]. fold gd. rewrite <- Rplus_assoc. f_equal.
        assert (LN : (n1 < n)%nat /\ (n2 < n)%nat) by (split; eapply Nat.lt_le_trans; eassumption). destruct LN as (N1 & N2).
        assert (ED1 : rsum n (fun j => D1 i j * z j) = rsum n (fun j => D0 i j * z j) + (rsum n (fun j => m1' i j * z j) - rsum n (fun j => m' i j * z j))).
        { rewrite <- rsum_minus, <- rsum_plus. apply rsum_ext. intros j _. unfold D1. assert (Y := HD i j). assert (Z := H0 i j). replace (D i j) with (D0 i j) by lra. ring. }
        rewrite ED1. f_equal. injection E1 as <-; rewrite !rsum_madd by assumption; unfold gate; destruct (i =? n1)%nat, (i =? n2)%nat; ring. }
  destruct (s_pass1 gs ac s isy subs en r0s (linear l) l (mzero, vzero)) as [p1|] eqn:E1; [cbn [bindr] in E|discriminate E].
  assert (Z0 : shifted (fun _ _ => 0) mzero mzero) by (intros i j; unfold mzero; ring).
  destruct (K (linear l) l mzero mzero vzero p1 W (ex_intro _ _ (conj Z0 (fun i j _ => eq_refl))) E1) as (m1 & A1 & D & B1 & B2 & B3). clear K.
  destruct p1 as [p1m p1v]. cbn [fst snd] in *.
  destruct (y_pass2 ac s isy subs en nv (linear l) (linear l) 0 (p1m, p1v)) as [[p2m p2v]|] eqn:E2; [cbn [bindr fst snd] in E|discriminate E].
  destruct (sh_pass2 nv D B2 ac s isy subs en (linear l) (linear l) 0 m1 p1m p1v _ B1 E2) as (m2 & C1 & C2). cbn [fst snd] in C1, C2.
  destruct (y_pass3 ac s isy subs en nv (linear l) (linear l) p2m) as [p3|] eqn:E3; [cbn [bindr] in E|discriminate E].
  destruct (sh_pass3 nv D ac s isy subs en (linear l) (linear l) m2 p2m p3 C2 E3) as (m3 & F1 & F2).
  injection E as <- <-. exists m3. split; [unfold symbolic_mna_and_N; rewrite A1; cbn [bindr]; rewrite C1; cbn [bindr fst snd]; rewrite F1; reflexivity|].
  intros n x i N. rewrite (rsum_ext _ _ (fun j => m3 i j * x j + D i j * x j)) by (intros j _; rewrite (F2 i j); ring).
  rewrite rsum_plus, (B3 _ Z0 n x i N). rewrite (rsum_0 n (fun j => 0 * x j)) by (intros; ring). ring.
Qed.
Print Assumptions C172_small_signal.

(** An amplifier: its load and its transistor, source grounded. *)
Definition amp : list selem := [SLin (ER "RD" 1 0 3); SMos "M1" 1 0 2; SLin (EV "V1" 2 0 1 false)]%string.
Example C172_example : forall en subs, let gm := en (subst subs (gm_sym "M1")) in let r0 := en (subst subs (r0_sym "M1")) in
  exists m v, s_mna_and_N false true 0 (fun _ => false) subs en true 3 amp = Ok (m, v) /\ Forall (in_circuit 3) amp /\
    (forall x : vec, x 0%nat = 0 -> device_currents en subs true amp x 1%nat = gm * x 2%nat + x 1%nat / r0) /\
    forall x : vec, x 0%nat = 0 -> rsum 4 (fun j => m 1%nat j * x j) = x 1%nat / 3 + gm * x 2%nat + x 1%nat / r0.
Proof.
  intros en subs gm r0. destruct (s_mna_and_N false true 0 (fun _ => false) subs en true 3 amp) as [[m v]|] eqn:E; [|discriminate E].
  assert (W : Forall (in_circuit 3) amp) by (repeat constructor).
  exists m, v. split; [reflexivity|]. split; [exact W|].
  assert (DC : forall x : vec, x 0%nat = 0 -> device_currents en subs true amp x 1%nat = gm * x 2%nat + x 1%nat / r0).
  { intros x X0. transitivity (0 + ((1 - 0) * (gm * (x 2%nat - x 0%nat) + (x 1%nat - x 0%nat) / r0) + (0 + 0))); [reflexivity|]. rewrite X0. unfold Rdiv. ring. }
  split; [exact DC|]. intros x X0. destruct (C172_small_signal false true 0 (fun _ => false) subs en true 3 amp m v W E) as (m0 & E0 & H).
  rewrite (H 4%nat x 1%nat ltac:(auto)), (DC x X0). rewrite <- Rplus_assoc. f_equal. f_equal.
  apply (f_equal (fun r => match r with Ok p => fst p 1%nat | Err _ => vzero end)) in E0.
  transitivity (rsum 4 (fun j => match symbolic_mna_and_N false true 0 (fun _ => false) subs en 3 (linear amp) with Ok p => fst p 1%nat j | Err _ => 0 end * x j)).
  - apply rsum_ext. intros j _. f_equal. exact (eq_sym (f_equal (fun f => f j) E0)).
  - transitivity (0 + (0 + - (1 / 3)) * x 0%nat + (0 + 1 / 3) * x 1%nat + 0 * x 2%nat + 0 * x 3%nat); [reflexivity|]. rewrite X0. field.
Qed.
