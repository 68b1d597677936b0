(** Property theorems about element lines: printing and reading back (C30), comments
    (C126), time functions of sources (C127), diode options (C128), what a line stands
    for (C129), the order of the lines (C130) and errors (C131). *)
From Coq Require Import Ascii String List Bool Arith ZArith QArith Qpower Qabs Permutation Lia.
From Verif Require Import Base BaseFacts Str Units Directive Netlist PropsParse NetlistFacts.
Import ListNotations.
Open Scope nat_scope.

Lemma streqb_refl_ : forall a, streqb a a = true.
Proof. intros a. unfold streqb. destruct (list_eq_dec ascii_dec a a); congruence. Qed.
Lemma streqb_true : forall a b, streqb a b = true <-> a = b.
Proof. intros a b. unfold streqb. destruct (list_eq_dec ascii_dec a b); split; congruence. Qed.

(** * C30 *)

(** Names that survive the reader: not empty, without blanks, in lower case (the
    reader makes every line lower case, C27). *)
Definition name (t : str) : Prop := t <> [] /\ Forall (fun c => is_ws c = false) t /\ slower t = t.
Definition begins (c : ascii) (t : str) : Prop := exists r, t = c :: r.

(** The inductor called [l] among [prev]: there is one, and no other with that name. *)
Definition inductor (prev : list pelem) (l : str) (v : dec) : Prop :=
  (exists n1 n2 ic, In (PL l n1 n2 v ic) prev) /\
  (forall n1 n2 w ic, In (PL l n1 n2 w ic) prev -> w = v).

(** The elements whose lines carry all there is to know; [prev] are those before. *)
Inductive printable (prev : list pelem) : pelem -> Prop :=
| pr_R id n1 n2 v : begins "r" id -> name id -> name n1 -> name n2 -> fst v <> 0%Z -> printable prev (PR id n1 n2 v)
| pr_C id n1 n2 v : begins "c" id -> name id -> name n1 -> name n2 -> printable prev (PC id n1 n2 v None)
| pr_L id n1 n2 v : begins "l" id -> name id -> name n1 -> name n2 -> printable prev (PL id n1 n2 v None)
| pr_K id l1 l2 k v1 v2 : begins "k" id -> name id -> name l1 -> name l2 -> l1 <> l2 ->
    inductor prev l1 v1 -> inductor prev l2 v2 -> printable prev (PK id l1 l2 k v1 v2)
| pr_E id n1 n2 s1 s2 v : begins "e" id -> name id -> name n1 -> name n2 -> name s1 -> name s2 -> printable prev (PE id n1 n2 s1 s2 v)
| pr_G id n1 n2 s1 s2 v : begins "g" id -> name id -> name n1 -> name n2 -> name s1 -> name s2 -> printable prev (PG id n1 n2 s1 s2 v)
| pr_H id n1 n2 src v : begins "h" id -> name id -> name n1 -> name n2 -> name src -> printable prev (PH id n1 n2 src v)
| pr_F id n1 n2 src v : begins "f" id -> name id -> name n1 -> name n2 -> name src -> printable prev (PF id n1 n2 src v).
Fixpoint printables (prev : list pelem) (l : list pelem) : Prop :=
  match l with [] => True | e :: l' => printable prev e /\ printables (prev ++ [e]) l' end.

(** The same element, but for the rounding of its value to six digits ([rounded]). *)
Inductive back : pelem -> pelem -> Prop :=
| bk_R id n1 n2 v w : rounded v w -> back (PR id n1 n2 v) (PR id n1 n2 w)
| bk_C id n1 n2 v w : rounded v w -> back (PC id n1 n2 v None) (PC id n1 n2 w None)
| bk_L id n1 n2 v w : rounded v w -> back (PL id n1 n2 v None) (PL id n1 n2 w None)
| bk_K id l1 l2 k k' v1 v2 w1 w2 : rounded k k' -> rounded v1 w1 -> rounded v2 w2 ->
    back (PK id l1 l2 k v1 v2) (PK id l1 l2 k' w1 w2)
| bk_E id n1 n2 s1 s2 v w : rounded v w -> back (PE id n1 n2 s1 s2 v) (PE id n1 n2 s1 s2 w)
| bk_G id n1 n2 s1 s2 v w : rounded v w -> back (PG id n1 n2 s1 s2 v) (PG id n1 n2 s1 s2 w)
| bk_H id n1 n2 src v w : rounded v w -> back (PH id n1 n2 src v) (PH id n1 n2 src w)
| bk_F id n1 n2 src v w : rounded v w -> back (PF id n1 n2 src v) (PF id n1 n2 src w).

(** What the reader sees of a printed line. *)
Definition as_read (srepr : dec -> str) (s : shown) : str := slower (netlist_line srepr s).

Lemma rounded_nz : forall v w, rounded v w -> fst v <> 0%Z -> dzero w = false.
Proof.
  intros [m e] [m' e'] [R _] N. cbn [fst] in N. unfold dzero. cbn [fst]. apply Z.eqb_neq. intros ->.
  assert (Z0 : (dQ (0%Z, e') == 0)%Q) by (unfold dQ; cbn [fst snd]; ring).
  rewrite Z0 in R. setoid_replace (0 - dQ (m, e))%Q with (- dQ (m, e))%Q in R by ring. rewrite Qabs_opp in R.
  assert (P : (0 < Qabs (dQ (m, e)))%Q).
  { unfold dQ. cbn [fst snd]. rewrite Qabs_pos_mult by (apply Qlt_le_weak, ten_pos).
    setoid_replace 0%Q with (0 * (10 # 1) ^ e)%Q by ring. apply Qmult_lt_compat_r; [apply ten_pos|].
    unfold Qlt, Qabs, inject_Z. simpl. lia. }
  assert (Q : (Qabs (dQ (m, e)) * 1 < Qabs (dQ (m, e)) * 200000)%Q) by (apply Qmult_lt_l; [exact P|reflexivity]).
  rewrite Qmult_1_r in Q. exact (Qlt_not_le _ _ Q R).
Qed.

Lemma tokens_read : forall l, Forall (fun t => t <> [] /\ Forall (fun c => is_ws c = false) t) (map slower l) ->
  split (slower (spaced l)) = map slower l.
Proof. intros l F. rewrite slower_spaced. apply split_spaced. exact F. Qed.

Lemma clean_token : forall t, clean t -> t <> [] /\ Forall (fun c => is_ws c = false) t.
Proof. intros t (A & B & _). auto. Qed.
Lemma name_token : forall t, name t -> slower t <> [] /\ Forall (fun c => is_ws c = false) (slower t).
Proof. intros t (A & B & C). rewrite C. auto. Qed.

Lemma find_none : forall l1 l2 prev o1 o2,
  (forall n1 n2 w ic, ~ In (PL l1 n1 n2 w ic) prev) -> (forall n1 n2 w ic, ~ In (PL l2 n1 n2 w ic) prev) ->
  fold_left (fun acc e => match e with
    | PL id _ _ v _ => if streqb l1 id then (Some v, snd acc) else if streqb l2 id then (fst acc, Some v) else acc
    | _ => acc end) prev (o1, o2) = (o1, o2).
Proof.
  intros l1 l2 prev. induction prev as [|e prev IH]; intros o1 o2 H1 H2; [reflexivity|]. cbn [fold_left].
  assert (I1 : forall n1 n2 w ic, ~ In (PL l1 n1 n2 w ic) prev) by (intros n1 n2 w ic Q; apply (H1 n1 n2 w ic); right; exact Q).
  assert (I2 : forall n1 n2 w ic, ~ In (PL l2 n1 n2 w ic) prev) by (intros n1 n2 w ic Q; apply (H2 n1 n2 w ic); right; exact Q).
  destruct e; try (apply IH; assumption).
  destruct (streqb l1 id) eqn:E1; [apply streqb_true in E1; subst; exfalso; eapply H1; left; reflexivity|].
  destruct (streqb l2 id) eqn:E2; [apply streqb_true in E2; subst; exfalso; eapply H2; left; reflexivity|].
  apply IH; assumption.
Qed.

(** The loop finds the inductors that are there. *)
Lemma find_gen : forall l1 l2 v1 v2 prev o1 o2, l1 <> l2 ->
  (forall n1 n2 w ic, In (PL l1 n1 n2 w ic) prev -> w = v1) ->
  (forall n1 n2 w ic, In (PL l2 n1 n2 w ic) prev -> w = v2) ->
  ((exists n1 n2 ic, In (PL l1 n1 n2 v1 ic) prev) \/ o1 = Some v1) ->
  ((exists n1 n2 ic, In (PL l2 n1 n2 v2 ic) prev) \/ o2 = Some v2) ->
  fold_left (fun acc e => match e with
    | PL id _ _ v _ => if streqb l1 id then (Some v, snd acc) else if streqb l2 id then (fst acc, Some v) else acc
    | _ => acc end) prev (o1, o2) = (Some v1, Some v2).
Proof.
  intros l1 l2 v1 v2 prev. induction prev as [|e prev IH]; intros o1 o2 NE U1 U2 H1 H2; cbn [fold_left].
  - destruct H1 as [(? & ? & ? & [])| ->]. destruct H2 as [(? & ? & ? & [])| ->]. reflexivity.
  - assert (I1 : forall n1 n2 w ic, In (PL l1 n1 n2 w ic) prev -> w = v1) by (intros; eapply U1; right; eassumption).
    assert (I2 : forall n1 n2 w ic, In (PL l2 n1 n2 w ic) prev -> w = v2) by (intros; eapply U2; right; eassumption).
    assert (Step : forall l v o, (exists n1 n2 ic, In (PL l n1 n2 v ic) (e :: prev)) \/ o = Some v ->
      (forall n1 n2 ic, e <> PL l n1 n2 v ic) -> (exists n1 n2 ic, In (PL l n1 n2 v ic) prev) \/ o = Some v).
    { intros l v o [(a & b & c & [Q|Q])|Q] D; [exfalso; eapply D; exact Q|left; eauto|right; exact Q]. }
    destruct e; try (apply IH; auto; apply Step; auto; intros; discriminate).
    destruct (streqb l1 id) eqn:E1.
    { apply streqb_true in E1. subst id. cbn [snd]. rewrite (U1 n1 n2 v ic) by (left; reflexivity).
      apply IH; auto. apply Step; auto. intros a b c Q. injection Q. intros. congruence. }
    destruct (streqb l2 id) eqn:E2.
    { apply streqb_true in E2. subst id. cbn [fst]. rewrite (U2 n1 n2 v ic) by (left; reflexivity).
      apply IH; auto. apply Step; auto. intros a b c Q. injection Q. intros. subst. rewrite streqb_refl_ in E1. discriminate. }
    apply IH; auto; apply Step; auto; intros a b c Q; injection Q; intros; subst.
    + rewrite streqb_refl_ in E1. discriminate.
    + rewrite streqb_refl_ in E2. discriminate.
Qed.

(** The value that was read back for a name. *)
Lemma back_inductor : forall prev prev' l v, Forall2 back prev prev' -> inductor prev l v ->
  (forall n1 n2 w1 ic1 m1 m2 w2 ic2, In (PL l n1 n2 w1 ic1) prev' -> In (PL l m1 m2 w2 ic2) prev' -> w1 = w2) ->
  exists w, rounded v w /\ inductor prev' l w.
Proof.
  intros prev prev' l v F [(n1 & n2 & ic & Hin) U] UN.
  assert (E : exists w n1 n2 ic, rounded v w /\ In (PL l n1 n2 w ic) prev').
  { clear U UN. induction F as [|x y xs ys B F IH]; [destruct Hin|]. destruct Hin as [->|Hin].
    - inversion B; subst. eexists _, _, _, _. split; [eassumption|left; reflexivity].
    - destruct (IH Hin) as (w & a & b & c & R1 & R2). eexists _, _, _, _. split; [exact R1|right; exact R2]. }
  destruct E as (w & a & b & c & R1 & R2). exists w. split; [exact R1|]. split; [eauto|].
  intros. eapply UN; eauto.
Qed.

(** Two inductors with the same name and value are read back with the same value. *)
Lemma back_same : forall prev prev' l v, Forall2 back prev prev' ->
  Forall2 (fun e e' => forall id n1 n2 v ic, e = PL id n1 n2 v ic -> forall w ic', e' = PL id n1 n2 w ic' -> convert_units (slower (fmt_g v)) = Ok w) prev prev' ->
  inductor prev l v ->
  forall n1 n2 w1 ic1 m1 m2 w2 ic2, In (PL l n1 n2 w1 ic1) prev' -> In (PL l m1 m2 w2 ic2) prev' -> w1 = w2.
Proof.
  intros prev prev' l v F G [_ U].
  assert (K : forall n1 n2 w ic, In (PL l n1 n2 w ic) prev' -> convert_units (slower (fmt_g v)) = Ok w).
  { intros n1 n2 w ic H. revert U. induction F as [|x y xs ys B F IH]; intros U; [destruct H|].
    inversion G; subst. destruct H as [->|H].
    - inversion B; subst. rewrite <- (U n1 n2 v0 None) by (left; reflexivity). eapply H3; reflexivity.
    - apply IH; auto. intros. eapply U. right. eassumption. }
  intros. pose proof (K _ _ _ _ H) as K1. pose proof (K _ _ _ _ H0) as K2. congruence.
Qed.

Definition reads (e e' : pelem) : Prop :=
  back e e' /\ (forall id n1 n2 v ic, e = PL id n1 n2 v ic -> forall w ic', e' = PL id n1 n2 w ic' -> convert_units (slower (fmt_g v)) = Ok w).


Lemma tokens_line : forall models other c id rest prev, begins c id -> lower_ascii c = c ->
  Forall (fun t => t <> [] /\ Forall (fun c => is_ws c = false) t) (map slower (id :: rest)) ->
  exists line, slower (spaced (id :: rest)) = line /\ parse_line models other line prev = parse_letter models other c line prev /\
    split line = map slower (id :: rest).
Proof.
  intros models other c id rest prev [r ->] LC F. eexists. split; [reflexivity|]. split; [|apply tokens_read, F].
  destruct rest; simpl; rewrite LC; reflexivity.
Qed.

Lemma find_ok : forall prev l1 l2 v1 v2, l1 <> l2 -> inductor prev l1 v1 -> inductor prev l2 v2 -> find_inductors l1 l2 prev = (Some v1, Some v2).
Proof. intros prev l1 l2 v1 v2 NE [H1 U1] [H2 U2]. unfold find_inductors. apply find_gen; auto. Qed.

Ltac toks := cbn [map]; repeat match goal with
  | |- Forall _ (_ :: _) => constructor
  | |- Forall _ [] => constructor
  | H : name ?t |- slower ?t <> [] /\ _ => exact (name_token t H)
  | H : clean ?t |- ?t <> [] /\ _ => exact (clean_token t H)
  end.

Lemma line_back : forall models other srepr prev prev' e, Forall2 reads prev prev' -> printable prev e ->
  exists e', parse_line models other (as_read srepr (ShElem e)) prev' = Ok [e'] /\ reads e e'.
Proof.
  intros models other srepr prev prev' e F P.
  destruct P as [id n1 n2 v B I1 I2 I3 NZ|id n1 n2 v B I1 I2 I3|id n1 n2 v B I1 I2 I3|id l1 l2 k v1 v2 B I1 I2 I3 NE D1 D2
                |id n1 n2 s1 s2 v B I1 I2 I3 I4 I5|id n1 n2 s1 s2 v B I1 I2 I3 I4 I5|id n1 n2 src v B I1 I2 I3 I4|id n1 n2 src v B I1 I2 I3 I4];
    unfold as_read, netlist_line; cbn [pieces];
    match goal with |- context [fmt_g ?v] => destruct (fmt_g_read v) as (w & CU & RD & CL) end;
    match type of B with begins ?c _ => match goal with |- context [spaced (id :: ?rest)] =>
      destruct (tokens_line models other c id rest prev' B eq_refl) as (line & -> & -> & TK); [toks|] end end;
    cbn [map] in TK;
    repeat match goal with H : name ?t |- _ => destruct H as (_ & _ & H); rewrite ?H in TK; clear H end;
    unfold parse_letter; rewrite TK; cbn [ascii_dec]; cbv zeta.
  - exists (PR id n1 n2 w). split; [|split; [constructor; exact RD|intros; discriminate]].
    cbn -[convert_units dzero]. rewrite CU. cbn [bindr]. rewrite (rounded_nz _ _ RD NZ). reflexivity.
  - exists (PC id n1 n2 w None). split; [|split; [constructor; exact RD|intros; discriminate]].
    cbn -[convert_units dzero]. rewrite CU. reflexivity.
  - exists (PL id n1 n2 w None). split; [|split; [constructor; exact RD|]].
    + cbn -[convert_units dzero]. rewrite CU. reflexivity.
    + intros id0 m1 m2 v0 ic E w0 ic' E'. injection E as <- <- <- <- <-. injection E' as <- <-. exact CU.
  - assert (FB : Forall2 back prev prev') by (clear - F; induction F as [|? ? ? ? [H _] ? IH]; constructor; assumption).
    assert (FS : Forall2 (fun e e' => forall id n1 n2 v ic, e = PL id n1 n2 v ic -> forall w ic', e' = PL id n1 n2 w ic' -> convert_units (slower (fmt_g v)) = Ok w) prev prev')
      by (clear - F; induction F as [|? ? ? ? [_ H] ? IH]; constructor; assumption).
    destruct (back_inductor _ _ _ _ FB D1 (back_same _ _ _ _ FB FS D1)) as (w1 & R1 & J1).
    destruct (back_inductor _ _ _ _ FB D2 (back_same _ _ _ _ FB FS D2)) as (w2 & R2 & J2).
    exists (PK id l1 l2 w w1 w2). split; [|split; [constructor; assumption|intros; discriminate]].
    cbn -[convert_units find_inductors]. rewrite CU. cbn [bindr]. rewrite (find_ok _ _ _ _ _ NE J1 J2). reflexivity.
  - exists (PE id n1 n2 s1 s2 w). split; [|split; [constructor; exact RD|intros; discriminate]].
    cbn -[convert_units dzero]. rewrite CU. reflexivity.
  - exists (PG id n1 n2 s1 s2 w). split; [|split; [constructor; exact RD|intros; discriminate]].
    cbn -[convert_units dzero]. rewrite CU. reflexivity.
  - exists (PH id n1 n2 src w). split; [|split; [constructor; exact RD|intros; discriminate]].
    cbn -[convert_units dzero]. rewrite CU. reflexivity.
  - exists (PF id n1 n2 src w). split; [|split; [constructor; exact RD|intros; discriminate]].
    cbn -[convert_units dzero]. rewrite CU. reflexivity.
Qed.

Lemma main_back : forall models other srepr elems prev prev', Forall2 reads prev prev' -> printables prev elems ->
  exists elems', main_netlist_parser models other (map (fun e => as_read srepr (ShElem e)) elems) prev' = Ok (prev' ++ elems')%list /\
    Forall2 reads elems elems'.
Proof.
  intros models other srepr. induction elems as [|e elems IH]; intros prev prev' F P.
  - exists []. split; [cbn [map main_netlist_parser]; rewrite app_nil_r; reflexivity|constructor].
  - destruct P as [P1 P2]. destruct (line_back models other srepr prev prev' e F P1) as (e' & L & RD).
    destruct (IH (prev ++ [e])%list (prev' ++ [e'])%list) as (es' & M & F').
    { apply Forall2_app; [exact F|]. constructor; [exact RD|constructor]. } { exact P2. }
    exists (e' :: es'). cbn [map main_netlist_parser]. rewrite L. cbn [bindr]. rewrite M, <- app_assoc. split; [reflexivity|].
    constructor; assumption.
Qed.

(** A netlist of these elements, printed element by element and read again, gives the
    same elements in the same order, every value rounded to six significant digits. *)
Theorem C30_read_back : forall models other srepr elems, printables [] elems ->
  exists elems', main_netlist_parser models other (map (fun e => as_read srepr (ShElem e)) elems) [] = Ok elems' /\
    Forall2 back elems elems'.
Proof.
  intros models other srepr elems P. destruct (main_back models other srepr elems [] [] ltac:(constructor) P) as (es & M & F).
  exists es. split; [exact M|]. clear - F. induction F as [|? ? ? ? [H _] ? IH]; constructor; assumption.
Qed.
Print Assumptions C30_read_back.

(** An RLC tank with a coupled coil and an amplifier. *)
Definition tank : list pelem :=
  [ PR (lit "r1") (lit "in") (lit "0") (15, 2)%Z; PL (lit "l1") (lit "in") (lit "0") (22, -7)%Z None;
    PC (lit "c1") (lit "in") (lit "0") (33, -13)%Z None; PL (lit "l2") (lit "out") (lit "0") (123456789, -14)%Z None;
    PK (lit "k1") (lit "l1") (lit "l2") (99, -2)%Z (22, -7)%Z (123456789, -14)%Z;
    PE (lit "e1") (lit "o2") (lit "0") (lit "out") (lit "0") (-25, 5)%Z ].
Ltac nm := split; [discriminate|split; [repeat constructor|reflexivity]].
Example C30_example_printable : printables [] tank.
Proof.
  cbn [printables tank]. repeat split; try (constructor; (nm || eexists; reflexivity) || (cbn; discriminate)).
  apply pr_K; try nm; try (eexists; reflexivity); try discriminate.
  - split; [exists (lit "in"), (lit "0"), None; simpl; tauto|]. intros n1 n2 w ic H. simpl in H.
    repeat (destruct H as [H|H]; [first [discriminate H|injection H as <- <- <- <-; reflexivity|injection H; intros; discriminate]|]); tauto.
  - split; [exists (lit "out"), (lit "0"), None; simpl; tauto|]. intros n1 n2 w ic H. simpl in H.
    repeat (destruct H as [H|H]; [first [discriminate H|injection H as <- <- <- <-; reflexivity|injection H; intros; discriminate]|]); tauto.
Qed.
Definition no_other (_ : str) : res (list pelem) := Err NetlistParseError.
Example C30_example :
  map (fun e => as_read fmt_g (ShElem e)) tank =
    map lit ["r1 in 0 1500"; "l1 in 0 2.2e-06"; "c1 in 0 3.3e-12"; "l2 out 0 1.23457e-06"; "k1 l1 l2 0.99"; "e1 o2 0 out 0 -2.5e+06"]%string /\
  main_netlist_parser [] no_other (map (fun e => as_read fmt_g (ShElem e)) tank) [] = Ok
  [ PR (lit "r1") (lit "in") (lit "0") (1500, 0)%Z; PL (lit "l1") (lit "in") (lit "0") (22, -7)%Z None;
    PC (lit "c1") (lit "in") (lit "0") (33, -13)%Z None; PL (lit "l2") (lit "out") (lit "0") (123457, -11)%Z None;
    PK (lit "k1") (lit "l1") (lit "l2") (99, -2)%Z (22, -7)%Z (123457, -11)%Z;
    PE (lit "e1") (lit "o2") (lit "0") (lit "out") (lit "0") (-25, 5)%Z ].
Proof. split; vm_compute; reflexivity. Qed.

(** The values themselves are not always kept. *)
Theorem C30_values_refuted : exists models other srepr v w,
  main_netlist_parser models other [as_read srepr (ShElem (PR (lit "r1") (lit "a") (lit "b") v))] [] = Ok [PR (lit "r1") (lit "a") (lit "b") w] /\
  ~ (dQ v == dQ w)%Q.
Proof.
  exists [], no_other, fmt_g, (12345678, 0)%Z, (123457, 2)%Z. split; [vm_compute; reflexivity|].
  intros H. vm_compute in H. discriminate H.
Qed.
Print Assumptions C30_values_refuted.

(** Initial conditions are not printed: the element read back has none. *)
Theorem C30_ic_refuted : forall models other srepr prev id n1 n2 v ic,
  name id -> name n1 -> name n2 ->
  (begins "c" id -> exists w, parse_line models other (as_read srepr (ShElem (PC id n1 n2 v (Some ic)))) prev = Ok [PC id n1 n2 w None]) /\
  (begins "l" id -> exists w, parse_line models other (as_read srepr (ShElem (PL id n1 n2 v (Some ic)))) prev = Ok [PL id n1 n2 w None]).
Proof.
  intros models other srepr prev id n1 n2 v ic I1 I2 I3.
  split; intros B; unfold as_read, netlist_line; cbn [pieces];
    match goal with |- context [fmt_g ?v] => destruct (fmt_g_read v) as (w & CU & RD & CL) end;
    match type of B with begins ?c _ => match goal with |- context [spaced (id :: ?rest)] =>
      destruct (tokens_line models other c id rest prev B eq_refl) as (line & -> & -> & TK); [toks|] end end;
    cbn [map] in TK;
    repeat match goal with H : name ?t |- _ => destruct H as (_ & _ & H); rewrite ?H in TK; clear H end;
    unfold parse_letter; rewrite TK; cbn [ascii_dec]; cbv zeta; exists w; cbn -[convert_units]; rewrite CU; reflexivity.
Qed.
Print Assumptions C30_ic_refuted.

(** ** Parameters with labels *)
Definition no_eq (s : str) : Prop := Forall (fun c => is_eq c = false) s.

Lemma eq_once : forall l v, no_eq l -> no_eq v -> is_valid_value_param_string (l ++ c_eq :: v) = true.
Proof.
  intros l v A B. unfold is_valid_value_param_string. rewrite filter_app. cbn [filter]. change (is_eq c_eq) with true. cbv iota.
  assert (F : forall s, no_eq s -> filter is_eq s = []) by (induction 1 as [|c s E F IH]; simpl; [reflexivity|rewrite E; exact IH]).
  rewrite (F l A), (F v B). reflexivity.
Qed.
Lemma eq_span : forall l v, no_eq l -> span (fun c => negb (is_eq c)) (l ++ c_eq :: v) = (l, c_eq :: v).
Proof.
  intros l v A. apply span_app; [|reflexivity]. eapply Forall_impl; [|exact A]. intros c H. cbv beta in H. rewrite H. reflexivity.
Qed.
Lemma label_value_eq : forall l v, no_eq l -> no_eq v -> label_value (l ++ c_eq :: v) = (Some l, v).
Proof. intros l v A B. unfold label_value. rewrite eq_once, eq_span by assumption. reflexivity. Qed.
Lemma param_value_eq : forall l v d, no_eq l -> no_eq v -> convert_units v = Ok d -> parse_param_value (l ++ c_eq :: v) = Ok (l, VNum d).
Proof. intros l v d A B C. unfold parse_param_value. rewrite eq_once, eq_span by assumption. cbn [tl]. unfold convert. rewrite C. reflexivity. Qed.

Lemma ploop_step : forall i l v toks params an t rest d, starred l = false -> l <> [] -> no_eq l -> no_eq v ->
  take_first (matches i (Some l)) params = Some (t, rest) -> s_type t = TFloat -> convert_units v = Ok d ->
  ploop i ((l ++ c_eq :: v) :: toks)%list params an = ploop (S i) toks rest (dset streqb an (s_dest t) (VNum d)).
Proof.
  intros i l v toks params an t rest d ST NE A B TF TY C. cbn [ploop].
  replace (starred (l ++ c_eq :: v)) with false by (destruct l; [congruence|exact (eq_sym ST)]).
  rewrite label_value_eq by assumption. rewrite TF, TY. unfold convert. rewrite C. reflexivity.
Qed.

(** [str] of a float is read back as the same number. *)
Definition faithful (srepr : dec -> str) : Prop :=
  forall d, clean (slower (srepr d)) /\ exists d', convert_units (slower (srepr d)) = Ok d' /\ (dQ d' == dQ d)%Q.

Lemma labelled_token : forall l v, l <> [] -> Forall (fun c => is_ws c = false) l -> Forall (fun c => is_ws c = false) v ->
  (l ++ c_eq :: v)%list <> [] /\ Forall (fun c => is_ws c = false) (l ++ c_eq :: v).
Proof.
  intros l v A B C. split; [destruct l; [congruence|discriminate]|]. apply Forall_app. split; [exact B|]. constructor; [reflexivity|exact C].
Qed.

(** The tables of the functions whose parameters are all printed under the labels that
    are read. *)
Definition printed_table (ty : str) (tbl : list spec) : Prop :=
  (ty = lit "pulse" /\ tbl = pulse_table) \/ (ty = lit "sin" /\ tbl = sin_table) \/ (ty = lit "exp" /\ tbl = exp_table).
Definition num_params (ps : list (str * val)) (tbl : list spec) : Prop :=
  forall t, In t tbl -> exists d, dget streqb ps (s_dest t) = Some (VNum d).
Definition same_params (ps ps' : list (str * val)) (tbl : list spec) : Prop :=
  forall t d, In t tbl -> dget streqb ps (s_dest t) = Some (VNum d) ->
    exists d', dget streqb ps' (s_dest t) = Some (VNum d') /\ (dQ d' == dQ d)%Q.

Lemma slower_lab : forall (l : string) v, slower (lit l) = lit l -> slower (lit l ++ c_eq :: v) = (lit l ++ c_eq :: slower v)%list.
Proof. intros l v H. unfold slower. rewrite map_app. change (map lower_ascii (lit l)) with (slower (lit l)). rewrite H. reflexivity. Qed.

(** A text that is read as the number [w]. *)
Definition reads_as (s : str) (w : dec) : Prop := clean s /\ convert_units s = Ok w.
Definition arg (l : string) (s : str) : str := (lit l ++ c_eq :: s)%list.

Lemma arg_step : forall i (l : string) s w toks params an t rest, reads_as s w ->
  starred (lit l) = false -> lit l <> [] -> no_eq (lit l) ->
  take_first (matches i (Some (lit l))) params = Some (t, rest) -> s_type t = TFloat ->
  ploop i (arg l s :: toks) params an = ploop (S i) toks rest (dset streqb an (s_dest t) (VNum w)).
Proof. intros i l s w toks params an t rest [(_ & _ & C & _) E] A B D TF TY. apply ploop_step; assumption. Qed.
Lemma arg_token : forall (l : string) s w, reads_as s w -> lit l <> [] -> Forall (fun c => is_ws c = false) (lit l) ->
  arg l s <> [] /\ Forall (fun c => is_ws c = false) (arg l s).
Proof. intros l s w [(_ & C & _) _] A B. apply labelled_token; assumption. Qed.

Ltac astep := erewrite arg_step; [|eassumption|reflexivity|discriminate|repeat constructor|vm_compute; reflexivity|reflexivity]; cbn [s_dest].

Lemma pulse_args : forall s1 s2 s3 s4 s5 s6 s7 w1 w2 w3 w4 w5 w6 w7,
  reads_as s1 w1 -> reads_as s2 w2 -> reads_as s3 w3 -> reads_as s4 w4 -> reads_as s5 w5 -> reads_as s6 w6 -> reads_as s7 w7 ->
  parse_time_function (lit "pulse") [arg "v1" s1; arg "v2" s2; arg "td" s3; arg "per" s4; arg "tr" s5; arg "tf" s6; arg "pw" s7] =
  Ok (lit "pulse", [(lit "v1", VNum w1); (lit "v2", VNum w2); (lit "td", VNum w3); (lit "per", VNum w4); (lit "tr", VNum w5); (lit "tf", VNum w6); (lit "pw", VNum w7)]).
Proof.
  intros. unfold parse_time_function. change (dget streqb time_fun_specs (lit "pulse")) with (Some pulse_table). cbv iota.
  unfold parse_params. do 7 astep. reflexivity.
Qed.
Lemma sin_args : forall s1 s2 s3 s4 s5 w1 w2 w3 w4 w5,
  reads_as s1 w1 -> reads_as s2 w2 -> reads_as s3 w3 -> reads_as s4 w4 -> reads_as s5 w5 ->
  parse_time_function (lit "sin") [arg "vo" s1; arg "va" s2; arg "freq" s3; arg "theta" s4; arg "td" s5] =
  Ok (lit "sin", [(lit "vo", VNum w1); (lit "va", VNum w2); (lit "freq", VNum w3); (lit "theta", VNum w4); (lit "td", VNum w5)]).
Proof.
  intros. unfold parse_time_function. change (dget streqb time_fun_specs (lit "sin")) with (Some sin_table). cbv iota.
  unfold parse_params. do 5 astep. reflexivity.
Qed.
Lemma exp_args : forall s1 s2 s3 s4 s5 s6 w1 w2 w3 w4 w5 w6,
  reads_as s1 w1 -> reads_as s2 w2 -> reads_as s3 w3 -> reads_as s4 w4 -> reads_as s5 w5 -> reads_as s6 w6 ->
  parse_time_function (lit "exp") [arg "v1" s1; arg "v2" s2; arg "td1" s3; arg "td2" s4; arg "tau1" s5; arg "tau2" s6] =
  Ok (lit "exp", [(lit "v1", VNum w1); (lit "v2", VNum w2); (lit "td1", VNum w3); (lit "td2", VNum w4); (lit "tau1", VNum w5); (lit "tau2", VNum w6)]).
Proof.
  intros. unfold parse_time_function. change (dget streqb time_fun_specs (lit "exp")) with (Some exp_table). cbv iota.
  unfold parse_params. do 6 astep. reflexivity.
Qed.

(** The printed function is read back. *)
Lemma function_back : forall srepr ty tbl ps, faithful srepr -> printed_table ty tbl -> num_params ps tbl ->
  exists args ps' p, map slower (ftext srepr "v" (ty, ps)) = (lit "type=" ++ ty)%list :: args /\
    Forall (fun t => t <> [] /\ Forall (fun c => is_ws c = false) t) args /\
    param_number "v" (VStr ty) = Some p /\ length args = p /\ (p =? 0) = false /\
    parse_time_function ty args = Ok (ty, ps') /\ same_params ps ps' tbl.
Proof.
  intros srepr ty tbl ps FA PT NP.
  assert (TX : forall k n, In (mkSpec (Some (lit k)) (Some n) TFloat true (lit k) VNone) tbl \/ (exists df, In (mkSpec (Some (lit k)) (Some n) TFloat false (lit k) df) tbl) ->
     exists s w, slower (vtext srepr (dget streqb ps (lit k))) = s /\ reads_as s w /\
       (forall d, dget streqb ps (lit k) = Some (VNum d) -> (dQ w == dQ d)%Q)).
  { intros k n H. assert (E : exists d, dget streqb ps (lit k) = Some (VNum d)).
    { destruct H as [H|[df H]]; apply NP in H; exact H. }
    destruct E as [d E]. rewrite E. destruct (FA d) as (C & d' & E1 & E2). exists (slower (srepr d)), d'.
    split; [reflexivity|]. split; [split; assumption|]. intros d0 E0. injection E0 as <-. exact E2. }
  destruct PT as [[-> ->]|[[-> ->]|[-> ->]]].
  - destruct (TX "v1"%string 0) as (s1 & w1 & V1 & R1 & Q1); [simpl; tauto|].
    destruct (TX "v2"%string 1) as (s2 & w2 & V2 & R2 & Q2); [simpl; tauto|].
    destruct (TX "td"%string 2) as (s3 & w3 & V3 & R3 & Q3); [right; exists zero; simpl; tauto|].
    destruct (TX "per"%string 6) as (s4 & w4 & V4 & R4 & Q4); [simpl; tauto|].
    destruct (TX "tr"%string 3) as (s5 & w5 & V5 & R5 & Q5); [simpl; tauto|].
    destruct (TX "tf"%string 4) as (s6 & w6 & V6 & R6 & Q6); [simpl; tauto|].
    destruct (TX "pw"%string 5) as (s7 & w7 & V7 & R7 & Q7); [simpl; tauto|].
    exists [arg "v1" s1; arg "v2" s2; arg "td" s3; arg "per" s4; arg "tr" s5; arg "tf" s6; arg "pw" s7], 
      [(lit "v1", VNum w1); (lit "v2", VNum w2); (lit "td", VNum w3); (lit "per", VNum w4); (lit "tr", VNum w5); (lit "tf", VNum w6); (lit "pw", VNum w7)], 7.
    split.
    { unfold ftext. cbv zeta. change (streqb (lit "pulse") (lit "pulse")) with true. cbv iota. cbn [map].
      change (("v" ++ "1")%string) with "v1"%string. change (("v" ++ "2")%string) with "v2"%string.
      rewrite !slower_lab by reflexivity. rewrite V1, V2, V3, V4, V5, V6, V7. reflexivity. }
    split; [repeat (constructor; [eapply arg_token; [eassumption|discriminate|repeat constructor]|]); constructor|].
    split; [reflexivity|]. split; [reflexivity|]. split; [reflexivity|].
    split; [apply pulse_args; assumption|].
    intros t d HI HD. simpl in HI. decompose [or] HI; clear HI; try tauto; subst t; cbn [s_dest fl sp] in *; eexists; (split; [reflexivity|auto]).
  - destruct (TX "vo"%string 0) as (s1 & w1 & V1 & R1 & Q1); [simpl; tauto|].
    destruct (TX "va"%string 1) as (s2 & w2 & V2 & R2 & Q2); [simpl; tauto|].
    destruct (TX "freq"%string 2) as (s3 & w3 & V3 & R3 & Q3); [simpl; tauto|].
    destruct (TX "theta"%string 4) as (s4 & w4 & V4 & R4 & Q4); [right; exists zero; simpl; tauto|].
    destruct (TX "td"%string 3) as (s5 & w5 & V5 & R5 & Q5); [right; exists zero; simpl; tauto|].
    exists [arg "vo" s1; arg "va" s2; arg "freq" s3; arg "theta" s4; arg "td" s5], 
      [(lit "vo", VNum w1); (lit "va", VNum w2); (lit "freq", VNum w3); (lit "theta", VNum w4); (lit "td", VNum w5)], 5.
    split.
    { unfold ftext. cbv zeta. change (streqb (lit "sin") (lit "pulse")) with false. change (streqb (lit "sin") (lit "sin")) with true. cbv iota. cbn [map].
      change (("v" ++ "o")%string) with "vo"%string. change (("v" ++ "a")%string) with "va"%string.
      rewrite !slower_lab by reflexivity. rewrite V1, V2, V3, V4, V5. reflexivity. }
    split; [repeat (constructor; [eapply arg_token; [eassumption|discriminate|repeat constructor]|]); constructor|].
    split; [reflexivity|]. split; [reflexivity|]. split; [reflexivity|].
    split; [apply sin_args; assumption|].
    intros t d HI HD. simpl in HI. decompose [or] HI; clear HI; try tauto; subst t; cbn [s_dest fl sp] in *; eexists; (split; [reflexivity|auto]).
  - destruct (TX "v1"%string 0) as (s1 & w1 & V1 & R1 & Q1); [simpl; tauto|].
    destruct (TX "v2"%string 1) as (s2 & w2 & V2 & R2 & Q2); [simpl; tauto|].
    destruct (TX "td1"%string 2) as (s3 & w3 & V3 & R3 & Q3); [right; exists zero; simpl; tauto|].
    destruct (TX "td2"%string 4) as (s4 & w4 & V4 & R4 & Q4); [right; exists VInf; simpl; tauto|].
    destruct (TX "tau1"%string 3) as (s5 & w5 & V5 & R5 & Q5); [simpl; tauto|].
    destruct (TX "tau2"%string 5) as (s6 & w6 & V6 & R6 & Q6); [right; exists VInf; simpl; tauto|].
    exists [arg "v1" s1; arg "v2" s2; arg "td1" s3; arg "td2" s4; arg "tau1" s5; arg "tau2" s6], 
      [(lit "v1", VNum w1); (lit "v2", VNum w2); (lit "td1", VNum w3); (lit "td2", VNum w4); (lit "tau1", VNum w5); (lit "tau2", VNum w6)], 6.
    split.
    { unfold ftext. cbv zeta. change (streqb (lit "exp") (lit "pulse")) with false. change (streqb (lit "exp") (lit "sin")) with false.
      change (streqb (lit "exp") (lit "exp")) with true. cbv iota. cbn [map].
      change (("v" ++ "1")%string) with "v1"%string. change (("v" ++ "2")%string) with "v2"%string.
      rewrite !slower_lab by reflexivity. rewrite V1, V2, V3, V4, V5, V6. reflexivity. }
    split; [repeat (constructor; [eapply arg_token; [eassumption|discriminate|repeat constructor]|]); constructor|].
    split; [reflexivity|]. split; [reflexivity|]. split; [reflexivity|].
    split; [apply exp_args; assumption|].
    intros t d HI HD. simpl in HI. decompose [or] HI; clear HI; try tauto; subst t; cbn [s_dest fl sp] in *; eexists; (split; [reflexivity|auto]).
Qed.

Lemma type_token : forall ty tbl, printed_table ty tbl ->
  parse_param_value (lit "type=" ++ ty) = Ok (lit "type", VStr ty) /\ slower (lit "type=" ++ ty) = (lit "type=" ++ ty)%list /\
  Forall (fun c => is_ws c = false) (lit "type=" ++ ty).
Proof. intros ty tbl [[-> _]|[[-> _]|[-> _]]]; (split; [vm_compute; reflexivity|split; [reflexivity|repeat constructor]]). Qed.

Lemma source_function : forall c strict ty args ps' p ac f fuel, f = None ->
  parse_param_value (lit "type=" ++ ty) = Ok (lit "type", VStr ty) -> param_number c (VStr ty) = Some p -> length args = p -> (p =? 0) = false ->
  parse_time_function ty args = Ok (ty, ps') ->
  source_loop (S fuel) c strict ((lit "type=" ++ ty)%list :: args) None ac f = Ok (None, ac, Some (ty, ps')).
Proof.
  intros c strict ty args ps' p ac f fuel -> P N L Z0 T. cbn [source_loop]. change (starred (lit "type=" ++ ty)) with false. cbv iota.
  rewrite P. cbn [bindr]. change (streqb (lit "type") (lit "type")) with true. cbv iota. rewrite N, Z0, <- L, firstn_all, T. cbn [bindr].
  replace (length args <? length args) with false by (symmetry; apply Nat.ltb_ge; lia). rewrite andb_false_r, skipn_all.
  destruct fuel; reflexivity.
Qed.

Lemma letter_v : forall models other line prev, parse_letter models other "v" line prev = bindr (parse_elem_source "v" false PV (split line)) (fun e => Ok [e]).
Proof. reflexivity. Qed.
Lemma source_vac : forall s d rest dc ac f fuel, reads_as s d ->
  source_loop (S fuel) "v" false (arg "vac" s :: rest) dc ac f = source_loop fuel "v" false rest dc (Some d) f.
Proof.
  intros s d rest dc ac f fuel [C E]. cbn [source_loop]. change (starred (arg "vac" s)) with false. cbv iota.
  unfold arg. rewrite (param_value_eq (lit "vac") s d) by (try apply C; try exact E; repeat constructor). cbn [bindr].
  change (streqb (lit "vac") (lit "type")) with false. change (streqb (lit "vac") (lit ("v" ++ "dc"))) with false.
  change (streqb (lit "vac") (lit ("v" ++ "ac"))) with true. reflexivity.
Qed.

(** A voltage source that is only a time function (pulse, sine or exponential) and
    maybe a positive AC value is read back as it was, its numbers unchanged. *)
Theorem C30_source_back : forall models other srepr prev id n1 n2 ac ty tbl ps, faithful srepr -> begins "v" id ->
  name id -> name n1 -> name n2 -> printed_table ty tbl -> num_params ps tbl -> (forall d, ac = Some d -> (0 < fst d)%Z) ->
  exists ac' ps', parse_line models other (as_read srepr (ShElem (PV id n1 n2 None ac (Some (ty, ps))))) prev =
      Ok [PV id n1 n2 None ac' (Some (ty, ps'))] /\
    same_params ps ps' tbl /\
    match ac, ac' with Some d, Some d' => (dQ d' == dQ d)%Q | None, None => True | _, _ => False end.
Proof.
  intros models other srepr prev id n1 n2 ac ty tbl ps FA B I1 I2 I3 PT NP AC.
  destruct (function_back srepr ty tbl ps FA PT NP) as (args & ps' & p & TX & TA & PN & LA & PZ & PF & SP).
  destruct (type_token ty tbl PT) as (PP & SL & TW).
  unfold as_read, netlist_line. cbn [pieces opt app].
  assert (HT : forall rest, Forall (fun t => t <> [] /\ Forall (fun c => is_ws c = false) t) (map slower rest) ->
     exists line, slower (spaced (id :: n1 :: n2 :: rest)) = line /\ parse_line models other line prev = parse_letter models other "v" line prev /\
       split line = id :: n1 :: n2 :: map slower rest).
  { intros rest F. destruct (tokens_line models other "v" id (n1 :: n2 :: rest) prev B eq_refl) as (line & E1 & E2 & E3).
    { cbn [map]. repeat (constructor; [apply name_token; assumption|]). exact F. }
    exists line. split; [exact E1|]. split; [exact E2|]. rewrite E3. cbn [map].
    destruct I1 as (_ & _ & ->), I2 as (_ & _ & ->), I3 as (_ & _ & ->). reflexivity. }
  destruct ac as [d|]; cbn [opt app].
  - destruct (FA (Z.abs (fst d), snd d)) as (C & d' & E1 & E2).
    destruct (HT (arg "vac" (srepr (Z.abs (fst d), snd d)) :: ftext srepr "v" (ty, ps))) as (line & EL & PLN & TK).
    { cbn [map]. constructor.
      - change (slower (arg "vac" (srepr (Z.abs (fst d), snd d)))) with (arg "vac" (slower (srepr (Z.abs (fst d), snd d)))).
        eapply arg_token; [split; [exact C|exact E1]|discriminate|repeat constructor].
      - rewrite TX. constructor; [|exact TA]. split; [discriminate|exact TW]. }
    change (lit "vac=" ++ srepr (Z.abs (fst d), snd d))%list with (arg "vac" (srepr (Z.abs (fst d), snd d))).
    rewrite EL, PLN. cbn [map] in TK. rewrite TX in TK.
    change (slower (arg "vac" (srepr (Z.abs (fst d), snd d)))) with (arg "vac" (slower (srepr (Z.abs (fst d), snd d)))) in TK.
    exists (Some d'), ps'.
    assert (POS : (0 < fst d)%Z) by (apply AC; reflexivity).
    assert (DE : (dQ d' == dQ d)%Q).
    { rewrite E2. destruct d as [m e]. cbn [fst snd]. rewrite Z.abs_eq by (cbn [fst] in POS; lia). reflexivity. }
    assert (NZ : dzero d' = false).
    { destruct (dzero d') eqn:Z0; [exfalso|reflexivity]. unfold dzero in Z0. apply Z.eqb_eq in Z0. destruct d' as [m' e'], d as [m e]. cbn [fst] in *. subst m'.
      unfold dQ in DE. cbn [fst snd] in DE. rewrite Qmult_0_l in DE. symmetry in DE. apply Qmult_integral in DE. destruct DE as [DE|DE].
      - unfold Qeq in DE. simpl in DE. lia.
      - exact (Qpow_nz e DE). }
    split; [|split; [exact SP|exact DE]].
    rewrite letter_v, TK. unfold parse_elem_source.
    change (length (arg "vac" (slower (srepr (Z.abs (fst d), snd d))) :: (lit "type=" ++ ty)%list :: args)) with (S (S (length args))).
    rewrite (source_vac _ d') by (split; [exact C|exact E1]).
    rewrite (source_function "v" false ty args ps' p (Some d') None (length args) eq_refl PP PN LA PZ PF).
    cbn [bindr ac_of]. rewrite NZ. reflexivity.
  - destruct (HT (ftext srepr "v" (ty, ps))) as (line & EL & PLN & TK).
    { rewrite TX. constructor; [|exact TA]. split; [discriminate|exact TW]. }
    rewrite EL, PLN. rewrite TX in TK. exists None, ps'. split; [|split; [exact SP|exact I]].
    rewrite letter_v, TK. unfold parse_elem_source.
    change (length ((lit "type=" ++ ty)%list :: args)) with (S (length args)).
    rewrite (source_function "v" false ty args ps' p None None _ eq_refl PP PN LA PZ PF). reflexivity.
Qed.
Print Assumptions C30_source_back.

Definition pulse_v1 : pelem :=
  PV (lit "v1") (lit "in") (lit "0") None (Some (1, 0)%Z) (Some (lit "pulse",
    [(lit "v1", VNum (0, 0)%Z); (lit "v2", VNum (5, 0)%Z); (lit "td", VNum (1, -3)%Z); (lit "per", VNum (2, -2)%Z);
     (lit "tr", VNum (1, -6)%Z); (lit "tf", VNum (1, -6)%Z); (lit "pw", VNum (1, -2)%Z)])).
Example C30_source_example :
  as_read fmt_g (ShElem pulse_v1) = lit "v1 in 0 vac=1 type=pulse v1=0 v2=5 td=0.001 per=0.02 tr=1e-06 tf=1e-06 pw=0.01" /\
  parse_line [] no_other (as_read fmt_g (ShElem pulse_v1)) [] = Ok [PV (lit "v1") (lit "in") (lit "0") None (Some (1, 0)%Z) (Some (lit "pulse",
    [(lit "v1", VNum (0, 0)%Z); (lit "v2", VNum (5, 0)%Z); (lit "td", VNum (1, -3)%Z); (lit "per", VNum (2, -2)%Z);
     (lit "tr", VNum (1, -6)%Z); (lit "tf", VNum (1, -6)%Z); (lit "pw", VNum (1, -2)%Z)]))].
Proof. split; vm_compute; reflexivity. Qed.

(** The tokens of a printed line whose name and nodes are names. *)
Lemma read_tokens : forall models other c id names rest prev, begins c id -> lower_ascii c = c -> name id -> Forall name names ->
  Forall (fun t => t <> [] /\ Forall (fun c => is_ws c = false) t) (map slower rest) ->
  exists line, slower (spaced (id :: names ++ rest)) = line /\ parse_line models other line prev = parse_letter models other c line prev /\
    split line = (id :: names ++ map slower rest)%list.
Proof.
  intros models other c id names rest prev B LC I1 NS F.
  assert (MN : map slower names = names).
  { clear - NS. induction NS as [|n ns (_ & _ & H) NS IH]; simpl; [reflexivity|rewrite H, IH; reflexivity]. }
  destruct (tokens_line models other c id (names ++ rest) prev B LC) as (line & E1 & E2 & E3).
  { cbn [map]. constructor; [apply name_token; exact I1|]. rewrite map_app. apply Forall_app. split; [|exact F].
    rewrite Forall_map. eapply Forall_impl; [|exact NS]. intros t H. apply name_token. exact H. }
  exists line. split; [exact E1|]. split; [exact E2|]. rewrite E3. cbn [map]. rewrite map_app, MN. destruct I1 as (_ & _ & ->). reflexivity.
Qed.

Ltac line_is EL PLN := cbn [app] in EL |- *;
  match goal with |- parse_line ?m ?o _ ?p = ?r => match type of EL with ?x = _ => change (parse_line m o x p = r) end end; rewrite EL, PLN.

Lemma letter_d : forall models other line prev, parse_letter models other "d" line prev = bindr (parse_elem_diode models (split line)) (fun e => Ok [e]).
Proof. reflexivity. Qed.

Lemma diode_arg : forall (l : string) s w rest area ic, reads_as s w -> starred (lit l) = false -> lit l <> [] -> no_eq (lit l) ->
  diode_loop (arg l s :: rest) area ic =
    if streqb (lit l) (lit "area") then diode_loop rest (Some w) ic
    else if streqb (lit l) (lit "t") then diode_loop rest area ic
    else if streqb (lit l) (lit "ic") then diode_loop rest area (Some w)
    else if streqb (lit l) (lit "off") then Err TypeError
    else Err NetlistParseError.
Proof.
  intros l s w rest area ic [C E] ST NE NQ. cbn [diode_loop]. unfold arg.
  replace (starred (lit l ++ c_eq :: s)) with false by (destruct (lit l); [congruence|exact (eq_sym ST)]).
  rewrite (param_value_eq (lit l) s w) by (auto; apply C). reflexivity.
Qed.

(** A diode whose temperature was not set and that is not OFF. *)
Theorem C30_diode_back : forall models other srepr prev id n1 n2 model ty area ic, begins "d" id ->
  name id -> name n1 -> name n2 -> name model -> dget streqb models model = Some ty ->
  exists area' ic', parse_line models other (as_read srepr (ShDiode id n1 n2 model area None ic false)) prev =
      Ok [PD id n1 n2 model (Some area') ic'] /\ rounded area area' /\
    match ic, ic' with Some d, Some d' => rounded d d' | None, None => True | _, _ => False end.
Proof.
  intros models other srepr prev id n1 n2 model ty area ic B I1 I2 I3 I4 MD. unfold as_read, netlist_line. cbn [pieces opt app].
  destruct (fmt_g_read area) as (wa & CA & RA & LA).
  assert (TA : arg "area" (slower (fmt_g area)) <> [] /\ Forall (fun c => is_ws c = false) (arg "area" (slower (fmt_g area)))).
  { eapply arg_token; [split; [exact LA|exact CA]|discriminate|repeat constructor]. }
  destruct ic as [d|]; cbn [opt app].
  - destruct (fmt_g_read d) as (wd & CD & RD & LD).
    assert (TD : arg "ic" (slower (fmt_g d)) <> [] /\ Forall (fun c => is_ws c = false) (arg "ic" (slower (fmt_g d)))).
    { eapply arg_token; [split; [exact LD|exact CD]|discriminate|repeat constructor]. }
    destruct (read_tokens models other "d" id [n1; n2; model] [lit "AREA=" ++ fmt_g area; lit "IC=" ++ fmt_g d]%list prev B eq_refl I1) as (line & EL & PLN & TK).
    { repeat (constructor; [assumption|]). constructor. }
    { constructor; [exact TA|]. constructor; [exact TD|constructor]. }
    exists wa, (Some wd). split; [|auto]. line_is EL PLN. rewrite letter_d, TK.
    cbn [app map]. unfold parse_elem_diode.
    change (slower (lit "AREA=" ++ fmt_g area)) with (arg "area" (slower (fmt_g area))).
    change (slower (lit "IC=" ++ fmt_g d)) with (arg "ic" (slower (fmt_g d))).
    rewrite (diode_arg "area" _ wa) by (try (split; assumption); try reflexivity; try discriminate; repeat constructor).
    change (streqb (lit "area") (lit "area")) with true. cbv iota.
    rewrite (diode_arg "ic" _ wd) by (try (split; assumption); try reflexivity; try discriminate; repeat constructor).
    change (streqb (lit "ic") (lit "area")) with false. change (streqb (lit "ic") (lit "t")) with false. change (streqb (lit "ic") (lit "ic")) with true.
    cbv iota. cbn [diode_loop bindr]. rewrite MD. reflexivity.
  - destruct (read_tokens models other "d" id [n1; n2; model] [lit "AREA=" ++ fmt_g area]%list prev B eq_refl I1) as (line & EL & PLN & TK).
    { repeat (constructor; [assumption|]). constructor. }
    { constructor; [exact TA|constructor]. }
    exists wa, None. split; [|auto]. line_is EL PLN. rewrite letter_d, TK.
    cbn [app map]. unfold parse_elem_diode.
    change (slower (lit "AREA=" ++ fmt_g area)) with (arg "area" (slower (fmt_g area))).
    rewrite (diode_arg "area" _ wa) by (try (split; assumption); try reflexivity; try discriminate; repeat constructor).
    change (streqb (lit "area") (lit "area")) with true. cbv iota.
    cbn [diode_loop bindr]. rewrite MD. reflexivity.
Qed.
Print Assumptions C30_diode_back.
Example C30_diode_example :
  as_read fmt_g (ShDiode (lit "d1") (lit "a") (lit "0") (lit "mod1") (25, -1)%Z None (Some (7, -1)%Z) false) = lit "d1 a 0 mod1 area=2.5 ic=0.7" /\
  parse_line [(lit "mod1", MDiode)] no_other (lit "d1 a 0 mod1 area=2.5 ic=0.7") [] =
    Ok [PD (lit "d1") (lit "a") (lit "0") (lit "mod1") (Some (25, -1)%Z) (Some (7, -1)%Z)].
Proof. split; vm_compute; reflexivity. Qed.

(** The line of a diode that is OFF stops the parser with a TypeError. *)
Theorem C30_diode_off_refuted : forall models other srepr prev id n1 n2 model area t ic, begins "d" id ->
  name id -> name n1 -> name n2 -> name model ->
  parse_line models other (as_read srepr (ShDiode id n1 n2 model area t ic true)) prev = Err TypeError.
Proof.
  intros models other srepr prev id n1 n2 model area t ic B I1 I2 I3 I4. unfold as_read, netlist_line. cbn [pieces].
  assert (AR : forall (L l : string) d, slower (lit L) = (lit l ++ [c_eq])%list -> lit l <> [] -> Forall (fun c => is_ws c = false) (lit l) ->
     exists s w, slower (lit L ++ fmt_g d) = arg l s /\ reads_as s w /\ arg l s <> [] /\ Forall (fun c => is_ws c = false) (arg l s)).
  { intros L l d E NE W. destruct (fmt_g_read d) as (w & C & _ & LC). exists (slower (fmt_g d)), w.
    assert (RA : reads_as (slower (fmt_g d)) w) by (split; assumption).
    split; [unfold slower at 1; rewrite map_app; change (map lower_ascii (lit L)) with (slower (lit L)); rewrite E; unfold arg; rewrite <- app_assoc; reflexivity|].
    split; [exact RA|]. eapply arg_token; eassumption. }
  destruct (AR "AREA="%string "area"%string area eq_refl) as (sa & wa & EA & RA & TA); [discriminate|repeat constructor|].
  assert (OPT : exists l, map slower (opt t (fun d => [lit "T=" ++ fmt_g d]%list) ++ opt ic (fun d => [lit "IC=" ++ fmt_g d]%list) ++ [lit "OFF=1"]) = l /\
     Forall (fun t => t <> [] /\ Forall (fun c => is_ws c = false) t) l /\ forall a b, diode_loop l a b = Err TypeError).
  { eexists. split; [reflexivity|].
    assert (O1 : forall a b, diode_loop [slower (lit "OFF=1")] a b = Err TypeError) by reflexivity.
    assert (O2 : slower (lit "OFF=1") <> [] /\ Forall (fun c => is_ws c = false) (slower (lit "OFF=1"))) by (split; [discriminate|repeat constructor]).
    assert (O3 : Forall (fun t => t <> [] /\ Forall (fun c => is_ws c = false) t) (map slower (opt ic (fun d => [lit "IC=" ++ fmt_g d]%list) ++ [lit "OFF=1"])) /\
       forall a b, diode_loop (map slower (opt ic (fun d => [lit "IC=" ++ fmt_g d]%list) ++ [lit "OFF=1"])) a b = Err TypeError).
    { destruct ic as [d|]; cbn [opt app map].
      - destruct (AR "IC="%string "ic"%string d eq_refl) as (s & w & E & RD & TD); [discriminate|repeat constructor|].
        rewrite E. split; [constructor; [exact TD|constructor; [exact O2|constructor]]|]. intros a b.
        rewrite (diode_arg "ic" s w) by (try assumption; try reflexivity; try discriminate; repeat constructor).
        change (streqb (lit "ic") (lit "area")) with false. change (streqb (lit "ic") (lit "t")) with false. change (streqb (lit "ic") (lit "ic")) with true.
        cbv iota. apply O1.
      - split; [constructor; [exact O2|constructor]|exact O1]. }
    destruct O3 as [O3 O4]. destruct t as [d|]; cbn [opt app map].
    - destruct (AR "T="%string "t"%string d eq_refl) as (s & w & E & RD & TD); [discriminate|repeat constructor|].
      rewrite E. split; [constructor; [exact TD|exact O3]|]. intros a b.
      rewrite (diode_arg "t" s w) by (try assumption; try reflexivity; try discriminate; repeat constructor).
      change (streqb (lit "t") (lit "area")) with false. change (streqb (lit "t") (lit "t")) with true. cbv iota. apply O4.
    - split; [exact O3|exact O4]. }
  destruct OPT as (l & EL & FL & DL).
  destruct (read_tokens models other "d" id [n1; n2; model]
     ((lit "AREA=" ++ fmt_g area) :: opt t (fun d => [lit "T=" ++ fmt_g d]) ++ opt ic (fun d => [lit "IC=" ++ fmt_g d]) ++ [lit "OFF=1"])%list prev B eq_refl I1) as (line & ELN & PLN & TK).
  { repeat (constructor; [assumption|]). constructor. }
  { cbn [map]. rewrite EA, EL. constructor; assumption. }
  line_is ELN PLN. rewrite letter_d, TK. cbn [app map]. rewrite EA, EL. unfold parse_elem_diode.
  rewrite (diode_arg "area" sa wa) by (try assumption; try reflexivity; try discriminate; repeat constructor).
  change (streqb (lit "area") (lit "area")) with true. cbv iota. rewrite DL. reflexivity.
Qed.
Print Assumptions C30_diode_off_refuted.

(** No MOS line and no switch line is read back: the type of the transistor and the
    state of the switch are printed, and nobody accepts them. *)
Lemma letter_m : forall models other line prev, parse_letter models other "m" line prev = bindr (parse_elem_mos models (split line)) (fun e => Ok [e]).
Proof. reflexivity. Qed.
Lemma letter_s : forall models other line prev, parse_letter models other "s" line prev = bindr (parse_elem_switch models (split line)) (fun e => Ok [e]).
Proof. reflexivity. Qed.

Theorem C30_mos_refuted : forall models other srepr prev id nd ng ns nb model ty w l m n, begins "m" id ->
  name id -> name nd -> name ng -> name ns -> name nb -> name model -> ty = lit "n" \/ ty = lit "p" ->
  parse_line models other (as_read srepr (ShMos id nd ng ns nb model ty w l m n)) prev = Err NetlistParseError.
Proof.
  intros models other srepr prev id nd ng ns nb model ty w l m n B I1 I2 I3 I4 I5 I6 TY. unfold as_read, netlist_line. cbn [pieces].
  destruct (read_tokens models other "m" id [nd; ng; ns; nb; model]
     [lit "type=" ++ ty; lit "w=" ++ fmt_g w; lit "l=" ++ fmt_g l; lit "m=" ++ fmt_g m; lit "n=" ++ fmt_g n]%list prev B eq_refl I1) as (line & ELN & PLN & TK).
  { repeat (constructor; [assumption|]). constructor. }
  { cbn [map]. constructor; [split; [discriminate|destruct TY as [-> | ->]; repeat constructor]|].
    assert (AR : forall (l : string) d, slower (lit l) = lit l -> lit l <> [] -> Forall (fun c => is_ws c = false) (lit l) ->
       slower (lit l ++ fmt_g d) <> [] /\ Forall (fun c => is_ws c = false) (slower (lit l ++ fmt_g d))).
    { intros l0 d E NE W. destruct (fmt_g_read d) as (w0 & C & _ & LC). unfold slower. rewrite map_app. change (map lower_ascii (lit l0)) with (slower (lit l0)).
      change (map lower_ascii (fmt_g d)) with (slower (fmt_g d)). rewrite E. split; [intros Q; apply app_eq_nil in Q; tauto|].
      apply Forall_app. split; [exact W|]. apply LC. }
    repeat (constructor; [apply AR; [reflexivity|discriminate|repeat constructor]|]). constructor. }
  line_is ELN PLN. rewrite letter_m, TK. cbn [app map]. unfold parse_elem_mos. cbn [mos_loop].
  destruct TY as [-> | ->]; reflexivity.
Qed.
Print Assumptions C30_mos_refuted.

Theorem C30_switch_refuted : forall models other srepr prev id n1 n2 s1 s2 model on, begins "s" id ->
  name id -> name n1 -> name n2 -> name s1 -> name s2 -> name model ->
  parse_line models other (as_read srepr (ShSwitch id n1 n2 s1 s2 model on)) prev = Err NetlistParseError.
Proof.
  intros models other srepr prev id n1 n2 s1 s2 model on B I1 I2 I3 I4 I5 I6. unfold as_read, netlist_line. cbn [pieces].
  destruct (read_tokens models other "s" id [n1; n2; s1; s2; model] [if on then lit "True" else lit "False"] prev B eq_refl I1) as (line & ELN & PLN & TK).
  { repeat (constructor; [assumption|]). constructor. }
  { constructor; [|constructor]. destruct on; (split; [discriminate|repeat constructor]). }
  line_is ELN PLN. rewrite letter_s, TK. cbn [app map]. unfold parse_elem_switch.
  destruct on; reflexivity.
Qed.
Print Assumptions C30_switch_refuted.

(** A source with a DC value, and a current source with a time function, print lines
    that the parser rejects. *)
Lemma letter_i : forall models other line prev, parse_letter models other "i" line prev = bindr (parse_elem_source "i" true PI (split line)) (fun e => Ok [e]).
Proof. reflexivity. Qed.

Lemma source_value : forall c strict tok d, parse_param_value tok = Ok (lit "value", VNum d) -> starred tok = false -> c = "v"%string \/ c = "i"%string ->
  source_loop 2 c strict [slower (lit ("type=" ++ c ++ "dc")); tok] None None None = Err NetlistParseError.
Proof.
  intros c strict tok d P ST C.
  assert (H : forall fuel, source_loop (S fuel) c strict [tok] None None None = Err NetlistParseError).
  { intros fuel. cbn [source_loop]. rewrite ST, P. cbn [bindr]. destruct C as [-> | ->]; reflexivity. }
  transitivity (source_loop 1 c strict [tok] None None None); [|apply H].
  destruct C as [-> | ->]; reflexivity.
Qed.

Theorem C30_dc_source_refuted : forall models other srepr prev id n1 n2 d, faithful srepr -> name id -> name n1 -> name n2 ->
  (begins "v" id -> parse_line models other (as_read srepr (ShElem (PV id n1 n2 (Some d) None None))) prev = Err NetlistParseError) /\
  (begins "i" id -> parse_line models other (as_read srepr (ShElem (PI id n1 n2 (Some d) None None))) prev = Err NetlistParseError).
Proof.
  intros models other srepr prev id n1 n2 d FA I1 I2 I3. destruct (FA d) as (C & d' & E & _).
  assert (TD : arg "value" (slower (srepr d)) <> [] /\ Forall (fun c => is_ws c = false) (arg "value" (slower (srepr d)))).
  { eapply arg_token; [split; [exact C|exact E]|discriminate|repeat constructor]. }
  assert (PP : parse_param_value (arg "value" (slower (srepr d))) = Ok (lit "value", VNum d')).
  { apply param_value_eq; [repeat constructor|apply C|exact E]. }
  split; intros B; unfold as_read, netlist_line; cbn [pieces opt].
  - destruct (read_tokens models other "v" id [n1; n2] [lit "type=vdc"; lit "value=" ++ srepr d]%list prev B eq_refl I1) as (line & ELN & PLN & TK).
    { repeat (constructor; [assumption|]). constructor. }
    { constructor; [split; [discriminate|repeat constructor]|]. constructor; [exact TD|constructor]. }
    line_is ELN PLN. rewrite letter_v, TK. cbn [app map]. unfold parse_elem_source.
    change (slower (lit "value=" ++ srepr d)) with (arg "value" (slower (srepr d))). cbn [length].
    pose proof (source_value "v" false _ d' PP eq_refl ltac:(auto)) as SV. cbn [String.append] in SV. rewrite SV. reflexivity.
  - destruct (read_tokens models other "i" id [n1; n2] [lit "type=idc"; lit "value=" ++ srepr d]%list prev B eq_refl I1) as (line & ELN & PLN & TK).
    { repeat (constructor; [assumption|]). constructor. }
    { constructor; [split; [discriminate|repeat constructor]|]. constructor; [exact TD|constructor]. }
    line_is ELN PLN. rewrite letter_i, TK. cbn [app map]. unfold parse_elem_source.
    change (slower (lit "value=" ++ srepr d)) with (arg "value" (slower (srepr d))). cbn [length].
    pose proof (source_value "i" true _ d' PP eq_refl ltac:(auto)) as SV. cbn [String.append] in SV. rewrite SV. reflexivity.
Qed.
Print Assumptions C30_dc_source_refuted.

Definition sin_ps : list (str * val) :=
  [(lit "vo", VNum (0, 0)%Z); (lit "va", VNum (1, 0)%Z); (lit "freq", VNum (1, 3)%Z); (lit "td", VNum (0, 0)%Z); (lit "theta", VNum (0, 0)%Z)].
Definition sffm_ps : list (str * val) :=
  [(lit "vo", VNum (0, 0)%Z); (lit "va", VNum (1, 0)%Z); (lit "fc", VNum (1, 3)%Z); (lit "mdi", VNum (2, 0)%Z); (lit "fs", VNum (1, 2)%Z); (lit "td", VNum (0, 0)%Z)].
(** A current source with a time function: the labels begin with i.  An FM source: six
    parameters are printed, five are read.  A node in capitals. *)
Theorem C30_others_refuted :
  (exists ps, parse_line [] no_other (as_read fmt_g (ShElem (PI (lit "i1") (lit "a") (lit "b") None None (Some (lit "sin", ps))))) [] = Err NetlistParseError /\
     parse_line [] no_other (as_read fmt_g (ShElem (PV (lit "v1") (lit "a") (lit "b") None None (Some (lit "sin", ps))))) [] <> Err NetlistParseError) /\
  (exists ps, parse_line [] no_other (as_read fmt_g (ShElem (PV (lit "v1") (lit "a") (lit "b") None None (Some (lit "sffm", ps))))) [] = Err NetlistParseError) /\
  (exists e, parse_line [] no_other (as_read fmt_g (ShElem (PR (lit "r1") (lit "OUT") (lit "0") (1, 3)%Z))) [] = Ok [e] /\ e = PR (lit "r1") (lit "out") (lit "0") (1000, 0)%Z).
Proof.
  split; [|split].
  - exists sin_ps. split; [vm_compute; reflexivity|]. intros H. vm_compute in H. discriminate H.
  - exists sffm_ps. vm_compute. reflexivity.
  - eexists. split; vm_compute; reflexivity.
Qed.
Print Assumptions C30_others_refuted.

(** * C126 *)
(** A comment at the end of a line: a blank, a star and anything. *)
Definition with_comment (line text : str) : str := (line ++ sp_ :: c_star :: text)%list.

Lemma split_comment : forall line text, exists t rest, split (with_comment line text) = (split line ++ t :: rest)%list /\ starred t = true.
Proof.
  intros line text. unfold with_comment.
  assert (H : forall s w c t, is_ws c = true -> split_aux w (s ++ c :: t) = (split_aux w s ++ split_aux [] t)%list).
  { induction s as [|x s IH]; intros w c t W; cbn [app split_aux].
    - rewrite W. destruct w; reflexivity.
    - destruct (is_ws x); [destruct w; rewrite IH by exact W; reflexivity|apply IH; exact W]. }
  unfold split. rewrite H by reflexivity.
  assert (K : forall s w, starred w = true -> exists t rest, split_aux w s = t :: rest /\ starred t = true).
  { induction s as [|x s IH]; intros w W; cbn [split_aux].
    - destruct w; [discriminate W|]. eauto.
    - destruct (is_ws x); [destruct w; [discriminate W|]; eauto|]. apply IH. destruct w; [discriminate W|exact W]. }
  destruct (K text [c_star] eq_refl) as (t & rest & E & S). exists t, rest. split; [|exact S].
  cbn [split_aux]. change (is_ws c_star) with false. cbv iota. cbn [app]. rewrite E. reflexivity.
Qed.

(** Parsers that ignore everything from a token with a star on, once the line is right. *)
Definition ignores (f : list str -> res pelem) : Prop :=
  forall toks t rest e, starred t = true -> f toks = Ok e -> f (toks ++ t :: rest)%list = Ok e.

Lemma ignores_R : ignores parse_elem_resistor.
Proof.
  intros toks t rest e S H. destruct toks as [|a [|b [|c [|d r]]]]; try discriminate H. simpl app.
  unfold parse_elem_resistor in *. destruct r as [|u r]; cbn [app extra] in *; [rewrite S; cbn [negb]|]; exact H.
Qed.
Lemma ignores_4 : forall mk, ignores (parse_elem_4 mk).
Proof.
  intros mk toks t rest e S H. destruct toks as [|a [|b [|c [|d [|x [|y r]]]]]]; try discriminate H. simpl app.
  unfold parse_elem_4 in *. destruct r as [|u r]; cbn [app extra] in *; [rewrite S; cbn [negb]|]; exact H.
Qed.
Lemma ignores_src : forall mk, ignores (parse_elem_src mk).
Proof.
  intros mk toks t rest e S H. destruct toks as [|a [|b [|c [|d [|x r]]]]]; try discriminate H. simpl app.
  unfold parse_elem_src in *. destruct r as [|u r]; cbn [app extra] in *; [rewrite S; cbn [negb]|]; exact H.
Qed.
Lemma ignores_S : forall models, ignores (parse_elem_switch models).
Proof.
  intros models toks t rest e S H. destruct toks as [|a [|b [|c [|d [|x [|y r]]]]]]; try discriminate H. simpl app.
  unfold parse_elem_switch in *. destruct r as [|u r]; cbn [app extra] in *; [rewrite S; cbn [negb]|]; exact H.
Qed.
Lemma diode_loop_ignores : forall toks t rest a b, starred t = true -> diode_loop (toks ++ t :: rest) a b = diode_loop toks a b.
Proof.
  induction toks as [|u toks IH]; intros t rest a b S; cbn [app diode_loop]; [rewrite S; reflexivity|].
  destruct (starred u); [reflexivity|]. destruct (parse_param_value u) as [[p v]|]; [|reflexivity]. cbn [bindr].
  destruct (num_value v); [|reflexivity]. cbn [bindr]. rewrite !IH by exact S. reflexivity.
Qed.
Lemma ignores_D : forall models, ignores (parse_elem_diode models).
Proof.
  intros models toks t rest e S H. destruct toks as [|a [|b [|c [|d r]]]]; try discriminate H. simpl app.
  unfold parse_elem_diode in *. rewrite diode_loop_ignores by exact S. exact H.
Qed.
Lemma mos_loop_ignores : forall toks t rest p, starred t = true -> mos_loop (toks ++ t :: rest) p = mos_loop toks p.
Proof.
  induction toks as [|u toks IH]; intros t rest p S; cbn [app mos_loop]; [rewrite S; reflexivity|].
  destruct (starred u); [reflexivity|]. destruct (parse_param_value u) as [[l v]|]; [|reflexivity]. cbn [bindr].
  destruct (num_value v); cbn [bindr]; [|reflexivity]. rewrite !IH by exact S. reflexivity.
Qed.
Lemma ignores_M : forall models, ignores (parse_elem_mos models).
Proof.
  intros models toks t rest e S H. destruct toks as [|a [|b [|c [|d [|x [|y r]]]]]]; try discriminate H. simpl app.
  unfold parse_elem_mos in *. rewrite mos_loop_ignores by exact S. exact H.
Qed.
(** A source without a time function. *)
Lemma source_ignores : forall c strict toks t rest dc ac r fuel fuel2, starred t = true -> (length toks <= fuel)%nat -> (length (toks ++ t :: rest) <= fuel2)%nat ->
  source_loop fuel c strict toks dc ac None = Ok r -> snd r = None ->
  source_loop fuel2 c strict (toks ++ t :: rest) dc ac None = Ok r.
Proof.
  intros c strict. assert (FN : forall fuel toks dc ac g r, source_loop fuel c strict toks dc ac (Some g) = Ok r -> snd r = Some g).
  { induction fuel as [|fuel IH]; intros toks dc ac g r H; [destruct toks; [injection H as <-; reflexivity|discriminate]|].
    destruct toks as [|u toks]; [injection H as <-; reflexivity|]. cbn [source_loop] in H.
    destruct (starred u); [injection H as <-; reflexivity|]. destruct (parse_param_value u) as [[l v]|]; [|discriminate]. cbn [bindr] in H.
    destruct (streqb l (lit "type")); [destruct (param_number c v); [destruct v|]; discriminate|].
    destruct (streqb l (lit (c ++ "dc"))); [destruct (num_value v); [|discriminate]; cbn [bindr] in H; eauto|].
    destruct (streqb l (lit (c ++ "ac"))); [destruct (num_value v); [|discriminate]; cbn [bindr] in H; eauto|]. discriminate. }
  induction toks as [|u toks IH]; intros t rest dc ac r fuel fuel2 S L1 L2 H N.
  - cbn [app] in *. destruct fuel2; [simpl in L2; lia|]. cbn [source_loop]. rewrite S. destruct fuel; exact H.
  - destruct fuel; [simpl in L1; lia|]. destruct fuel2; [simpl in L2; lia|]. cbn [app source_loop] in *.
    destruct (starred u); [exact H|]. destruct (parse_param_value u) as [[l v]|]; [|discriminate]. cbn [bindr] in *.
    simpl in L1, L2.
    destruct (streqb l (lit "type")).
    { destruct (param_number c v) as [p|]; [|destruct v; discriminate]. destruct v as [| | |ty|]; try discriminate. destruct (p =? 0).
      - eapply (IH t rest _ _ r fuel fuel2); [exact S|lia|lia|exact H|exact N].
      - destruct (parse_time_function ty (firstn p toks)) as [g|]; [|discriminate]. cbn [bindr] in H.
        destruct (strict && (length toks <? p)); [discriminate|]. apply FN in H. congruence. }
    destruct (streqb l (lit (c ++ "dc"))); [destruct (num_value v); [|discriminate]; cbn [bindr] in *; eapply (IH t rest _ _ r fuel fuel2); [exact S|lia|lia|exact H|exact N]|].
    destruct (streqb l (lit (c ++ "ac"))); [destruct (num_value v); [|discriminate]; cbn [bindr] in *; eapply (IH t rest _ _ r fuel fuel2); [exact S|lia|lia|exact H|exact N]|]. discriminate.
Qed.

(** A comment after the line of a resistor, a controlled source, a diode, a MOS
    transistor or a switch changes nothing. *)
Theorem C126_comments : forall models other line text prev es c r, line = c :: r -> In c (list_ascii_of_string "defghmrs") ->
  parse_line models other line prev = Ok es -> parse_line models other (with_comment line text) prev = Ok es.
Proof.
  intros models other line text prev es c r -> HC H. unfold with_comment. cbn [app]. unfold parse_line in *.
  change (c :: (r ++ sp_ :: c_star :: text))%list with (with_comment (c :: r) text).
  destruct (split_comment (c :: r) text) as (t & rest & SP & ST).
  assert (G : forall f, ignores f -> bindr (f (split (c :: r))) (fun e => Ok [e]) = Ok es -> bindr (f (split (with_comment (c :: r) text))) (fun e => Ok [e]) = Ok es).
  { intros f IG E. destruct (f (split (c :: r))) as [e|] eqn:F; [|discriminate]. rewrite SP, (IG _ _ _ _ ST F). exact E. }
  unfold parse_letter in *. cbv zeta in *.
  simpl in HC. repeat (destruct HC as [<-|HC]; [cbn [ascii_dec] in *; revert H; apply G;
    first [apply ignores_D|apply ignores_4|apply ignores_src|apply ignores_M|apply ignores_R|apply ignores_S]|]).
  destruct HC.
Qed.
Print Assumptions C126_comments.

(** Nor does it for a capacitor without an initial condition or an independent source
    without a time function. *)
Theorem C126_comments_cvi : forall models other line text prev e,
  parse_line models other line prev = Ok [e] ->
  (exists id n1 n2 v r, e = PC id n1 n2 v None /\ line = "c"%char :: r) \/ (exists id n1 n2 dc ac r, e = PV id n1 n2 dc ac None /\ line = "v"%char :: r) \/
  (exists id n1 n2 dc ac r, e = PI id n1 n2 dc ac None /\ line = "i"%char :: r) ->
  parse_line models other (with_comment line text) prev = Ok [e].
Proof.
  intros models other line text prev e H.
  intros [(id & n1 & n2 & v & r & -> & ->)|[(id & n1 & n2 & dc & ac & r & -> & ->)|(id & n1 & n2 & dc & ac & r & -> & ->)]];
    unfold parse_line in *; cbn [with_comment app] in *;
    match goal with |- parse_letter _ _ ?c (?c :: (r ++ sp_ :: c_star :: text)%list) _ = _ =>
      change (c :: (r ++ sp_ :: c_star :: text)%list) with (with_comment (c :: r) text);
      destruct (split_comment (c :: r) text) as (t & rest & SP & ST) end.
  - unfold parse_letter in *. cbv zeta in *. cbn [ascii_dec] in *. rewrite SP.
    destruct (split ("c"%char :: r)) as [|x1 [|x2 [|x3 [|x4 l]]]]; try discriminate H.
    cbn [app]. unfold parse_elem_capacitor in *.
    destruct l as [|y1 [|y2 l]]; cbn [app] in *; cbn -[convert_units starred parse_param_value] in H |- *.
    + rewrite ST. destruct rest as [|z rest]; cbn -[convert_units starred]; rewrite ?ST, ?andb_false_r; exact H.
    + destruct (starred y1) eqn:Y.
      * rewrite ST. cbn -[convert_units]. exact H.
      * rewrite ST. cbn -[convert_units]. destruct (parse_param_value y1) as [[l v0]|]; [|discriminate H]. cbn [bindr] in H.
        match type of H with context [streqb l ?x] => destruct (streqb l x) end; [|discriminate H]. destruct (val_units v0) as [[| |d0| |]|]; try discriminate H. cbn [bindr] in H.
        destruct (convert_units x4); cbn [bindr] in H; discriminate H.
    + exact H.
  - rewrite letter_v in *. rewrite SP. destruct (split ("v"%char :: r)) as [|x1 [|x2 [|x3 l]]]; try discriminate H. cbn [app].
    unfold parse_elem_source in *. destruct (source_loop (length l) "v" false l None None None) as [[[dc0 ac0] f0]|] eqn:SL; [|discriminate].
    cbn [bindr] in H. assert (F0 : f0 = None) by (destruct dc0, f0; try discriminate H; injection H; intros; congruence).
    erewrite (source_ignores "v" false l t rest None None _ (length l)); [|exact ST|lia|lia|exact SL|exact F0]. exact H.
  - rewrite letter_i in *. rewrite SP. destruct (split ("i"%char :: r)) as [|x1 [|x2 [|x3 l]]]; try discriminate H. cbn [app].
    unfold parse_elem_source in *. destruct (source_loop (length l) "i" true l None None None) as [[[dc0 ac0] f0]|] eqn:SL; [|discriminate].
    cbn [bindr] in H. assert (F0 : f0 = None) by (destruct dc0, f0; try discriminate H; injection H; intros; congruence).
    erewrite (source_ignores "i" true l t rest None None _ (length l)); [|exact ST|lia|lia|exact SL|exact F0]. exact H.
Qed.
Print Assumptions C126_comments_cvi.

(** In other places a comment changes the element, or makes the line unreadable: an
    initial condition is dropped, a coupling and an inductor run into an IndexError,
    a word of the comment after a short time function is taken for a parameter. *)
Theorem C126_comments_refuted :
  (parse_line [] no_other (lit "c1 a b 1p ic=2") [] = Ok [PC (lit "c1") (lit "a") (lit "b") (1, -12)%Z (Some (2, 0)%Z)] /\
   parse_line [] no_other (with_comment (lit "c1 a b 1p ic=2") (lit "load")) [] = Ok [PC (lit "c1") (lit "a") (lit "b") (1, -12)%Z None]) /\
  (parse_line [] no_other (lit "l1 a b 1u") [] = Ok [PL (lit "l1") (lit "a") (lit "b") (1, -6)%Z None] /\
   parse_line [] no_other (with_comment (lit "l1 a b 1u") (lit " coil")) [] = Err IndexError) /\
  (exists prev e, parse_line [] no_other (lit "k1 l1 l2 0.5") prev = Ok [e] /\
   parse_line [] no_other (with_comment (lit "k1 l1 l2 0.5") (lit "tight")) prev = Err IndexError) /\
  (exists f e, parse_line [] no_other (lit "v1 a 0 type=sin vo=0 va=1 freq=1k") [] = Ok [PV (lit "v1") (lit "a") (lit "0") None None f] /\
   parse_line [] no_other (with_comment (lit "v1 a 0 type=sin vo=0 va=1 freq=1k") (lit " use vac=2")) [] = Ok [e] /\
   e = PV (lit "v1") (lit "a") (lit "0") None (Some (2, 0)%Z) f).
Proof.
  split; [split; vm_compute; reflexivity|]. split; [split; vm_compute; reflexivity|]. split.
  - exists [PL (lit "l1") (lit "a") (lit "0") (1, -6)%Z None; PL (lit "l2") (lit "b") (lit "0") (1, -6)%Z None]. eexists. split; vm_compute; reflexivity.
  - eexists _, _. split; [vm_compute; reflexivity|]. split; vm_compute; reflexivity.
Qed.
Print Assumptions C126_comments_refuted.

Example C126_example :
  parse_line [] no_other (with_comment (lit "r1 a b 1k") (lit " the load")) [] = Ok [PR (lit "r1") (lit "a") (lit "b") (1, 3)%Z] /\
  parse_line [] no_other (with_comment (lit "v1 a b type=vdc vdc=5") (lit "supply")) [] = Ok [PV (lit "v1") (lit "a") (lit "b") (Some (5, 0)%Z) None None].
Proof. split; vm_compute; reflexivity. Qed.

(** * C127 *)
(** The time functions and the number of parameters they take. *)
Inductive function_params : str -> nat -> Prop :=
| fp_pulse : function_params (lit "pulse") 7 | fp_exp : function_params (lit "exp") 6 | fp_sin : function_params (lit "sin") 5
| fp_sffm : function_params (lit "sffm") 5 | fp_am : function_params (lit "am") 5.

Lemma type_any : forall ty p c, function_params ty p -> c = "v"%string \/ c = "i"%string ->
  parse_param_value (lit "type=" ++ ty) = Ok (lit "type", VStr ty) /\ param_number c (VStr ty) = Some p /\ (p =? 0) = false.
Proof. intros ty p c H [-> | ->]; destruct H; repeat split. Qed.

Lemma source_any : forall ty p c strict args g fuel, function_params ty p -> c = "v"%string \/ c = "i"%string -> length args <= p ->
  parse_time_function ty args = Ok g ->
  source_loop (S fuel) c strict ((lit "type=" ++ ty)%list :: args) None None None =
    if strict && (length args <? p) then Err IndexError else Ok (None, None, Some g).
Proof.
  intros ty p c strict args g fuel FP C L T. destruct (type_any ty p c FP C) as (P & N & Z0).
  cbn [source_loop]. change (starred (lit "type=" ++ ty)) with false. cbv iota. rewrite P. cbn [bindr].
  change (streqb (lit "type") (lit "type")) with true. cbv iota. rewrite N, Z0, firstn_all2, T by exact L. cbn [bindr].
  destruct (strict && (length args <? p)); [reflexivity|]. rewrite skipn_all2 by exact L. destruct fuel; reflexivity.
Qed.

(** The optional parameters at the end of a time function can be left out on the line
    of a voltage source. *)
Theorem C127_voltage : forall id n1 n2 ty p args g, function_params ty p -> length args <= p ->
  parse_time_function ty args = Ok g ->
  parse_elem_vsource (id :: n1 :: n2 :: (lit "type=" ++ ty)%list :: args) = Ok (PV id n1 n2 None None (Some g)).
Proof.
  intros id n1 n2 ty p args g FP L T. unfold parse_elem_vsource, parse_elem_source. cbn [length].
  rewrite (source_any ty p "v" false args g (length args) FP (or_introl eq_refl) L T). reflexivity.
Qed.
Print Assumptions C127_voltage.

(** On the line of a current source they cannot, ... *)
Theorem C127_current_refuted : forall id n1 n2 ty p args, function_params ty p -> length args < p ->
  (forall g, parse_time_function ty args = Ok g ->
    parse_elem_isource (id :: n1 :: n2 :: (lit "type=" ++ ty)%list :: args) = Err IndexError) /\
  (forall e, parse_elem_isource (id :: n1 :: n2 :: (lit "type=" ++ ty)%list :: args) <> Ok e).
Proof.
  intros id n1 n2 ty p args FP L.
  assert (H : forall g, parse_time_function ty args = Ok g ->
    parse_elem_isource (id :: n1 :: n2 :: (lit "type=" ++ ty)%list :: args) = Err IndexError).
  { intros g T. unfold parse_elem_isource, parse_elem_source. cbn [length].
    rewrite (source_any ty p "i" true args g (length args) FP (or_intror eq_refl) ltac:(lia) T).
    replace (length args <? p) with true by (symmetry; apply Nat.ltb_lt; lia). reflexivity. }
  split; [exact H|]. intros e E. destruct (parse_time_function ty args) as [g|x] eqn:T; [rewrite (H g eq_refl) in E; discriminate|].
  unfold parse_elem_isource, parse_elem_source in E. cbn [length source_loop] in E. change (starred (lit "type=" ++ ty)) with false in E. cbv iota in E.
  destruct (type_any ty p "i" FP (or_intror eq_refl)) as (P & N & Z0). rewrite P in E. cbn [bindr] in E.
  change (streqb (lit "type") (lit "type")) with true in E. cbv iota in E. rewrite N, Z0, firstn_all2, T in E by lia. discriminate.
Qed.
Print Assumptions C127_current_refuted.

(** ... all of them must be there. *)
Theorem C127_current : forall id n1 n2 ty p args g, function_params ty p -> length args = p ->
  parse_time_function ty args = Ok g ->
  parse_elem_isource (id :: n1 :: n2 :: (lit "type=" ++ ty)%list :: args) = Ok (PI id n1 n2 None None (Some g)).
Proof.
  intros id n1 n2 ty p args g FP L T. unfold parse_elem_isource, parse_elem_source. cbn [length].
  rewrite (source_any ty p "i" true args g (length args) FP (or_intror eq_refl) ltac:(lia) T).
  replace (length args <? p) with false by (symmetry; apply Nat.ltb_ge; lia). reflexivity.
Qed.
Print Assumptions C127_current.

(** Even on the line of a voltage source nothing can follow a function that was cut
    short, and the delay of an FM source, its sixth parameter, is not read. *)
Theorem C127_voltage_refuted :
  (exists e, parse_line [] no_other (lit "v1 a 0 vac=1 type=sin vo=0 va=1 freq=1k") [] = Ok [e]) /\
  parse_line [] no_other (lit "v1 a 0 type=sin vo=0 va=1 freq=1k vac=1") [] = Err NetlistParseError /\
  (exists e, parse_line [] no_other (lit "v1 a 0 type=sffm vo=0 va=1 fc=1k mdi=2 fs=100") [] = Ok [e]) /\
  parse_line [] no_other (lit "v1 a 0 type=sffm vo=0 va=1 fc=1k mdi=2 fs=100 td=1m") [] = Err NetlistParseError.
Proof. split; [eexists; vm_compute; reflexivity|]. split; [vm_compute; reflexivity|]. split; [eexists; vm_compute; reflexivity|vm_compute; reflexivity]. Qed.
Print Assumptions C127_voltage_refuted.

Example C127_example :
  parse_line [] no_other (lit "v1 a 0 type=sin vo=0 va=1 freq=1k") [] = Ok [PV (lit "v1") (lit "a") (lit "0") None None (Some (lit "sin",
    [(lit "vo", VNum (0, 0)%Z); (lit "va", VNum (1, 0)%Z); (lit "freq", VNum (1, 3)%Z); (lit "td", VNum (0, 0)%Z); (lit "theta", VNum (0, 0)%Z)]))] /\
  parse_line [] no_other (lit "i1 a 0 type=sin vo=0 va=1 freq=1k") [] = Err IndexError /\
  parse_line [] no_other (lit "i1 a 0 type=sin vo=0 va=1 freq=1k td=0 theta=0") [] <> Err IndexError.
Proof. split; [vm_compute; reflexivity|]. split; [vm_compute; reflexivity|]. intros H. vm_compute in H. discriminate H. Qed.

(** * C128 *)
(** The tokens of a line before the comment. *)
Fixpoint before_comment (toks : list str) : list str :=
  match toks with [] => [] | t :: l => if starred t then [] else t :: before_comment l end.

(** No line with the option OFF (with or without a value) is accepted. *)
Theorem C128_off_refuted : forall models id n1 n2 model opts e tok v, In tok (before_comment opts) ->
  parse_param_value tok = Ok (lit "off", v) -> parse_elem_diode models (id :: n1 :: n2 :: model :: opts) <> Ok e.
Proof.
  intros models id n1 n2 model opts e tok v HI P H. unfold parse_elem_diode in H.
  assert (K : forall a b r, diode_loop opts a b <> Ok r).
  { clear H. induction opts as [|u opts IH]; [destruct HI|]. cbn [before_comment] in HI. intros a b r H. cbn [diode_loop] in H.
    destruct (starred u); [destruct HI|]. destruct HI as [->|HI].
    - rewrite P in H. cbn [bindr] in H. destruct (num_value v); [|discriminate H]. cbn [bindr] in H.
      change (streqb (lit "off") (lit "area")) with false in H. change (streqb (lit "off") (lit "t")) with false in H.
      change (streqb (lit "off") (lit "ic")) with false in H. change (streqb (lit "off") (lit "off")) with true in H. discriminate H.
    - destruct (parse_param_value u) as [[l w]|]; [|discriminate H]. cbn [bindr] in H. destruct (num_value w); [|discriminate H]. cbn [bindr] in H.
      destruct (streqb l (lit "area")); [exact (IH HI _ _ _ H)|]. destruct (streqb l (lit "t")); [exact (IH HI _ _ _ H)|].
      destruct (streqb l (lit "ic")); [exact (IH HI _ _ _ H)|]. destruct (streqb l (lit "off")); discriminate H. }
  destruct (diode_loop opts None None) as [[a i]|] eqn:D; [exact (K _ _ _ D)|discriminate].
Qed.
Print Assumptions C128_off_refuted.

(** The option T has no effect: the line without it gives the same element. *)
Theorem C128_temperature_refuted : forall models id n1 n2 model pre s w post, reads_as s w ->
  parse_elem_diode models (id :: n1 :: n2 :: model :: pre ++ arg "t" s :: post) =
  parse_elem_diode models (id :: n1 :: n2 :: model :: pre ++ post).
Proof.
  intros models id n1 n2 model pre s w post RA. unfold parse_elem_diode.
  assert (K : forall a b, diode_loop (pre ++ arg "t" s :: post) a b = diode_loop (pre ++ post) a b).
  { induction pre as [|u pre IH]; intros a b; cbn [app].
    - rewrite (diode_arg "t" s w) by (try assumption; try reflexivity; try discriminate; repeat constructor). reflexivity.
    - cbn [diode_loop]. destruct (starred u); [reflexivity|]. destruct (parse_param_value u) as [[l v]|]; [|reflexivity]. cbn [bindr].
      destruct (num_value v); [|reflexivity]. cbn [bindr]. rewrite !IH. reflexivity. }
  rewrite K. reflexivity.
Qed.
Print Assumptions C128_temperature_refuted.

(** AREA and IC are understood, in any order; a repeated option counts by its last
    occurrence. *)
Theorem C128_area_ic : forall models id n1 n2 model ty sa wa si wi, dget streqb models model = Some ty -> reads_as sa wa -> reads_as si wi ->
  parse_elem_diode models [id; n1; n2; model; arg "area" sa; arg "ic" si] = Ok (PD id n1 n2 model (Some wa) (Some wi)) /\
  parse_elem_diode models [id; n1; n2; model; arg "ic" si; arg "area" sa] = Ok (PD id n1 n2 model (Some wa) (Some wi)) /\
  parse_elem_diode models [id; n1; n2; model] = Ok (PD id n1 n2 model None None).
Proof.
  intros models id n1 n2 model ty sa wa si wi MD RA RI.
  assert (A : forall rest a b, diode_loop (arg "area" sa :: rest) a b = diode_loop rest (Some wa) b).
  { intros. rewrite (diode_arg "area" sa wa) by (try assumption; try reflexivity; try discriminate; repeat constructor). reflexivity. }
  assert (B : forall rest a b, diode_loop (arg "ic" si :: rest) a b = diode_loop rest a (Some wi)).
  { intros. rewrite (diode_arg "ic" si wi) by (try assumption; try reflexivity; try discriminate; repeat constructor). reflexivity. }
  unfold parse_elem_diode. rewrite !A, !B, A. cbn [diode_loop bindr]. rewrite MD. auto.
Qed.
Print Assumptions C128_area_ic.

Example C128_example :
  parse_line [(lit "mod1", MDiode)] no_other (lit "d1 a 0 mod1 area=2 t=400 ic=0.5") [] =
    Ok [PD (lit "d1") (lit "a") (lit "0") (lit "mod1") (Some (2, 0)%Z) (Some (5, -1)%Z)] /\
  parse_line [(lit "mod1", MDiode)] no_other (lit "d1 a 0 mod1 off") [] = Err NetlistParseError /\
  parse_line [(lit "mod1", MDiode)] no_other (lit "d1 a 0 mod1 off=1") [] = Err TypeError /\
  parse_line [(lit "mod1", MDiode)] no_other (lit "d1 a 0 mod1 off=yes") [] = Err ValueError.
Proof. repeat split; vm_compute; reflexivity. Qed.

(** * C129 *)
(** The documented lines and what they stand for; [c] is the first letter. *)
Inductive syntax (models : list (str * mtype)) : ascii -> list str -> pelem -> Prop :=
| sx_R id n1 n2 v d : convert_units v = Ok d -> fst d <> 0%Z -> syntax models "r" [id; n1; n2; v] (PR id n1 n2 d)
| sx_C id n1 n2 v d : convert_units v = Ok d -> syntax models "c" [id; n1; n2; v] (PC id n1 n2 d None)
| sx_C_ic id n1 n2 v d s w : convert_units v = Ok d -> reads_as s w -> syntax models "c" [id; n1; n2; v; arg "ic" s] (PC id n1 n2 d (Some w))
| sx_L id n1 n2 v d : convert_units v = Ok d -> syntax models "l" [id; n1; n2; v] (PL id n1 n2 d None)
| sx_L_ic id n1 n2 v d s w : convert_units v = Ok d -> reads_as s w -> syntax models "l" [id; n1; n2; v; arg "ic" s] (PL id n1 n2 d (Some w))
| sx_V id n1 n2 s w : reads_as s w -> syntax models "v" [id; n1; n2; lit "type=vdc"; arg "vdc" s] (PV id n1 n2 (Some w) None None)
| sx_V_ac id n1 n2 s w s2 w2 : reads_as s w -> reads_as s2 w2 -> fst w2 <> 0%Z ->
    syntax models "v" [id; n1; n2; lit "type=vdc"; arg "vdc" s; arg "vac" s2] (PV id n1 n2 (Some w) (Some w2) None)
| sx_I id n1 n2 s w : reads_as s w -> syntax models "i" [id; n1; n2; lit "type=idc"; arg "idc" s] (PI id n1 n2 (Some w) None None)
| sx_I_ac id n1 n2 s w s2 w2 : reads_as s w -> reads_as s2 w2 -> fst w2 <> 0%Z ->
    syntax models "i" [id; n1; n2; lit "type=idc"; arg "idc" s; arg "iac" s2] (PI id n1 n2 (Some w) (Some w2) None)
| sx_E id n1 n2 s1 s2 v d : convert_units v = Ok d -> syntax models "e" [id; n1; n2; s1; s2; v] (PE id n1 n2 s1 s2 d)
| sx_G id n1 n2 s1 s2 v d : convert_units v = Ok d -> syntax models "g" [id; n1; n2; s1; s2; v] (PG id n1 n2 s1 s2 d)
| sx_H id n1 n2 src v d : convert_units v = Ok d -> syntax models "h" [id; n1; n2; src; v] (PH id n1 n2 src d)
| sx_F id n1 n2 src v d : convert_units v = Ok d -> syntax models "f" [id; n1; n2; src; v] (PF id n1 n2 src d)
| sx_S id n1 n2 s1 s2 model : dget streqb models model = Some MSwitch -> syntax models "s" [id; n1; n2; s1; s2; model] (PS id n1 n2 s1 s2 model)
| sx_D id n1 n2 model : dget streqb models model = Some MDiode -> syntax models "d" [id; n1; n2; model] (PD id n1 n2 model None None)
| sx_M id nd ng ns nb model ty sw w sl l : dget streqb models model = Some ty -> ty = MEkv \/ ty = MMosq -> reads_as sw w -> reads_as sl l ->
    syntax models "m" [id; nd; ng; ns; nb; model; arg "w" sw; arg "l" sl] (PM id nd ng ns nb model w l one one)
| sx_M_mn id nd ng ns nb model ty sw w sl l sm m sn n : dget streqb models model = Some ty -> ty = MEkv \/ ty = MMosq ->
    reads_as sw w -> reads_as sl l -> reads_as sm m -> reads_as sn n ->
    syntax models "m" [id; nd; ng; ns; nb; model; arg "w" sw; arg "l" sl; arg "m" sm; arg "n" sn] (PM id nd ng ns nb model w l m n).

Lemma arg_value : forall (l : string) s w, reads_as s w -> no_eq (lit l) -> parse_param_value (arg l s) = Ok (lit l, VNum w).
Proof. intros l s w [C E] N. apply param_value_eq; [exact N|apply C|exact E]. Qed.

Theorem C129_documented : forall models other line prev c toks e, begins c line -> split line = toks -> syntax models c toks e ->
  parse_line models other line prev = Ok [e].
Proof.
  intros models other line prev c toks e [r EL] SP SX. unfold parse_line. rewrite EL, <- EL.
  destruct SX; unfold parse_letter; rewrite SP; cbv zeta; cbn [ascii_dec].
  - cbn -[convert_units dzero]. rewrite H. cbn [bindr]. replace (dzero d) with false; [reflexivity|]. symmetry. apply Z.eqb_neq. exact H0.
  - cbn -[convert_units]. rewrite H. reflexivity.
  - unfold parse_elem_capacitor, parse_ic. change (starred (arg "ic" s)) with false. cbv iota.
    rewrite (arg_value "ic" s w H0) by repeat constructor. cbn -[convert_units]. rewrite H. reflexivity.
  - cbn -[convert_units]. rewrite H. reflexivity.
  - unfold parse_elem_inductor, parse_ic. change (starred (arg "ic" s)) with false. cbv iota. cbn [bindr].
    rewrite (arg_value "ic" s w H0) by repeat constructor. cbn -[convert_units]. rewrite H. reflexivity.
  - unfold parse_elem_vsource, parse_elem_source. cbn [length]. 
    assert (S1 : forall rest dc ac fuel, source_loop (S fuel) "v" false (arg "vdc" s :: rest) dc ac None = source_loop fuel "v" false rest (Some w) ac None).
    { intros. cbn [source_loop]. change (starred (arg "vdc" s)) with false. cbv iota. rewrite (arg_value "vdc" s w H) by repeat constructor. reflexivity. }
    change (source_loop 2 "v" false [lit "type=vdc"; arg "vdc" s] None None None) with (source_loop 1 "v" false [arg "vdc" s] None None None).
    rewrite S1. reflexivity.
  - unfold parse_elem_vsource, parse_elem_source. cbn [length]. 
    assert (S1 : forall rest dc ac fuel, source_loop (S fuel) "v" false (arg "vdc" s :: rest) dc ac None = source_loop fuel "v" false rest (Some w) ac None).
    { intros. cbn [source_loop]. change (starred (arg "vdc" s)) with false. cbv iota. rewrite (arg_value "vdc" s w H) by repeat constructor. reflexivity. }
    change (source_loop 3 "v" false [lit "type=vdc"; arg "vdc" s; arg "vac" s2] None None None) with (source_loop 2 "v" false [arg "vdc" s; arg "vac" s2] None None None).
    rewrite S1, (source_vac s2 w2 [] (Some w) None None 0 H0). cbn [source_loop bindr ac_of]. replace (dzero w2) with false; [reflexivity|]. symmetry. apply Z.eqb_neq. exact H1.
  - unfold parse_elem_isource, parse_elem_source. cbn [length]. 
    assert (S1 : forall rest dc ac fuel, source_loop (S fuel) "i" true (arg "idc" s :: rest) dc ac None = source_loop fuel "i" true rest (Some w) ac None).
    { intros. cbn [source_loop]. change (starred (arg "idc" s)) with false. cbv iota. rewrite (arg_value "idc" s w H) by repeat constructor. reflexivity. }
    change (source_loop 2 "i" true [lit "type=idc"; arg "idc" s] None None None) with (source_loop 1 "i" true [arg "idc" s] None None None).
    rewrite S1. reflexivity.
  - unfold parse_elem_isource, parse_elem_source. cbn [length]. 
    assert (S1 : forall rest dc ac fuel, source_loop (S fuel) "i" true (arg "idc" s :: rest) dc ac None = source_loop fuel "i" true rest (Some w) ac None).
    { intros. cbn [source_loop]. change (starred (arg "idc" s)) with false. cbv iota. rewrite (arg_value "idc" s w H) by repeat constructor. reflexivity. }
    assert (S2 : forall rest dc ac fuel, source_loop (S fuel) "i" true (arg "iac" s2 :: rest) dc ac None = source_loop fuel "i" true rest dc (Some w2) None).
    { intros. cbn [source_loop]. change (starred (arg "iac" s2)) with false. cbv iota. rewrite (arg_value "iac" s2 w2 H0) by repeat constructor. reflexivity. }
    change (source_loop 3 "i" true [lit "type=idc"; arg "idc" s; arg "iac" s2] None None None) with (source_loop 2 "i" true [arg "idc" s; arg "iac" s2] None None None).
    rewrite S1, S2. cbn [source_loop bindr ac_of]. replace (dzero w2) with false; [reflexivity|]. symmetry. apply Z.eqb_neq. exact H1.
  - cbn -[convert_units]. rewrite H. reflexivity.
  - cbn -[convert_units]. rewrite H. reflexivity.
  - cbn -[convert_units]. rewrite H. reflexivity.
  - cbn -[convert_units]. rewrite H. reflexivity.
  - cbn -[dget]. rewrite H. reflexivity.
  - cbn -[dget]. rewrite H. reflexivity.
  - unfold parse_elem_mos. cbn [mos_loop]. change (starred (arg "w" sw)) with false. change (starred (arg "l" sl)) with false. cbv iota.
    rewrite (arg_value "w" sw w H1), (arg_value "l" sl l H2) by repeat constructor. cbn -[dget]. rewrite H. destruct H0 as [-> | ->]; reflexivity.
  - unfold parse_elem_mos. cbn [mos_loop]. change (starred (arg "w" sw)) with false. change (starred (arg "l" sl)) with false.
    change (starred (arg "m" sm)) with false. change (starred (arg "n" sn)) with false. cbv iota.
    rewrite (arg_value "w" sw w H1), (arg_value "l" sl l H2), (arg_value "m" sm m H3), (arg_value "n" sn n H4) by repeat constructor.
    cbn -[dget]. rewrite H. destruct H0 as [-> | ->]; reflexivity.
Qed.
Print Assumptions C129_documented.

(** For resistors, controlled sources and switches, nothing else is accepted. *)
Theorem C129_only : forall models other line prev c e, begins c line -> In c (list_ascii_of_string "efghrs") ->
  parse_line models other line prev = Ok [e] ->
  exists toks com, split line = (toks ++ com)%list /\ syntax models c toks e /\ (com = [] \/ exists t l, com = t :: l /\ starred t = true).
Proof.
  intros models other line prev c e [r EL] HC H. unfold parse_line in H. rewrite EL, <- EL in H. unfold parse_letter in H. cbv zeta in H.
  assert (EX : forall rest, extra rest = false -> rest = [] \/ exists t l, rest = t :: l /\ starred t = true).
  { intros [|t l] X; [auto|]. right. exists t, l. split; [reflexivity|]. cbn [extra] in X. apply negb_false_iff in X. exact X. }
  simpl in HC. repeat (destruct HC as [<-|HC]; [cbn [ascii_dec] in H; try (match type of H with (if if ascii_dec ?a ?b then _ else _ then _ else _) = _ => idtac end)|]); try destruct HC;
    simpl in H; destruct (split line) as [|x1 l1]; try discriminate H.
  - destruct l1 as [|x2 [|x3 [|x4 [|x5 [|x6 l]]]]]; try discriminate H. unfold parse_elem_4 in H. destruct (extra l) eqn:X; [discriminate H|].
    destruct (convert_units x6) as [d|] eqn:C; [|discriminate H]. injection H as <-. exists [x1; x2; x3; x4; x5; x6], l.
    split; [reflexivity|]. split; [constructor; exact C|apply EX; exact X].
  - destruct l1 as [|x2 [|x3 [|x4 [|x5 l]]]]; try discriminate H. unfold parse_elem_src in H. destruct (extra l) eqn:X; [discriminate H|].
    destruct (convert_units x5) as [d|] eqn:C; [|discriminate H]. injection H as <-. exists [x1; x2; x3; x4; x5], l.
    split; [reflexivity|]. split; [constructor; exact C|apply EX; exact X].
  - destruct l1 as [|x2 [|x3 [|x4 [|x5 [|x6 l]]]]]; try discriminate H. unfold parse_elem_4 in H. destruct (extra l) eqn:X; [discriminate H|].
    destruct (convert_units x6) as [d|] eqn:C; [|discriminate H]. injection H as <-. exists [x1; x2; x3; x4; x5; x6], l.
    split; [reflexivity|]. split; [constructor; exact C|apply EX; exact X].
  - destruct l1 as [|x2 [|x3 [|x4 [|x5 l]]]]; try discriminate H. unfold parse_elem_src in H. destruct (extra l) eqn:X; [discriminate H|].
    destruct (convert_units x5) as [d|] eqn:C; [|discriminate H]. injection H as <-. exists [x1; x2; x3; x4; x5], l.
    split; [reflexivity|]. split; [constructor; exact C|apply EX; exact X].
  - destruct l1 as [|x2 [|x3 [|x4 l]]]; try discriminate H. unfold parse_elem_resistor in H. destruct (extra l) eqn:X; [discriminate H|].
    destruct (convert_units x4) as [d|] eqn:C; [|discriminate H]. cbn [bindr] in H. destruct (dzero d) eqn:Z0; [discriminate H|]. injection H as <-.
    exists [x1; x2; x3; x4], l. split; [reflexivity|]. split; [constructor; [exact C|apply Z.eqb_neq; exact Z0]|apply EX; exact X].
  - destruct l1 as [|x2 [|x3 [|x4 [|x5 [|x6 l]]]]]; try discriminate H. unfold parse_elem_switch in H. destruct (extra l) eqn:X; [discriminate H|].
    destruct (dget streqb models x6) as [[| | |]|] eqn:C; try discriminate H. injection H as <-. exists [x1; x2; x3; x4; x5; x6], l.
    split; [reflexivity|]. split; [constructor; exact C|apply EX; exact X].
Qed.
Print Assumptions C129_only.

(** The words at the beginning of a line that the element repeats. *)
Definition words (e : pelem) : list str :=
  match e with
  | PR id n1 n2 _ | PC id n1 n2 _ _ | PL id n1 n2 _ _ | PK id n1 n2 _ _ _ | PV id n1 n2 _ _ _ | PI id n1 n2 _ _ _ => [id; n1; n2]
  | PH id n1 n2 w _ | PF id n1 n2 w _ | PD id n1 n2 w _ _ => [id; n1; n2; w]
  | PE id n1 n2 s1 s2 _ | PG id n1 n2 s1 s2 _ => [id; n1; n2; s1; s2]
  | PM id a b c d w _ _ _ _ | PS id a b c d w => [id; a; b; c; d; w]
  end.
(** The letter that stands for the element. *)
Definition letter (e : pelem) : ascii :=
  match e with
  | PR _ _ _ _ => "r" | PC _ _ _ _ _ => "c" | PL _ _ _ _ _ => "l" | PK _ _ _ _ _ _ => "k" | PV _ _ _ _ _ _ => "v" | PI _ _ _ _ _ _ => "i"
  | PD _ _ _ _ _ _ => "d" | PM _ _ _ _ _ _ _ _ _ _ => "m" | PE _ _ _ _ _ _ => "e" | PG _ _ _ _ _ _ => "g" | PH _ _ _ _ _ => "h" | PF _ _ _ _ _ => "f"
  | PS _ _ _ _ _ _ => "s"
  end%char.
(** What an accepted line must have: a model of the right kind, a value. *)
Definition complete (models : list (str * mtype)) (e : pelem) : Prop :=
  match e with
  | PR _ _ _ v => fst v <> 0%Z
  | PV _ _ _ dc _ f | PI _ _ _ dc _ f => dc <> None \/ f <> None
  | PD _ _ _ m _ _ => exists ty, dget streqb models m = Some ty
  | PM _ _ _ _ _ m _ _ _ _ => dget streqb models m = Some MEkv \/ dget streqb models m = Some MMosq
  | PS _ _ _ _ _ m => dget streqb models m = Some MSwitch
  | _ => True
  end.

(** Whatever else is on an accepted line of any kind, the element is of the kind of its
    letter, and its name, nodes, source and model are the first words. *)
Theorem C129_words : forall models other line prev c l, begins c line -> ~ In c (list_ascii_of_string "xy") ->
  parse_line models other line prev = Ok l ->
  exists e rest, l = [e] /\ letter e = c /\ split line = (words e ++ rest)%list /\ complete models e.
Proof.
  intros models other line prev c l [r EL] NX H. unfold parse_line in H. rewrite EL, <- EL in H. unfold parse_letter in H. cbv zeta in H.
  repeat match type of H with context [ascii_dec c ?x] => destruct (ascii_dec c x) as [E|_];
    [first [exfalso; apply NX; rewrite E; simpl; tauto | symmetry in E; destruct E] |] end.
  all: cbn [orb] in H; try discriminate H.
  all: match type of H with bindr ?f _ = _ => destruct f as [e|] eqn:P; [|discriminate H] end; cbn [bindr] in H; injection H as <-; exists e.
  all: destruct (split line) as [|x1 [|x2 [|x3 rest]]]; try discriminate P.
  - destruct rest as [|x4 rest]; [discriminate P|]. unfold parse_elem_capacitor in P.
    match type of P with (if ?b then _ else _) = _ => destruct b; [discriminate P|] end.
    destruct (parse_ic rest); [|discriminate P]. cbn [bindr] in P. destruct (convert_units x4); [|discriminate P]. cbn [bindr] in P. injection P as <-.
    exists (x4 :: rest). cbn; auto.
  - destruct rest as [|x4 rest]; [discriminate P|]. unfold parse_elem_diode in P. destruct (diode_loop rest None None) as [[a ic]|]; [|discriminate P].
    cbn [bindr] in P. destruct (dget streqb models x4) as [ty|] eqn:D; [|discriminate P]. injection P as <-. exists rest. cbn; eauto.
  - destruct rest as [|x4 [|x5 [|x6 rest]]]; try discriminate P. unfold parse_elem_4 in P. destruct (extra rest); [discriminate P|].
    destruct (convert_units x6); [|discriminate P]. injection P as <-. exists (x6 :: rest). cbn; auto.
  - destruct rest as [|x4 [|x5 rest]]; try discriminate P. unfold parse_elem_src in P. destruct (extra rest); [discriminate P|].
    destruct (convert_units x5); [|discriminate P]. injection P as <-. exists (x5 :: rest). cbn; auto.
  - destruct rest as [|x4 [|x5 [|x6 rest]]]; try discriminate P. unfold parse_elem_4 in P. destruct (extra rest); [discriminate P|].
    destruct (convert_units x6); [|discriminate P]. injection P as <-. exists (x6 :: rest). cbn; auto.
  - destruct rest as [|x4 [|x5 rest]]; try discriminate P. unfold parse_elem_src in P. destruct (extra rest); [discriminate P|].
    destruct (convert_units x5); [|discriminate P]. injection P as <-. exists (x5 :: rest). cbn; auto.
  - unfold parse_elem_isource, parse_elem_source in P. destruct (source_loop (length rest) "i" true rest None None None) as [[[dc ac] f]|]; [|discriminate P].
    cbn [bindr] in P. exists rest. destruct dc, f; try discriminate P; injection P as <-; cbn; repeat split; try (left; discriminate); right; discriminate.
  - destruct rest as [|x4 rest]; [discriminate P|]. unfold parse_elem_inductor_coupling in P.
    match type of P with bindr ?f _ = _ => destruct f; [|discriminate P] end. cbn [bindr] in P.
    match type of P with bindr ?f _ = _ => destruct f; [|discriminate P] end. cbn [bindr] in P.
    destruct (find_inductors x2 x3 prev) as [[v1|] [v2|]]; try discriminate P. injection P as <-. exists (x4 :: rest). cbn; auto.
  - destruct rest as [|x4 rest]; [discriminate P|]. unfold parse_elem_inductor in P.
    match type of P with bindr ?f _ = _ => destruct f; [|discriminate P] end. cbn [bindr] in P.
    destruct (parse_ic rest); [|discriminate P]. cbn [bindr] in P. destruct (convert_units x4); [|discriminate P]. cbn [bindr] in P. injection P as <-.
    exists (x4 :: rest). cbn; auto.
  - destruct rest as [|x4 [|x5 [|x6 rest]]]; try discriminate P. unfold parse_elem_mos in P.
    destruct (mos_loop rest (mkMos None None one one)) as [mp|]; [|discriminate P]. cbn [bindr] in P. destruct (mp_w mp), (mp_l mp); try discriminate P.
    destruct (dget streqb models x6) as [[| | |]|] eqn:D; try discriminate P; injection P as <-; exists rest; cbn; auto.
  - destruct rest as [|x4 rest]; [discriminate P|]. unfold parse_elem_resistor in P. destruct (extra rest); [discriminate P|].
    destruct (convert_units x4) as [d|]; [|discriminate P]. cbn [bindr] in P. destruct (dzero d) eqn:Z0; [discriminate P|]. injection P as <-.
    exists (x4 :: rest). cbn. repeat split. apply Z.eqb_neq. exact Z0.
  - destruct rest as [|x4 [|x5 [|x6 rest]]]; try discriminate P. unfold parse_elem_switch in P. destruct (extra rest); [discriminate P|].
    destruct (dget streqb models x6) as [[| | |]|] eqn:D; try discriminate P; injection P as <-; exists rest; cbn; auto.
  - unfold parse_elem_vsource, parse_elem_source in P. destruct (source_loop (length rest) "v" false rest None None None) as [[[dc ac] f]|]; [|discriminate P].
    cbn [bindr] in P. exists rest. destruct dc, f; try discriminate P; injection P as <-; cbn; repeat split; try (left; discriminate); right; discriminate.
Qed.
Print Assumptions C129_words.
Example C129_words_example :
  parse_line [(lit "dm", MDiode)] no_other (lit "d1 a 0 dmod") [] = Err NetlistParseError /\
  parse_line [(lit "dm", MDiode)] no_other (lit "m1 a b c d dm w=1u l=1u") [] = Err NetlistParseError /\
  parse_line [] no_other (lit "v1 a 0 vac=1") [] = Err NetlistParseError /\
  parse_line [(lit "dm", MDiode)] no_other (lit "d1 a 0 dm area=2 * clamp") [] = Ok [PD (lit "d1") (lit "a") (lit "0") (lit "dm") (Some (2, 0)%Z) None].
Proof. repeat split; vm_compute; reflexivity. Qed.

(** But the model of a diode is not checked to be one: the line is accepted with the
    model of a transistor. *)
Theorem C129_diode_model_refuted : forall models id n1 n2 model ty, dget streqb models model = Some ty ->
  parse_elem_diode models [id; n1; n2; model] = Ok (PD id n1 n2 model None None).
Proof. intros models id n1 n2 model ty H. cbn. rewrite H. reflexivity. Qed.
Print Assumptions C129_diode_model_refuted.

(** The word after the value of a capacitor or inductor is not always looked at: with
    a star in the next place it can be anything. *)
Theorem C129_capacitor_refuted : 
  parse_line [] no_other (lit "c1 a b 1p nonsense * load") [] = Ok [PC (lit "c1") (lit "a") (lit "b") (1, -12)%Z None] /\
  parse_line [] no_other (lit "l1 a b 1u not even * a comment") [] = Ok [PL (lit "l1") (lit "a") (lit "b") (1, -6)%Z None].
Proof. split; vm_compute; reflexivity. Qed.
Print Assumptions C129_capacitor_refuted.

Example C129_example :
  main_netlist_parser [(lit "nch", MMosq)] no_other (map lit ["m1 d g s b nch w=10u l=1u"; "l1 d 0 1u ic=1m"; "v1 g 0 type=vdc vdc=2.5 vac=1"; "f1 d 0 v1 3"]%string) [] = Ok
    [PM (lit "m1") (lit "d") (lit "g") (lit "s") (lit "b") (lit "nch") (10, -6)%Z (1, -6)%Z one one; PL (lit "l1") (lit "d") (lit "0") (1, -6)%Z (Some (1, -3)%Z);
     PV (lit "v1") (lit "g") (lit "0") (Some (25, -1)%Z) (Some (1, 0)%Z) None; PF (lit "f1") (lit "d") (lit "0") (lit "v1") (3, 0)%Z].
Proof. vm_compute. reflexivity. Qed.

(** * C130 *)
(** Lines that do not refer to elements before them. *)
Definition plain (line : str) : Prop := match line with [] => True | c :: _ => ~ In c (list_ascii_of_string "kxy") end.

Lemma plain_any : forall models other line p1 p2, plain line -> parse_line models other line p1 = parse_line models other line p2.
Proof.
  intros models other [|c r] p1 p2 P; [reflexivity|]. unfold parse_line, parse_letter. cbv zeta.
  destruct (ascii_dec c "k") as [->|]; [exfalso; apply P; simpl; auto|]. reflexivity.
Qed.

Lemma main_app : forall models other lines prev es, Forall plain lines ->
  main_netlist_parser models other lines prev = Ok es <->
  exists es', es = (prev ++ es')%list /\ main_netlist_parser models other lines [] = Ok es'.
Proof.
  intros models other. induction lines as [|l lines IH]; intros prev es F; cbn [main_netlist_parser].
  - split; [intros H; injection H as <-; exists []; rewrite app_nil_r; auto|]. intros (e' & -> & H). injection H as <-. rewrite app_nil_r. reflexivity.
  - inversion F as [|? ? P F']; subst. rewrite (plain_any models other l prev [] P).
    destruct (parse_line models other l []) as [x|]; cbn [bindr app]; [|split; [discriminate|intros (e' & _ & H); discriminate]].
    rewrite IH by exact F'. split.
    + intros (e' & -> & H). exists (x ++ e')%list. rewrite app_assoc. split; [reflexivity|]. apply IH; [exact F'|]. eauto.
    + intros (e' & -> & H). apply IH in H; [|exact F']. destruct H as (e2 & -> & H). exists e2. rewrite app_assoc. auto.
Qed.

(** Without couplings (and subcircuits) the order of the lines does not matter. *)
Theorem C130_order : forall models other lines lines' es, Permutation lines lines' -> Forall plain lines ->
  main_netlist_parser models other lines [] = Ok es ->
  exists es', main_netlist_parser models other lines' [] = Ok es' /\ Permutation es es'.
Proof.
  intros models other lines lines' es P. revert es.
  assert (STEP : forall l lines es, Forall plain lines -> main_netlist_parser models other (l :: lines) [] = Ok es <->
     exists x ys, es = (x ++ ys)%list /\ parse_line models other l [] = Ok x /\ main_netlist_parser models other lines [] = Ok ys).
  { intros l ls es F. cbn [main_netlist_parser app]. destruct (parse_line models other l []) as [x|] eqn:L; cbn [bindr].
    - rewrite main_app by exact F. split; [intros (e' & -> & H); eauto 6|]. intros (x' & ys & -> & E & H). injection E as <-. eauto.
    - split; [discriminate|]. intros (x' & ys & _ & E & _). discriminate. }
  induction P as [|l ls ls' P IH|a b ls|l1 l2 l3 P1 IH1 P2 IH2]; intros es F H.
  - exists es. auto.
  - inversion F; subst. apply STEP in H; [|assumption]. destruct H as (x & ys & -> & L & H). destruct (IH ys) as (ys' & H' & PP); [assumption|exact H|].
    exists (x ++ ys')%list. split; [|apply Permutation_app_head; exact PP]. apply STEP; [|eauto]. rewrite <- P. assumption.
  - inversion F as [|? ? A F1]; subst. inversion F1 as [|? ? B F2]; subst. apply STEP in H; [|assumption]. destruct H as (x & ys & -> & L & H).
    apply STEP in H; [|assumption]. destruct H as (x2 & ys2 & -> & L2 & H). exists (x2 ++ x ++ ys2)%list. split.
    + apply STEP; [constructor; assumption|]. exists x2, (x ++ ys2)%list. split; [reflexivity|]. split; [exact L2|]. apply STEP; [assumption|]. eauto.
    + rewrite !app_assoc. apply Permutation_app_tail. apply Permutation_app_comm.
  - destruct (IH1 es F H) as (e2 & H2 & Q1). assert (F2 : Forall plain l2) by (rewrite <- P1; exact F).
    destruct (IH2 e2 F2 H2) as (e3 & H3 & Q2). exists e3. split; [exact H3|]. eapply Permutation_trans; eassumption.
Qed.
Print Assumptions C130_order.

(** A coupling must come after its inductors. *)
Theorem C130_coupling_refuted : exists lines lines' es, Permutation lines lines' /\
  main_netlist_parser [] no_other lines [] = Ok es /\ main_netlist_parser [] no_other lines' [] = Err NetlistParseError.
Proof.
  exists (map lit ["l1 a 0 1u"; "l2 b 0 4u"; "k1 l1 l2 0.5"]%string), (map lit ["k1 l1 l2 0.5"; "l1 a 0 1u"; "l2 b 0 4u"]%string).
  eexists. split; [|split; vm_compute; reflexivity]. cbn [map].
  eapply Permutation_trans; [apply perm_skip, perm_swap|]. apply perm_swap.
Qed.
Print Assumptions C130_coupling_refuted.

(** Then it couples the two inductors that it names, whichever comes first; it is an
    error if one of them is missing, or if they are the same. *)
Theorem C130_coupling : forall id l1 l2 s k prev, convert_units s = Ok k ->
  (forall v1 v2, l1 <> l2 -> inductor prev l1 v1 -> inductor prev l2 v2 ->
     parse_elem_inductor_coupling [id; l1; l2; s] prev = Ok (PK id l1 l2 k v1 v2)) /\
  ((forall n1 n2 v ic, ~ In (PL l1 n1 n2 v ic) prev) \/ (forall n1 n2 v ic, ~ In (PL l2 n1 n2 v ic) prev) \/ l1 = l2 ->
     parse_elem_inductor_coupling [id; l1; l2; s] prev = Err NetlistParseError).
Proof.
  intros id l1 l2 s k prev C. split.
  - intros v1 v2 NE D1 D2. unfold parse_elem_inductor_coupling. cbn [bindr]. rewrite C. cbn [bindr]. rewrite (find_ok _ _ _ _ _ NE D1 D2). reflexivity.
  - intros H. unfold parse_elem_inductor_coupling. cbn [bindr]. rewrite C. cbn [bindr].
    assert (K : fst (find_inductors l1 l2 prev) = None \/ snd (find_inductors l1 l2 prev) = None).
    { unfold find_inductors. destruct H as [H|[H| ->]].
      - left. assert (G : forall acc, fst acc = @None dec -> fst (fold_left (fun acc e => match e with
          | PL id _ _ v _ => if streqb l1 id then (Some v, snd acc) else if streqb l2 id then (fst acc, Some v) else acc
          | _ => acc end) prev acc) = None).
        { clear C. induction prev as [|e prev IH]; intros acc A; [exact A|]. cbn [fold_left]. apply IH; [intros n1 n2 v ic Q; apply (H n1 n2 v ic); right; exact Q|].
          destruct e; try exact A. destruct (streqb l1 id0) eqn:E; [apply streqb_true in E; subst; exfalso; eapply H; left; reflexivity|].
          destruct (streqb l2 id0); exact A. }
        apply G. reflexivity.
      - right. assert (G : forall acc, snd acc = @None dec -> snd (fold_left (fun acc e => match e with
          | PL id _ _ v _ => if streqb l1 id then (Some v, snd acc) else if streqb l2 id then (fst acc, Some v) else acc
          | _ => acc end) prev acc) = None).
        { clear C. induction prev as [|e prev IH]; intros acc A; [exact A|]. cbn [fold_left]. apply IH; [intros n1 n2 v ic Q; apply (H n1 n2 v ic); right; exact Q|].
          destruct e; try exact A. destruct (streqb l1 id0); [exact A|]. destruct (streqb l2 id0) eqn:E; [apply streqb_true in E; subst; exfalso; eapply H; left; reflexivity|]. exact A. }
        apply G. reflexivity.
      - right. assert (G : forall acc, snd acc = @None dec -> snd (fold_left (fun acc e => match e with
          | PL id _ _ v _ => if streqb l2 id then (Some v, snd acc) else if streqb l2 id then (fst acc, Some v) else acc
          | _ => acc end) prev acc) = None).
        { clear C. induction prev as [|e prev IH]; intros acc A; [exact A|]. cbn [fold_left]. apply IH.
          destruct e; try exact A. destruct (streqb l2 id0); exact A. }
        apply G. reflexivity. }
    destruct (find_inductors l1 l2 prev) as [[a|] [b|]]; simpl in K; destruct K; congruence || reflexivity.
Qed.
Print Assumptions C130_coupling.
Example C130_example :
  main_netlist_parser [] no_other (map lit ["l1 a 0 1u"; "l2 b 0 4u"; "k1 l2 l1 0.5"]%string) [] = Ok
    [PL (lit "l1") (lit "a") (lit "0") (1, -6)%Z None; PL (lit "l2") (lit "b") (lit "0") (4, -6)%Z None;
     PK (lit "k1") (lit "l2") (lit "l1") (5, -1)%Z (4, -6)%Z (1, -6)%Z].
Proof. vm_compute. reflexivity. Qed.

(** * C131 *)
(** How many words a line needs. *)
Definition needed (c : ascii) : nat :=
  match c with
  | "v"%char | "i"%char => 3
  | "r"%char | "c"%char | "l"%char | "k"%char | "d"%char => 4
  | "f"%char | "h"%char => 5
  | "e"%char | "g"%char | "s"%char | "m"%char => 6
  | _ => 0
  end.
(** A line with too few words, and a line with an unknown letter, is a
    NetlistParseError. *)
Theorem C131_reported : forall models other line prev c, begins c line ->
  length (split line) < needed c \/ ~ In c (list_ascii_of_string "cdefghiklmrsvxy") ->
  parse_line models other line prev = Err NetlistParseError.
Proof.
  intros models other line prev c [r EL] H. unfold parse_line. rewrite EL, <- EL. unfold parse_letter. cbv zeta.
  assert (SH : forall c0, c = c0 -> In c0 (list_ascii_of_string "cdefghiklmrsvxy") -> length (split line) < needed c0).
  { intros c0 -> I0. destruct H as [H|H]; [exact H|contradiction]. }
  repeat match goal with |- context [ascii_dec c ?x] => destruct (ascii_dec c x) as [E|_];
    [specialize (SH x E ltac:(simpl; tauto)); simpl in SH;
     try (destruct (split line) as [|a1 [|a2 [|a3 [|a4 [|a5 [|a6 ?]]]]]]; simpl in SH; try lia; reflexivity); lia|] end.
  reflexivity.
Qed.
Print Assumptions C131_reported.

(** Other mistakes surface as other exceptions, and the line is not reported. *)
Theorem C131_reported_refuted :
  parse_line [] no_other (lit "r1 a b 1kohm") [] = Err ValueError /\
  parse_line [] no_other (lit "l1 a b 1u ic=1 x") [] = Err IndexError /\
  parse_line [] no_other (lit "k1 l1 l2 0.5 x") [] = Err IndexError /\
  parse_line [(lit "dm", MDiode)] no_other (lit "d1 a b dm off=0") [] = Err TypeError /\
  parse_line [] no_other (lit "i1 a b type=am sa=1 oc=1 fm=1k fc=1meg") [] = Err IndexError.
Proof. repeat split; vm_compute; reflexivity. Qed.
Print Assumptions C131_reported_refuted.
Example C131_example : parse_line [] no_other (lit "q1 c b e npn") [] = Err NetlistParseError /\ parse_line [] no_other (lit "r1 a b") [] = Err NetlistParseError.
Proof. split; vm_compute; reflexivity. Qed.
