(** Facts about the DC solver driver. *)
From Coq Require Import String Ascii List Bool Arith Lia.
From Verif Require Import Base DcSolve.
Import ListNotations.

Local Arguments Nat.sub : simpl never.
Local Arguments Nat.mul : simpl never.

Definition some_method (o : dopts) : Prop := o_std o || o_gmin o || o_src o = true.

(** The gmin list is long enough for its ten steps. *)
Definition gmin_list_ok (o : dopts) : Prop := o_gmin o = true -> 10 <= o_ng o.

Definition nb (b : bool) : nat := if b then 1 else 0.

(** Upper bound of the Newton calls still to come. *)
Definition left (o : dopts) (m : meths) : nat :=
  1 + nb (o_std o && negb (std_failed m))
    + nb (o_gmin o && negb (g_failed m)) * (10 - g_idx m)
    + nb (o_src o && negb (s_failed m)) * (10 - s_idx m).

(** Which method a status is in: the first one which is allowed and has not
    failed, or none. *)
Definition dinv (o : dopts) (m : meths) (stale : option req) : Prop :=
  let a := o_std o && negb (std_failed m) in
  let b := o_gmin o && negb (g_failed m) in
  let c := o_src o && negb (s_failed m) in
  std_en m = a /\ g_en m = negb a && b /\ s_en m = negb a && negb b && c /\
  g_idx m <= 9 /\ s_idx m <= 9 /\
  (a || b || c = false -> exists r, stale = Some r).

Lemma left_pos : forall o m, 1 <= left o m.
Proof. intros. unfold left. rewrite <- !Nat.add_assoc. apply Nat.le_add_r. Qed.

Ltac dm m := destruct m as [e1 f1 e2 f2 i2 e3 f3 i3].
Ltac dopt o := destruct o as [os og osr ng].

Lemma dinv_start : forall o, some_method o ->
  dinv o (set_next_solve_method o get_solve_methods) None.
Proof.
  intros o H. dopt o. unfold some_method in H. unfold dinv; simpl in *.
  destruct os, og, osr; simpl in *; repeat split; try lia; try discriminate.
Qed.

Lemma dinv_next : forall o m st r, dinv o m st -> more_solve_methods_available o m = true ->
  dinv o (set_next_solve_method o m) (Some r) /\
  left o (set_next_solve_method o m) < left o m.
Proof.
  intros o m st r H M. dopt o. dm m. unfold dinv in *.
  unfold more_solve_methods_available in M. simpl in *.
  destruct H as (A & B & C & D & F & G).
  unfold set_next_solve_method, disable_current, enable_next, left. simpl in *.
  destruct os, og, osr, f1, f2, f3; simpl in *; subst; simpl in *; try discriminate;
    (split; [repeat split; try lia; eauto | lia]).
Qed.

Lemma dinv_advance : forall o m st m' r, dinv o m st -> advance m = Some m' ->
  dinv o m' (Some r) /\ left o m' < left o m.
Proof.
  intros o m st m' r H M. dopt o. dm m. unfold dinv in *. unfold advance in M. simpl in *.
  destruct H as (A & B & C & D & F & G). unfold left; simpl.
  destruct os, og, osr, f1, f2, f3; simpl in *; subst; simpl in *; try discriminate;
  (repeat match type of M with
   | context [(?a =? 9)] => destruct (Nat.eqb_spec a 9); simpl in M
   end; try discriminate; injection M as <-; simpl;
   split; [repeat split; try lia; eauto | lia]).
Qed.

Lemma current_ok : forall o m st, gmin_list_ok o -> dinv o m st ->
  exists r, current_req o m st = Ok r.
Proof.
  intros o m st GO H. dopt o. dm m. unfold dinv, gmin_list_ok in *. simpl in *.
  destruct H as (A & B & C & D & F & G). unfold current_req; simpl.
  destruct os, og, osr, f1, f2, f3; simpl in *; subst; simpl in *; eauto;
  try (destruct (G eq_refl) as [r ->]; eauto);
  try (destruct (Nat.ltb_spec i2 ng); [eauto | specialize (GO eq_refl); lia]);
  try (destruct (Nat.ltb_spec i3 10); [eauto | lia]).
Qed.

Section Loop.
  Context {X : Type}.
  Variable o : dopts.
  Variable newton : nat -> req -> X -> nout X.
  Hypothesis total : forall i r x e, newton i r x <> NOther e.

  (** The log of a failed run: every allowed method has a failed call. *)
  Definition kind (r : req) : nat := match r with RStd => 0 | RGmin _ => 1 | RSrc _ => 2 end.

  Definition has_failed (log : list call) (k : nat) : Prop :=
    exists r, kind r = k /\ In (r, false) log.

  Definition linv (m : meths) (log : list call) : Prop :=
    (std_failed m = true -> has_failed log 0) /\
    (g_failed m = true -> has_failed log 1) /\
    (s_failed m = true -> has_failed log 2).

  Lemma has_failed_app : forall log c k, has_failed log k -> has_failed (log ++ [c]) k.
  Proof. intros log c k (r & A & B). exists r. split; auto. apply in_or_app; auto. Qed.

  Lemma linv_app : forall m log c, linv m log -> linv m (log ++ [c]).
  Proof. intros m log c (A & B & C). repeat split; intros; apply has_failed_app; auto. Qed.

  Lemma linv_advance : forall m m' log, advance m = Some m' -> linv m log -> linv m' log.
  Proof.
    intros m m' log H. dm m. unfold advance in H. simpl in H.
    destruct (e3 && negb (i3 =? 9)); [injection H as <-; auto|].
    destruct (e2 && negb (i2 =? 9)); [injection H as <-; auto|discriminate].
  Qed.

  Lemma linv_next : forall m st log r, dinv o m st -> current_req o m st = Ok r -> linv m log ->
    linv (set_next_solve_method o m) (log ++ [(r, false)]).
  Proof.
    intros m st log r H R L. apply (linv_app _ _ (r, false)) in L.
    assert (I : In (r, false) (log ++ [(r, false)])) by (apply in_or_app; right; left; auto).
    destruct o as [os og osr ng]. dm m. unfold dinv in H. unfold linv in *. simpl in *.
    destruct H as (A & B & C & D & F & G).
    unfold current_req in R. simpl in R. destruct L as (L1 & L2 & L3).
    unfold set_next_solve_method, disable_current, enable_next.
    destruct os, og, osr, f1, f2, f3; simpl in *; subst; simpl in *;
    repeat match type of R with
      | context [(?a <? ?b)] => destruct (a <? b); simpl in R; try discriminate
      end;
    (repeat split; intros Z; auto; try discriminate);
    injection R as <-; eexists; (split; [|eassumption]); reflexivity.
  Qed.

  Lemma dc_loop_spec : forall fuel m st x tot log,
    gmin_list_ok o -> dinv o m st -> linv m log -> left o m <= fuel ->
    exists x' err conv tot' log',
      dc_loop o newton fuel m st x tot log = DRet x' err conv tot' (log ++ log') /\
      1 <= length log' <= left o m /\
      (conv = false ->
         x' = None /\
         (o_std o = true -> has_failed (log ++ log') 0) /\
         (o_gmin o = true -> has_failed (log ++ log') 1) /\
         (o_src o = true -> has_failed (log ++ log') 2)) /\
      (conv = true -> exists v e r log'', x' = Some v /\ err = Some e /\
         log' = log'' ++ [(r, true)]).
  Proof.
    induction fuel as [|fuel IH]; intros m st x tot log GO I L F;
      [pose proof (left_pos o m); lia|].
    simpl. destruct (current_ok o m st GO I) as [r R]. rewrite R.
    set (fl := fun x' tot' => if more_solve_methods_available o m
      then dc_loop o newton fuel (set_next_solve_method o m) (Some r) x' tot' (log ++ [(r, false)])
      else DRet None None false tot' (log ++ [(r, false)])).
    assert (FS : forall x0 t0, exists x' err conv tot' log',
      fl x0 t0 = DRet x' err conv tot' (log ++ log') /\
      1 <= length log' <= left o m /\
      (conv = false ->
         x' = None /\
         (o_std o = true -> has_failed (log ++ log') 0) /\
         (o_gmin o = true -> has_failed (log ++ log') 1) /\
         (o_src o = true -> has_failed (log ++ log') 2)) /\
      (conv = true -> exists v e r log'', x' = Some v /\ err = Some e /\
         log' = log'' ++ [(r, true)])).
    { intros x0 t0. unfold fl. destruct (more_solve_methods_available o m) eqn:M.
      - destruct (dinv_next o m st r I M) as [I' D].
        destruct (IH (set_next_solve_method o m) (Some r) x0 t0 (log ++ [(r, false)]) GO I'
          (linv_next m st log r I R L) ltac:(lia)) as (x' & err & conv & tot' & log' & E & B & C1 & C2).
        exists x', err, conv, tot', ((r, false) :: log').
        rewrite <- app_assoc in E, C1. simpl in E, C1. split; [exact E|].
        simpl. split; [lia|]. split; auto.
        intros H. destruct (C2 H) as (v & e & r' & l'' & -> & -> & ->).
        exists v, e, r', ((r, false) :: l''). auto.
      - exists None, None, false, t0, [(r, false)]. split; auto.
        split; [simpl; pose proof (left_pos o m); lia|]. split; [|discriminate].
        intros _. split; auto.
        apply (linv_app _ _ (r, false)) in L. destruct L as (L1 & L2 & L3).
        unfold more_solve_methods_available in M. apply negb_false_iff in M.
        apply andb_true_iff in M. destruct M as [M M3]. apply andb_true_iff in M.
        destruct M as [M1 M2]. rewrite orb_true_iff, negb_true_iff in M1, M2, M3.
        repeat split; intros Z; [destruct M1|destruct M2|destruct M3]; auto; congruence. }
    specialize (total (length log) r x).
    destruct (newton (length log) r x) as [x' err [|] it| |e]; [| | |destruct (total e); reflexivity].
    - destruct (advance m) as [m'|] eqn:A.
      + destruct (dinv_advance o m st m' r I A) as [I' D].
        destruct (IH m' (Some r) x' (tot + it) (log ++ [(r, true)]) GO I'
          (linv_advance m m' _ A (linv_app _ _ _ L)) ltac:(lia))
          as (x'' & err' & conv & tot' & log' & E & B & C1 & C2).
        exists x'', err', conv, tot', ((r, true) :: log').
        rewrite <- app_assoc in E, C1. simpl in E, C1. split; [exact E|].
        simpl. split; [lia|]. split; auto.
        intros H. destruct (C2 H) as (v & e & r' & l'' & -> & -> & ->).
        exists v, e, r', ((r, true) :: l''). auto.
      + exists (Some x'), (Some err), true, (tot + it), [(r, true)]. split; auto.
        split; [simpl; pose proof (left_pos o m); lia|]. split; [discriminate|].
        intros _. exists x', err, r, []. auto.
    - apply FS.
    - apply FS.
  Qed.
End Loop.

Lemma left_start : forall o, some_method o ->
  left o (set_next_solve_method o get_solve_methods) =
    1 + nb (o_std o) + nb (o_gmin o) * 10 + nb (o_src o) * 10.
Proof.
  intros o H. dopt o. unfold some_method in H. simpl in *.
  destruct os, og, osr; simpl in *; try reflexivity; discriminate.
Qed.

(** The value returned with "converged" was computed by the last call of the
    log, on the system that call was asked for. *)
Section Sound.
  Context {X : Type}.
  Variable o : dopts.
  Variable newton : nat -> req -> X -> nout X.

  Lemma dc_loop_last : forall fuel m st x tot log x' err tot' log',
    dc_loop o newton fuel m st x tot log = DRet x' err true tot' log' ->
    exists i r y v e it pre, x' = Some v /\ err = Some e /\
      newton i r y = NRet v e true it /\ log' = pre ++ [(r, true)] /\ i = length pre.
  Proof.
    induction fuel as [|fuel IH]; intros m st x tot log x' err tot' log' H; [discriminate|].
    simpl in H. destruct (current_req o m st) as [r|]; [|discriminate].
    assert (FS : forall x0 t0, (if more_solve_methods_available o m
      then dc_loop o newton fuel (set_next_solve_method o m) (Some r) x0 t0 (log ++ [(r, false)])
      else DRet None None false t0 (log ++ [(r, false)])) = DRet x' err true tot' log' ->
      exists i r y v e it pre, x' = Some v /\ err = Some e /\
      newton i r y = NRet v e true it /\ log' = pre ++ [(r, true)] /\ i = length pre).
    { intros x0 t0 Q. destruct (more_solve_methods_available o m); [eauto|discriminate]. }
    destruct (newton (length log) r x) as [y err' [|] it| |e] eqn:N; [| | |discriminate]; eauto.
    destruct (advance m); eauto.
    injection H as <- <- <- <-. exists (length log), r, x, y, err', it, log. auto 10.
  Qed.
End Sound.

Lemma dc_loop_ext : forall (X : Type) o (f g : nat -> req -> X -> nout X),
  (forall i r x, f i r x = g i r x) ->
  forall fuel m st x tot log, dc_loop o f fuel m st x tot log = dc_loop o g fuel m st x tot log.
Proof.
  intros X o f g E. induction fuel as [|fuel IH]; intros; [reflexivity|].
  cbn [dc_loop]. destruct (current_req o m st) as [r|]; [|reflexivity]. rewrite E.
  destruct (g (length log) r x) as [x' err [|] it| |e]; [| | |reflexivity].
  - destruct (advance m); auto.
  - destruct (more_solve_methods_available o m); auto.
  - destruct (more_solve_methods_available o m); auto.
Qed.

(** The run that ends at the first call of the standard method. *)
Lemma dc_solve_first : forall (X : Type) o (f : nat -> req -> X -> nout X) fuel x y e it,
  o_std o = true -> f 0 RStd x = NRet y e true it ->
  dc_solve o f (S fuel) x = DRet (Some y) (Some e) true it [(RStd, true)].
Proof.
  intros X o f fuel x y e it OS F. unfold dc_solve.
  assert (M0 : set_next_solve_method o get_solve_methods = mkMeths true false false false 0 false false 0)
    by (unfold set_next_solve_method, enable_next; simpl; rewrite OS; reflexivity).
  rewrite M0. simpl. rewrite F. reflexivity.
Qed.

Lemma op_decide_inv : forall (X : Type) (s1 : dres X) (s2 : X -> dres X) y flag,
  op_decide s1 s2 = Ok (Some (y, flag)) ->
  exists x1 e t c, s1 = DRet (Some x1) e true t c /\
    ((flag = true /\ exists e' t' c', s2 x1 = DRet (Some y) e' true t' c') \/
     (flag = false /\ y = x1 /\ forall x' e' t' c', s2 x1 <> DRet (Some x') e' true t' c')).
Proof.
  intros X s1 s2 y flag H. unfold op_decide in H.
  destruct s1 as [[x1|] e [|] t c|]; try discriminate.
  exists x1, e, t, c. split; [reflexivity|].
  destruct (s2 x1) as [[x2|] e2 [|] t2 c2|] eqn:E; try discriminate; injection H as <- <-;
    [left; split; [reflexivity|]; exists e2, t2, c2; reflexivity | | |];
    right; repeat split; intros; discriminate.
Qed.

Lemma op_decide_both : forall (X : Type) (s1 : dres X) (s2 : X -> dres X) x1 e t c y e' t' c',
  s1 = DRet (Some x1) e true t c -> s2 x1 = DRet (Some y) e' true t' c' ->
  op_decide s1 s2 = Ok (Some (y, true)).
Proof. intros X s1 s2 x1 e t c y e' t' c' -> E. unfold op_decide. rewrite E. reflexivity. Qed.
