(** Property theorems about the solution objects (C36, C39, C40, C41, C84, C85). *)
From Coq Require Import Ascii String Reals List Bool Arith Lia Lra DecimalString DecimalNat.
From Verif Require Import Base BaseFacts Str Csv PropsCsv Rsum Newton NewtonFacts Circuit Mna MnaSpec DynFacts Results.
Import ListNotations.
Open Scope nat_scope.

(** * Specification *)

(** Names without blanks, tabs or line breaks. *)
Definition plain (s : str) : Prop := Forall (fun c => is_ws c = false) s.

(** Names that differ by more than case. *)
Definition distinct (l : list str) : Prop := NoDup (map slower l).

(** [get] finds the voltage of the node called [n] under the name Vn and the current
    of the voltage-defined element [id] under I(id), in any case; [val k] is the
    unknown number [k].  Any other name, [extra] apart, raises KeyError. *)
Definition finds {T} (get : str -> res T) (extra nodes ids : list str) (val : nat -> T) : Prop :=
  (forall k n name, nth_error nodes k = Some n -> slower name = slower (lit "V" ++ n) -> get name = Ok (val k)) /\
  (forall j id name, nth_error ids j = Some id -> slower name = slower (lit "I(" ++ id ++ lit ")") ->
     get name = Ok (val (length nodes + j))) /\
  (forall name,
     (forall s, In s extra -> slower s <> slower name) ->
     (forall n, In n nodes -> slower (lit "V" ++ n) <> slower name) ->
     (forall id, In id ids -> slower (lit "I(" ++ id ++ lit ")") <> slower name) -> get name = Err KeyError).

(** * Lemmas *)
Lemma slower_supper : forall s, slower (supper s) = slower s.
Proof. intros s. unfold slower, supper. rewrite map_map. apply map_ext. apply lower_upper_ascii. Qed.
Lemma supper_slower : forall s, supper (slower s) = supper s.
Proof. intros s. unfold slower, supper. rewrite map_map. apply map_ext. apply upper_lower_ascii. Qed.
Lemma case_iff : forall a b, supper a = supper b <-> slower a = slower b.
Proof.
  intros a b. split; intros H.
  - rewrite <- (slower_supper a), <- (slower_supper b), H. reflexivity.
  - rewrite <- (supper_slower a), <- (supper_slower b), H. reflexivity.
Qed.
Lemma slower_app : forall a b, slower (a ++ b) = slower a ++ slower b.
Proof. intros. apply map_app. Qed.
Lemma slower_idem : forall s, slower (slower s) = slower s.
Proof. intros s. rewrite <- (slower_supper (slower s)), supper_slower, slower_supper. reflexivity. Qed.

(** The lower-case names. *)
Definition lv (n : str) : str := "v"%char :: slower n.
Definition li (id : str) : str := lit "i(" ++ slower id ++ lit ")".
Definition lnames (nodes ids : list str) : list str := map lv nodes ++ map li ids.

Lemma lower_vname : forall n, slower (vname n) = lv n.
Proof. reflexivity. Qed.
Lemma lower_iname : forall id, slower (iname id) = li id.
Proof. intros id. unfold iname, li. rewrite !slower_app, slower_supper. reflexivity. Qed.
Lemma lower_V : forall n, slower (lit "V" ++ n) = lv n.
Proof. reflexivity. Qed.
Lemma lower_I : forall id, slower (lit "I(" ++ id ++ lit ")") = li id.
Proof. intros id. rewrite !slower_app. reflexivity. Qed.
Lemma lower_op_vars : forall nodes ids, map slower (op_vars nodes ids) = lnames nodes ids.
Proof.
  intros. unfold op_vars, lnames. rewrite map_app, !map_map. f_equal; apply map_ext; intros a.
  - rewrite slower_supper. reflexivity.
  - rewrite slower_supper. apply lower_iname.
Qed.
Lemma lower_raw_vars : forall nodes ids, map slower (map vname nodes ++ map iname ids) = lnames nodes ids.
Proof.
  intros. unfold lnames. rewrite map_app, !map_map. f_equal. apply map_ext. apply lower_iname.
Qed.

Lemma NoDup_app_intro : forall A (a b : list A), NoDup a -> NoDup b -> (forall x, In x a -> ~ In x b) -> NoDup (a ++ b).
Proof.
  induction a as [|x a IH]; intros b Ha Hb D; [exact Hb|]. simpl. inversion Ha; subst. constructor.
  - intros K. apply in_app_iff in K. destruct K as [K|K]; [contradiction|]. apply (D x); [left; reflexivity|exact K].
  - apply IH; auto. intros y Hy. apply D. right. exact Hy.
Qed.
Lemma li_inj : forall a b, li a = li b -> slower a = slower b.
Proof.
  intros a b H. unfold li in H. apply app_inv_head in H. apply app_inv_tail in H. exact H.
Qed.
Lemma NoDup_map_key : forall A B C (f : A -> B) (g : A -> C) l, NoDup (map f l) -> (forall a b, g a = g b -> f a = f b) -> NoDup (map g l).
Proof.
  intros A B C f g l. induction l as [|a l IH]; intros N H; simpl; constructor; inversion N; subst.
  - intros K. apply in_map_iff in K. destruct K as (b & E & K). apply H in E. apply H2. rewrite <- E. apply in_map. exact K.
  - apply IH; auto.
Qed.
Lemma NoDup_lnames : forall nodes ids, distinct nodes -> distinct ids -> NoDup (lnames nodes ids).
Proof.
  intros nodes ids N I. apply NoDup_app_intro.
  - apply (NoDup_map_key _ _ _ slower); auto. intros a b E. injection E as E. exact E.
  - apply (NoDup_map_key _ _ _ slower); auto. intros a b E. apply li_inj. exact E.
  - intros x H K. apply in_map_iff in H. apply in_map_iff in K. destruct H as (a & <- & _). destruct K as (b & E & _). discriminate.
Qed.

(** ** Blanks *)
Lemma ws_upper : forall c, is_ws (upper_ascii c) = is_ws c.
Proof. intros [[] [] [] [] [] [] [] []]; reflexivity. Qed.
Lemma plain_upper : forall s, plain s -> plain (supper s).
Proof. intros s H. unfold plain, supper. apply Forall_map. eapply Forall_impl; [|exact H]. intros c Hc. rewrite ws_upper. exact Hc. Qed.
Lemma plain_app : forall a b, plain a -> plain b -> plain (a ++ b).
Proof. intros a b A B. apply Forall_app. split; assumption. Qed.
Lemma plain_notin : forall s c, plain s -> is_ws c = true -> ~ In c s.
Proof. intros s c P W I. unfold plain in P. rewrite Forall_forall in P. rewrite (P c I) in W. discriminate. Qed.
Lemma printable_plain : forall headers, headers <> [] -> Forall (fun h => plain h /\ h <> []) headers -> printable headers.
Proof.
  intros headers NE F. split.
  - eapply Forall_impl; [|exact F]. intros h [P _]. repeat split; apply plain_notin; auto.
  - destruct (exists_last NE) as (hs & h & ->). apply Forall_app in F. destruct F as [_ F]. inversion F as [|? ? [P N] _]; subst.
    destruct (exists_last N) as (w & c & ->). exists hs, w, c. split; [reflexivity|].
    apply Forall_app in P. destruct P as [_ P]. inversion P; assumption.
Qed.
Ltac pl := repeat (apply plain_app || apply plain_upper || (apply Forall_cons; [reflexivity|]) || assumption || apply Forall_nil).
Lemma plain_vname : forall n, plain n -> plain (vname n) /\ vname n <> [].
Proof. intros n P. split; [|discriminate]. unfold vname. constructor; [reflexivity|exact P]. Qed.
Lemma plain_iname : forall id, plain id -> plain (iname id) /\ iname id <> [].
Proof. intros id P. split; [|discriminate]. unfold iname. pl. Qed.
Lemma plain_raw : forall nodes ids, Forall plain nodes -> Forall plain ids ->
  Forall (fun h => plain h /\ h <> []) (map vname nodes ++ map iname ids).
Proof.
  intros nodes ids N I. apply Forall_app. split; apply Forall_map.
  - eapply Forall_impl; [|exact N]. apply plain_vname.
  - eapply Forall_impl; [|exact I]. apply plain_iname.
Qed.
Lemma plain_op : forall nodes ids, Forall plain nodes -> Forall plain ids ->
  Forall (fun h => plain h /\ h <> []) (op_vars nodes ids).
Proof.
  intros nodes ids N I. apply Forall_app. split; apply Forall_map.
  - eapply Forall_impl; [|exact N]. intros n P. split; [|discriminate]. apply plain_upper. apply plain_vname. exact P.
  - eapply Forall_impl; [|exact I]. intros n P. split; [|discriminate]. apply plain_upper. apply plain_iname. exact P.
Qed.

(** ** One header *)
Lemma nth_lnames_v : forall nodes ids k n, nth_error nodes k = Some n -> nth_error (lnames nodes ids) k = Some (lv n).
Proof.
  intros nodes ids k n H. unfold lnames. rewrite nth_error_app1.
  - apply map_nth_error. exact H.
  - rewrite map_length. apply nth_error_Some. congruence.
Qed.
Lemma nth_lnames_i : forall nodes ids j id, nth_error ids j = Some id -> nth_error (lnames nodes ids) (length nodes + j) = Some (li id).
Proof.
  intros nodes ids j id H. unfold lnames. rewrite nth_error_app2; rewrite map_length; [|lia].
  replace (length nodes + j - length nodes) with j by lia. apply map_nth_error. exact H.
Qed.
Lemma selects_lower : forall headers name k, nth_error (map slower headers) k = Some (slower name) -> selects headers name k.
Proof.
  intros headers name k H. rewrite nth_error_map in H. destruct (nth_error headers k) as [h|] eqn:E; [|discriminate].
  exists h. split; [exact E|]. injection H as H. exact H.
Qed.
Lemma lnames_missing : forall nodes ids name,
  (forall n, In n nodes -> slower (lit "V" ++ n) <> slower name) ->
  (forall id, In id ids -> slower (lit "I(" ++ id ++ lit ")") <> slower name) ->
  ~ In (slower name) (lnames nodes ids).
Proof.
  intros nodes ids name V I K. unfold lnames in K. apply in_app_iff in K. destruct K as [K|K]; apply in_map_iff in K; destruct K as (a & E & K).
  - apply (V a K). exact E.
  - apply (I a K). rewrite lower_I. exact E.
Qed.

Lemma sol_get_ok : forall V (d : V) headers b bs name k, printable headers -> NoDup (map slower headers) ->
  Forall (block headers) (b :: bs) -> nth_error (map slower headers) k = Some (slower name) ->
  sol_getitem d (written d headers b bs) name = Ok (samples (b :: bs) k).
Proof.
  intros V d headers b bs name k P N B H. unfold sol_getitem.
  destruct (C37_round_trip V d headers b bs P N B) as [R _].
  rewrite (R [name] [k]); [|discriminate|constructor; [apply selects_lower; exact H|constructor]].
  simpl map. cbn [concat]. rewrite app_nil_r. reflexivity.
Qed.
Lemma sol_get_missing : forall V (d : V) headers b bs name, printable headers ->
  Forall (block headers) (b :: bs) -> ~ In (slower name) (map slower headers) ->
  sol_getitem d (written d headers b bs) name = Err KeyError.
Proof.
  intros V d headers b bs name P B H. unfold sol_getitem.
  rewrite (C37_missing_header V d headers b bs [name] name None 0 P B); [reflexivity|left; reflexivity|].
  intros h Hh E. apply H. rewrite <- E. apply in_map. exact Hh.
Qed.

(** * C36 *)

(** Operating point: the k-th unknown, the nodes first. *)
Theorem C36_op : forall V (d : V) nodes ids x, distinct nodes -> distinct ids -> length x = length nodes + length ids ->
  finds (op_getitem d (op_vars nodes ids) x) [] nodes ids (fun k => nth k x d).
Proof.
  intros V d nodes ids x N I L.
  assert (ND := NoDup_lnames nodes ids N I).
  assert (G : forall k name, nth_error (lnames nodes ids) k = Some (slower name) -> op_getitem d (op_vars nodes ids) x name = Ok (nth k x d)).
  { intros k name H. rewrite <- lower_op_vars in H. unfold op_getitem.
    assert (S0 := selects_lower _ _ _ H).
    assert (M : upper_mem (op_vars nodes ids) name = true).
    { destruct S0 as (h & E1 & E2). apply existsb_exists. exists h. split; [eapply nth_error_In; eauto|].
      apply case_iff in E2. rewrite E2. destruct (streqb_spec (supper name) (supper name)); congruence. }
    rewrite M, (find_header_some _ _ k 0); [|rewrite lower_op_vars; exact ND|exact S0]. simpl.
    assert (K : k < length x).
    { apply selects_lt in S0. unfold op_vars in S0. rewrite app_length, !map_length in S0. lia. }
    destruct (nth_error x k) as [v|] eqn:E; [|apply nth_error_None in E; lia].
    rewrite (nth_error_nth x k d E). reflexivity. }
  split; [|split].
  - intros k n name H E. apply G. rewrite E, lower_V. apply nth_lnames_v. exact H.
  - intros j id name H E. apply G. rewrite E, lower_I. apply nth_lnames_i. exact H.
  - intros name _ Hv Hi. unfold op_getitem.
    assert (M : upper_mem (op_vars nodes ids) name = false).
    { unfold upper_mem. destruct (existsb _ _) eqn:E; [|reflexivity]. exfalso. apply existsb_exists in E. destruct E as (h & Hh & E).
      destruct (streqb_spec (supper h) (supper name)) as [E'|]; [|discriminate]. apply case_iff in E'.
      apply (lnames_missing nodes ids name Hv Hi). rewrite <- lower_op_vars, <- E'. apply in_map. exact Hh. }
    rewrite M. reflexivity.
Qed.
Print Assumptions C36_op.

Lemma file_finds : forall V (d : V) hd rest nodes ids b bs, printable (hd :: rest) -> NoDup (map slower (hd :: rest)) ->
  map slower rest = lnames nodes ids -> Forall (block (hd :: rest)) (b :: bs) ->
  finds (sol_getitem d (written d (hd :: rest) b bs)) [hd] nodes ids (fun k => samples (b :: bs) (S k)).
Proof.
  intros V d hd rest nodes ids b bs P N E B. split; [|split].
  - intros k n name H Hn. apply sol_get_ok; auto. simpl. rewrite E, Hn, lower_V. apply nth_lnames_v. exact H.
  - intros j id name H Hn. apply sol_get_ok; auto. simpl. rewrite E, Hn, lower_I. apply nth_lnames_i. exact H.
  - intros name Hx Hv Hi. apply sol_get_missing; auto. simpl. intros [K|K].
    + apply (Hx hd); [left; reflexivity|exact K].
    + rewrite E in K. apply (lnames_missing nodes ids name Hv Hi K).
Qed.

(** Transient: the unknowns after the time column, whose name is T. *)
Theorem C36_tran : forall V (d : V) nodes ids b bs, distinct nodes -> distinct ids -> Forall plain nodes -> Forall plain ids ->
  Forall (block (tran_vars nodes ids)) (b :: bs) ->
  let file := written d (tran_vars nodes ids) b bs in
  finds (sol_getitem d file) [lit "T"] nodes ids (fun k => samples (b :: bs) (S k)) /\
  (forall name, slower name = lit "t" -> sol_getitem d file name = Ok (samples (b :: bs) 0)).
Proof.
  intros V d nodes ids b bs N I PN PI B file.
  assert (P : printable (tran_vars nodes ids)).
  { apply printable_plain; [discriminate|]. constructor; [split; [pl|discriminate]|apply plain_op; assumption]. }
  assert (ND : NoDup (map slower (tran_vars nodes ids))).
  { simpl. rewrite lower_op_vars. constructor; [|apply NoDup_lnames; assumption]. unfold lnames. intros K.
    apply in_app_iff in K. destruct K as [K|K]; apply in_map_iff in K; destruct K as (a & E & _); discriminate. }
  split.
  - apply file_finds; auto. apply lower_op_vars.
  - intros name E. apply sol_get_ok; auto. rewrite E. reflexivity.
Qed.
Print Assumptions C36_tran.

Theorem C36_pss : forall V (d : V) nodes ids b bs, distinct nodes -> distinct ids -> Forall plain nodes -> Forall plain ids ->
  Forall (block (pss_vars nodes ids)) (b :: bs) ->
  let file := written d (pss_vars nodes ids) b bs in
  finds (sol_getitem d file) [lit "T"] nodes ids (fun k => samples (b :: bs) (S k)) /\
  (forall name, slower name = lit "t" -> sol_getitem d file name = Ok (samples (b :: bs) 0)).
Proof.
  intros V d nodes ids b bs N I PN PI B file.
  assert (P : printable (pss_vars nodes ids)).
  { apply printable_plain; [discriminate|]. constructor; [split; [pl|discriminate]|apply plain_raw; assumption]. }
  assert (ND : NoDup (map slower (pss_vars nodes ids))).
  { unfold pss_vars. cbn [map]. rewrite lower_raw_vars. constructor; [|apply NoDup_lnames; assumption]. unfold lnames. intros K.
    apply in_app_iff in K. destruct K as [K|K]; apply in_map_iff in K; destruct K as (a & E & _); discriminate. }
  split.
  - apply file_finds; auto. apply lower_raw_vars.
  - intros name E. apply sol_get_ok; auto. rewrite E. reflexivity.
Qed.
Print Assumptions C36_pss.

(** DC sweep: the swept source must not be called like a node voltage. *)
Theorem C36_dc : forall V (d : V) sweepvar nodes ids b bs, distinct nodes -> distinct ids ->
  plain sweepvar -> sweepvar <> [] -> Forall plain nodes -> Forall plain ids ->
  (forall n, In n nodes -> slower sweepvar <> slower (lit "V" ++ n)) ->
  (forall id, In id ids -> slower sweepvar <> slower (lit "I(" ++ id ++ lit ")")) ->
  Forall (block (dc_vars sweepvar nodes ids)) (b :: bs) ->
  let file := written d (dc_vars sweepvar nodes ids) b bs in
  finds (sol_getitem d file) [sweepvar] nodes ids (fun k => samples (b :: bs) (S k)) /\
  (forall name, slower name = slower sweepvar -> sol_getitem d file name = Ok (samples (b :: bs) 0)).
Proof.
  intros V d sweepvar nodes ids b bs N I PS NS PN PI DN DI B file.
  assert (P : printable (dc_vars sweepvar nodes ids)).
  { apply printable_plain; [discriminate|]. constructor; [split; assumption|apply plain_raw; assumption]. }
  assert (ND : NoDup (map slower (dc_vars sweepvar nodes ids))).
  { unfold dc_vars. cbn [map]. rewrite lower_raw_vars. constructor; [|apply NoDup_lnames; assumption].
    apply lnames_missing.
    - intros n Hn E. apply (DN n Hn). symmetry. exact E.
    - intros n Hn E. apply (DI n Hn). symmetry. exact E. }
  split.
  - apply file_finds; auto. apply lower_raw_vars.
  - intros name E. apply sol_get_ok; auto. rewrite E. reflexivity.
Qed.
Print Assumptions C36_dc.

(** AC: magnitude and phase of the k-th unknown are the columns 2k+1 and 2k+2. *)
Lemma nth_pairs : forall A B (g h : A -> B) l k a, nth_error l k = Some a ->
  nth_error (flat_map (fun w => [g w; h w]) l) (2 * k) = Some (g a) /\
  nth_error (flat_map (fun w => [g w; h w]) l) (2 * k + 1) = Some (h a).
Proof.
  intros A B g h l. induction l as [|x l IH]; intros k a H; [destruct k; discriminate|]. destruct k as [|k].
  - injection H as ->. split; reflexivity.
  - destruct (IH k a H) as [E1 E2]. replace (2 * S k) with (S (S (2 * k))) by lia. simpl app. split; [exact E1|exact E2].
Qed.
Definition la (w : str) : str := lit "|" ++ w ++ lit "|".
Definition lp (w : str) : str := lit "arg(" ++ w ++ lit ")".
Lemma lower_ac : forall l, map slower (flat_map (fun v => [abs_head v; arg_head v]) l) =
  flat_map (fun w => [la w; lp w]) (map slower l).
Proof.
  induction l as [|v l IH]; [reflexivity|]. cbn [flat_map map app]. rewrite IH. unfold abs_head, arg_head, la, lp.
  rewrite !slower_app. reflexivity.
Qed.
Lemma la_inj : forall a b, la a = la b -> a = b.
Proof. intros a b H. unfold la in H. apply app_inv_head in H. apply app_inv_tail in H. exact H. Qed.
Lemma lp_inj : forall a b, lp a = lp b -> a = b.
Proof. intros a b H. unfold lp in H. apply app_inv_head in H. apply app_inv_tail in H. exact H. Qed.
Lemma in_pairs : forall x l, In x (flat_map (fun w => [la w; lp w]) l) <-> exists w, In w l /\ (x = la w \/ x = lp w).
Proof.
  intros x l. rewrite in_flat_map. split; intros (w & H & K); exists w; (split; [exact H|]).
  - destruct K as [K|[K|[]]]; auto.
  - destruct K as [K|K]; subst x; [left|right; left]; reflexivity.
Qed.
Lemma NoDup_pairs : forall l, NoDup l -> NoDup (flat_map (fun w => [la w; lp w]) l).
Proof.
  induction 1 as [|w l NI N IH]; [constructor|]. cbn [flat_map app]. constructor; [|constructor].
  - intros [K|K]; [discriminate|]. apply in_pairs in K. destruct K as (v & H & [K|K]); [|discriminate].
    apply la_inj in K. subst. contradiction.
  - intros K. apply in_pairs in K. destruct K as (v & H & [K|K]); [discriminate|]. apply lp_inj in K. subst. contradiction.
  - exact IH.
Qed.
Lemma lower_abs : forall v, slower (abs_head v) = la (slower v).
Proof. intros v. unfold abs_head, la. rewrite !slower_app. reflexivity. Qed.
Lemma lower_arg : forall v, slower (arg_head v) = lp (slower v).
Proof. intros v. unfold arg_head, lp. rewrite !slower_app. reflexivity. Qed.

Theorem C36_ac : forall V (d : V) nodes ids b bs, distinct nodes -> distinct ids -> Forall plain nodes -> Forall plain ids ->
  Forall (block (ac_headers nodes ids)) (b :: bs) ->
  let file := written d (ac_headers nodes ids) b bs in
  finds (ac_getitem d file) [lit "f"] nodes ids
    (fun k => AcPolar (samples (b :: bs) (2 * k + 1)) (samples (b :: bs) (2 * k + 2))) /\
  (forall name, slower name = lit "f" -> ac_getitem d file name = Ok (AcReal (samples (b :: bs) 0))).
Proof.
  intros V d nodes ids b bs N I PN PI B file.
  assert (EL : map slower (ac_headers nodes ids) = lit "f" :: flat_map (fun w => [la w; lp w]) (lnames nodes ids)).
  { unfold ac_headers. cbn [map]. rewrite lower_ac, lower_raw_vars. reflexivity. }
  assert (P : printable (ac_headers nodes ids)).
  { apply printable_plain; [discriminate|]. constructor; [split; [pl|discriminate]|].
    assert (R := plain_raw nodes ids PN PI). induction R as [|v l [Pv Nv] R IH]; [constructor|]. cbn [flat_map app].
    constructor; [|constructor]; [| |exact IH].
    - split; [unfold abs_head; pl|discriminate].
    - split; [unfold arg_head; pl|discriminate]. }
  assert (ND : NoDup (map slower (ac_headers nodes ids))).
  { rewrite EL. constructor; [|apply NoDup_pairs, NoDup_lnames; assumption]. intros K. apply in_pairs in K.
    destruct K as (w & _ & [K|K]); discriminate. }
  assert (NF : forall w name, slower name = w -> w <> lit "f" -> streqb (supper name) (lit "F") = false).
  { intros w name E NE. destruct (streqb_spec (supper name) (lit "F")) as [K|]; [|reflexivity]. exfalso. apply NE.
    rewrite <- E, <- slower_supper, K. reflexivity. }
  assert (G : forall k name w, nth_error (lnames nodes ids) k = Some w -> slower name = w ->
     ac_getitem d file name = Ok (AcPolar (samples (b :: bs) (2 * k + 1)) (samples (b :: bs) (2 * k + 2)))).
  { intros k name w H E. unfold ac_getitem.
    assert (W : w <> lit "f").
    { apply nth_error_In in H. unfold lnames in H. apply in_app_iff in H. intros ->.
      destruct H as [H|H]; apply in_map_iff in H; destruct H as (a & K & _); discriminate. }
    rewrite (NF w name E W).
    destruct (nth_pairs _ _ la lp _ _ _ H) as [H1 H2].
    destruct (C37_round_trip V d (ac_headers nodes ids) b bs P ND B) as [R _].
    fold file in R. rewrite (R [abs_head name; arg_head name] [2 * k + 1; 2 * k + 2]); [reflexivity|discriminate|].
    constructor; [|constructor; [|constructor]]; apply selects_lower; rewrite EL.
    - rewrite lower_abs, E. replace (2 * k + 1) with (S (2 * k)) by lia. exact H1.
    - rewrite lower_arg, E. replace (2 * k + 2) with (S (2 * k + 1)) by lia. exact H2. }
  split; [split; [|split]|].
  - intros k n name H E. apply (G k name (lv n)); [apply nth_lnames_v; exact H|exact E].
  - intros j id name H E. apply (G _ name (li id)); [apply nth_lnames_i; exact H|rewrite E; apply lower_I].
  - intros name Hx Hv Hi. unfold ac_getitem.
    rewrite (NF (slower name) name eq_refl); [|intros K; apply (Hx (lit "f")); [left; reflexivity|rewrite K; reflexivity]].
    unfold file. rewrite (C37_missing_header V d (ac_headers nodes ids) b bs [abs_head name; arg_head name] (abs_head name) None 0 P B);
      [reflexivity|left; reflexivity|].
    intros h Hh E. apply (in_map slower) in Hh. rewrite E, EL, lower_abs in Hh. destruct Hh as [K|K]; [discriminate|].
    apply in_pairs in K. destruct K as (w & Hw & [K|K]); [|discriminate]. apply la_inj in K. subst w.
    apply (lnames_missing nodes ids name Hv Hi Hw).
  - intros name E. unfold ac_getitem.
    assert (F : streqb (supper name) (lit "F") = true).
    { rewrite <- supper_slower, E. reflexivity. }
    rewrite F. destruct (C37_round_trip V d (ac_headers nodes ids) b bs P ND B) as [R _].
    fold file in R. rewrite (R [name] [0]); [|discriminate|].
    + simpl. rewrite app_nil_r. reflexivity.
    + constructor; [|constructor]. apply selects_lower. rewrite EL, E. reflexivity.
Qed.
Print Assumptions C36_ac.

(** Nodes are told apart by case, results are not: the voltage of node A cannot be
    read. *)
Theorem C36_case_refuted : exists nodes, NoDup nodes /\
  forall V (d : V) a b, op_getitem d (op_vars nodes []) [a; b] (lit "VA") = Ok a /\
                        op_getitem d (op_vars nodes []) [a; b] (lit "Va") = Ok a /\
                        nth_error nodes 1 = Some (lit "A").
Proof.
  exists [lit "a"; lit "A"]. split.
  - constructor; [|constructor; [|constructor]]; simpl; [|tauto]. intros [K|[]]. discriminate.
  - intros V d a b. repeat split; reflexivity.
Qed.
Print Assumptions C36_case_refuted.

(** Sweeping V1 hides the voltage of node 1. *)
Theorem C36_sweep_refuted : forall (swept v1 : nat),
  sol_getitem 0 (written 0 (dc_vars (lit "V1") [lit "1"] []) (1, [[swept]; [v1]]) []) (lit "V1") = Ok [swept].
Proof. intros. vm_compute. reflexivity. Qed.
Print Assumptions C36_sweep_refuted.

Example C36_example : sol_getitem 0 (written 0 (tran_vars [lit "in"; lit "out"] [lit "v1"]) (2, [[0;1]; [10;11]; [20;21]; [30;31]]) [])
  (lit "i(V1)") = Ok [30; 31].
Proof. vm_compute. reflexivity. Qed.

(** * C39 *)

(** The last value stored under exactly the key [k]. *)
Fixpoint last_exact {V} (ups : list (str * V)) (k : str) : option V :=
  match ups with
  | [] => None
  | (k', v) :: ups' => match last_exact ups' k with Some w => Some w | None => if streqb k' k then Some v else None end
  end.
(** The last value stored under a key equal to [k] up to case. *)
Fixpoint last_upto_case {V} (ups : list (str * V)) (k : str) : option V :=
  match ups with
  | [] => None
  | (k', v) :: ups' =>
      match last_upto_case ups' k with Some w => Some w | None => if streqb (slower k') (slower k) then Some v else None end
  end.
(** The oldest spelling of [k]. *)
Fixpoint first_spelling {V} (ups : list (str * V)) (k : str) : option str :=
  match ups with
  | [] => None
  | (k', _) :: ups' => if streqb (slower k') (slower k) then Some k' else first_spelling ups' k
  end.
Definition stored {V} (ups : list (str * V)) : cid V := fold_left (fun d u => cid_update d (fst u) (snd u)) ups [].

Lemma cid_get_exact : forall V (ups : list (str * V)) d k,
  dget streqb (fold_left (fun d u => cid_update d (fst u) (snd u)) ups d) k =
  match last_exact ups k with Some v => Some v | None => dget streqb d k end.
Proof.
  intros V ups. induction ups as [|[k' v] ups IH]; intros d k; [reflexivity|]. simpl. rewrite IH.
  destruct (last_exact ups k) as [w|]; [reflexivity|]. unfold cid_update. rewrite (dget_dset streqb streqb_spec).
  destruct (streqb_spec k k') as [->|N]; destruct (streqb_spec k' k'); try congruence; destruct (streqb_spec k' k); congruence.
Qed.

Fixpoint fkey (keys : list str) (name : str) : option str :=
  match keys with
  | [] => None
  | k :: keys' => if streqb (slower k) (slower name) then Some k else fkey keys' name
  end.
Lemma fkey_dset : forall V (d : cid V) k v name, fkey (map fst (dset streqb d k v)) name =
  match fkey (map fst d) name with Some x => Some x | None => if streqb (slower k) (slower name) then Some k else None end.
Proof.
  intros V d k v name. induction d as [|[k0 v0] d IH]; simpl; [reflexivity|].
  destruct (streqb_spec k k0) as [->|N]; simpl.
  - destruct (streqb_spec (slower k0) (slower name)) as [E|E]; [reflexivity|]. destruct (fkey (map fst d) name); reflexivity.
  - destruct (streqb_spec (slower k0) (slower name)) as [E|E]; [reflexivity|]. exact IH.
Qed.
Lemma fkey_stored : forall V (ups : list (str * V)) d name,
  fkey (map fst (fold_left (fun d u => cid_update d (fst u) (snd u)) ups d)) name =
  match fkey (map fst d) name with Some x => Some x | None => first_spelling ups name end.
Proof.
  intros V ups. induction ups as [|[k v] ups IH]; intros d name; simpl.
  - destruct (fkey (map fst d) name); reflexivity.
  - rewrite IH. unfold cid_update. rewrite fkey_dset. destruct (fkey (map fst d) name); [reflexivity|].
    destruct (streqb (slower k) (slower name)); reflexivity.
Qed.
Lemma cid_get_fkey : forall V (d : cid V) name, cid_get d name =
  match fkey (map fst d) name with
  | Some k => match dget streqb d k with Some v => Ok v | None => Err KeyError end
  | None => Err KeyError
  end.
Proof.
  intros V d name. induction d as [|[k v] d IH]; [reflexivity|]. simpl.
  destruct (streqb_spec (supper k) (supper name)) as [E|E]; destruct (streqb_spec (slower k) (slower name)) as [E'|E'].
  - destruct (streqb_spec k k); congruence.
  - exfalso. apply E'. apply case_iff. exact E.
  - exfalso. apply E. apply case_iff. exact E'.
  - rewrite IH. destruct (fkey (map fst d) name) as [x|] eqn:F; [|reflexivity].
    destruct (streqb_spec x k) as [->|N]; [|reflexivity]. exfalso. apply E'.
    clear - F. induction (map fst d) as [|a l IH]; [discriminate|]. simpl in F.
    destruct (streqb_spec (slower a) (slower name)) as [E|E]; [injection F as ->; exact E|auto].
Qed.

(** What the code does: among the spellings of a key the oldest one wins, with the
    last value stored under exactly that spelling. *)
Theorem C39_actual : forall V (ups : list (str * V)) name,
  cid_get (stored ups) name =
  match first_spelling ups name with
  | None => Err KeyError
  | Some k => match last_exact ups k with Some v => Ok v | None => Err KeyError end
  end.
Proof.
  intros V ups name. rewrite cid_get_fkey. unfold stored. rewrite fkey_stored. simpl.
  destruct (first_spelling ups name) as [k|]; [|reflexivity]. rewrite cid_get_exact. simpl.
  destruct (last_exact ups k); reflexivity.
Qed.
Print Assumptions C39_actual.

(** If a key is always spelled the same way, lookups see the latest value. *)
Theorem C39_one_spelling : forall V (ups : list (str * V)) name,
  (forall a b, In a (map fst ups) -> In b (map fst ups) -> slower a = slower b -> a = b) ->
  cid_get (stored ups) name = match last_upto_case ups name with Some v => Ok v | None => Err KeyError end.
Proof.
  intros V ups name H. rewrite C39_actual.
  assert (A : forall k (ups0 : list (str * V)), (forall a, In a (map fst ups0) -> slower a = slower k -> a = k) -> slower k = slower name ->
    last_upto_case ups0 name = last_exact ups0 k).
  { intros k ups0 U E. induction ups0 as [|[a v] ups0 IH]; [reflexivity|]. simpl. rewrite IH.
    - destruct (last_exact ups0 k); [reflexivity|]. rewrite <- E.
      destruct (streqb_spec (slower a) (slower k)) as [S1|S1]; destruct (streqb_spec a k) as [S2|S2]; auto.
      + exfalso. apply S2. apply U; [left; reflexivity|exact S1].
      + exfalso. apply S1. congruence.
    - intros b Hb. apply U. right. exact Hb. }
  assert (F : forall k, first_spelling ups name = Some k -> In k (map fst ups) /\ slower k = slower name).
  { intros k. clear. induction ups as [|[a v] ups IH]; simpl; [discriminate|].
    destruct (streqb_spec (slower a) (slower name)) as [E|E]; intros K.
    - injection K as <-. auto.
    - destruct (IH K). auto. }
  destruct (first_spelling ups name) as [k|] eqn:FS.
  - destruct (F k eq_refl) as [I E]. rewrite (A k ups); auto.
  - assert (N : last_upto_case ups name = None).
    { clear - FS. induction ups as [|[a v] ups IH]; [reflexivity|]. simpl in *.
      destruct (streqb_spec (slower a) (slower name)); [discriminate|]. rewrite IH; auto. }
    rewrite N. reflexivity.
Qed.
Print Assumptions C39_one_spelling.

(** A later update under another spelling is not seen. *)
Theorem C39_refuted : exists (ups : list (str * nat)) name,
  cid_get (stored ups) name = Ok 1 /\ last_upto_case ups name = Some 2 /\ ups <> [].
Proof. exists [(lit "Vout", 1); (lit "VOUT", 2)], (lit "VOUT"). repeat split; discriminate. Qed.
Print Assumptions C39_refuted.

Example C39_example : cid_get (stored [(lit "Vn", 1); (lit "f", 2); (lit "Vn", 3)]) (lit "VN") = Ok 3.
Proof. reflexivity. Qed.

(** * C40 *)
Open Scope R_scope.

(** The difference of the values of unknown [k] is above tolerance; the first [nn]
    unknowns are voltages, the others currents. *)
Definition above (vea ver iea ier : R) (nn : nat) (x1 x2 : vec) (k : nat) : Prop :=
  Rabs (x1 k - x2 k) > (if (k <? nn)%nat then ver else ier) * Rmax (Rabs (x1 k)) (Rabs (x2 k)) + (if (k <? nn)%nat then vea else iea).

Lemma op_new_results : forall nodes ids x, op_results (op_new nodes ids x) =
  stored (map (fun vk => (fst vk, x (snd vk))) (combine (op_vars nodes ids) (seq 0 (length (op_vars nodes ids))))).
Proof.
  intros nodes ids x. unfold op_new, stored. simpl op_results. generalize (seq 0 (length (op_vars nodes ids))) as ks.
  generalize (op_vars nodes ids) as vs. intros vs ks. generalize (@nil (str * R)) as a, (@nil (str * str)) as b.
  generalize (combine vs ks) as l. induction l as [|u l IH]; intros a b; [reflexivity|]. simpl. rewrite IH. reflexivity.
Qed.
Lemma op_new_units : forall nodes ids x, op_units (op_new nodes ids x) =
  stored (map (fun vk => (fst vk, if (snd vk <? length nodes)%nat then lit "V" else lit "A")) (combine (op_vars nodes ids) (seq 0 (length (op_vars nodes ids))))).
Proof.
  intros nodes ids x. unfold op_new, stored. simpl op_units. generalize (seq 0 (length (op_vars nodes ids))) as ks.
  generalize (op_vars nodes ids) as vs. intros vs ks. generalize (@nil (str * R)) as a, (@nil (str * str)) as b.
  generalize (combine vs ks) as l. induction l as [|u l IH]; intros a b; [reflexivity|]. simpl. rewrite IH. reflexivity.
Qed.

Lemma stored_nth : forall V (ups : list (str * V)) k w v, NoDup (map slower (map fst ups)) -> nth_error ups k = Some (w, v) ->
  cid_get (stored ups) w = Ok v.
Proof.
  intros V ups k w v ND H. rewrite C39_one_spelling.
  - assert (L : last_upto_case ups w = Some v); [|rewrite L; reflexivity].
    revert k H. induction ups as [|[a u] ups IH]; intros k H; [destruct k; discriminate|]. simpl in ND. inversion ND as [|? ? NI ND']; subst.
    destruct k as [|k]; simpl in *.
    + injection H as -> ->.
      assert (N : last_upto_case ups w = None).
      { clear - NI. induction ups as [|[b u] ups IH]; [reflexivity|]. simpl in *. rewrite IH by tauto.
        destruct (streqb_spec (slower b) (slower w)); tauto. }
      rewrite N. destruct (streqb_spec (slower w) (slower w)); congruence.
    + rewrite (IH ND' k H). reflexivity.
  - clear H. generalize dependent (map fst ups). clear. induction l as [|c l IH]; intros ND a b A B E; [destruct A|].
    simpl in ND. inversion ND as [|? ? NI ND']; subst. destruct A as [A|A]; destruct B as [B|B]; subst; auto.
    + exfalso. apply NI. rewrite E. apply in_map. exact B.
    + exfalso. apply NI. rewrite <- E. apply in_map. exact A.
Qed.

Lemma combine_fst : forall A B (l : list A) (l' : list B), length l = length l' -> map fst (combine l l') = l.
Proof. induction l; destruct l'; simpl; intros; try discriminate; [reflexivity|]. f_equal. auto. Qed.
Lemma nth_combine_seq : forall A (l : list A) k w s, nth_error l k = Some w -> nth_error (combine l (seq s (length l))) k = Some (w, (s + k)%nat).
Proof.
  induction l as [|a l IH]; intros k w s H; [destruct k; discriminate|]. destruct k as [|k]; simpl in *.
  - injection H as ->. rewrite Nat.add_0_r. reflexivity.
  - rewrite (IH k w (S s) H). replace (s + S k)%nat with (S s + k)%nat by lia. reflexivity.
Qed.

Lemma op_values : forall nodes ids x k w, distinct nodes -> distinct ids -> nth_error (op_vars nodes ids) k = Some w ->
  cid_get (op_results (op_new nodes ids x)) w = Ok (x k) /\
  cid_get (op_units (op_new nodes ids x)) w = Ok (if (k <? length nodes)%nat then lit "V" else lit "A").
Proof.
  intros nodes ids x k w N I H.
  assert (ND : forall V (f : str * nat -> V), NoDup (map slower (map fst (map (fun vk => (fst vk, f vk)) (combine (op_vars nodes ids) (seq 0 (length (op_vars nodes ids)))))))).
  { intros V f. rewrite (map_map _ fst). simpl. rewrite (map_ext (fun x0 : str * nat => fst x0) fst) by reflexivity.
    rewrite combine_fst by (rewrite seq_length; reflexivity). rewrite lower_op_vars. apply NoDup_lnames; assumption. }
  rewrite op_new_results, op_new_units. split; (eapply stored_nth; [apply ND|]).
  - rewrite nth_error_map, (nth_combine_seq _ _ k w 0 H). reflexivity.
  - rewrite nth_error_map, (nth_combine_seq _ _ k w 0 H). reflexivity.
Qed.

Theorem C40_flags : forall vea ver iea ier nodes ids x1 x2, distinct nodes -> distinct ids ->
  exists l, gmin_check vea ver iea ier (op_new nodes ids x2) (op_new nodes ids x1) = Ok l /\
    (forall k w, nth_error (op_vars nodes ids) k = Some w -> (In w l <-> above vea ver iea ier (length nodes) x1 x2 k)) /\
    incl l (op_vars nodes ids).
Proof.
  intros vea ver iea ier nodes ids x1 x2 N I. unfold gmin_check.
  change (op_variables (op_new nodes ids x1)) with (op_vars nodes ids).
  assert (ND : NoDup (op_vars nodes ids)).
  { apply (NoDup_map_inv slower). rewrite lower_op_vars. apply NoDup_lnames; assumption. }
  assert (G : forall vars pre, op_vars nodes ids = (pre ++ vars)%list ->
    exists l, gmin_loop vea ver iea ier (op_new nodes ids x2) (op_new nodes ids x1) vars = Ok l /\
    (forall k w, nth_error vars k = Some w -> (In w l <-> above vea ver iea ier (length nodes) x1 x2 (length pre + k))) /\
    incl l vars).
  { induction vars as [|v vars IH]; intros pre E.
    - exists []. split; [reflexivity|]. split; [intros [|k] w H; discriminate|intros a []].
    - destruct (IH (pre ++ [v])%list) as (l & E1 & E2 & E3); [rewrite <- app_assoc; exact E|].
      assert (Hv : nth_error (op_vars nodes ids) (length pre) = Some v).
      { rewrite E, nth_error_app2 by lia. rewrite Nat.sub_diag. reflexivity. }
      destruct (op_values nodes ids x1 _ _ N I Hv) as [A1 A2]. destruct (op_values nodes ids x2 _ _ N I Hv) as [B1 _].
      cbn [gmin_loop]. rewrite A1, A2, B1. cbn [bindr]. rewrite E1. cbn [bindr].
      set (over := if streqb _ _ then _ else _).
      assert (OV : over = true <-> above vea ver iea ier (length nodes) x1 x2 (length pre)).
      { unfold over, above. rewrite (Rabs_minus_sym (x1 (length pre))).
        destruct (length pre <? length nodes)%nat; simpl; split; intros K.
        - apply Rlt_b_true in K. lra.
        - apply Rlt_b_true. lra.
        - apply Rlt_b_true in K. lra.
        - apply Rlt_b_true. lra. }
      assert (NV : ~ In v vars).
      { rewrite E in ND. apply NoDup_remove_2 in ND. intros K. apply ND. apply in_app_iff. right. exact K. }
      exists (if over then v :: l else l). split; [reflexivity|]. split.
      + intros [|k] w Hw; simpl in Hw.
        * injection Hw as <-. rewrite Nat.add_0_r, <- OV. destruct over; split; intros K; try discriminate; try reflexivity; try (left; reflexivity).
          exfalso. apply NV. apply E3. exact K.
        * specialize (E2 k w Hw). rewrite app_length in E2. simpl in E2. replace (length pre + S k)%nat with (length pre + 1 + k)%nat by lia.
          rewrite <- E2. destruct over; [|reflexivity]. split; [|intros K; right; exact K].
          intros [K|K]; [|exact K]. exfalso. apply NV. subst w. eapply nth_error_In; eauto.
      + destruct over; intros a K.
        * destruct K as [K|K]; [left; exact K|right; apply E3; exact K].
        * right. apply E3. exact K. }
  destruct (G (op_vars nodes ids) [] eq_refl) as (l & E1 & E2 & E3). exists l. auto.
Qed.
Print Assumptions C40_flags.

Theorem C40_symmetric : forall vea ver iea ier nodes ids x1 x2,
  gmin_check vea ver iea ier (op_new nodes ids x2) (op_new nodes ids x1) =
  gmin_check vea ver iea ier (op_new nodes ids x1) (op_new nodes ids x2).
Proof.
  intros vea ver iea ier nodes ids x1 x2. unfold gmin_check.
  change (op_variables (op_new nodes ids x1)) with (op_vars nodes ids).
  change (op_variables (op_new nodes ids x2)) with (op_vars nodes ids).
  induction (op_vars nodes ids) as [|v vars IH]; [reflexivity|]. cbn [gmin_loop].
  assert (U : op_units (op_new nodes ids x1) = op_units (op_new nodes ids x2)) by (rewrite !op_new_units; reflexivity).
  assert (K : forall V (d : cid V) w e, cid_get d w = Err e -> e = KeyError).
  { intros V d w e. rewrite cid_get_fkey. destruct (fkey _ _); [destruct (dget _ _ _)|]; congruence. }
  destruct (cid_get (op_results (op_new nodes ids x2)) v) as [b|e] eqn:B;
  destruct (cid_get (op_results (op_new nodes ids x1)) v) as [a|e'] eqn:A; cbn [bindr].
  - rewrite U, IH. destruct (cid_get (op_units (op_new nodes ids x2)) v); [|reflexivity]. cbn [bindr].
    rewrite (Rabs_minus_sym b a), (Rmax_comm (Rabs a)). reflexivity.
  - reflexivity.
  - reflexivity.
  - rewrite (K _ _ _ _ A), (K _ _ _ _ B). reflexivity.
Qed.
Print Assumptions C40_symmetric.

Example C40_example : exists l, gmin_check 1 0 1 0 (op_new [lit "a"] [lit "v1"] (fun k => 3)) (op_new [lit "a"] [lit "v1"] (fun k => INR k + 1)) = Ok l /\
  In (lit "VA") l /\ ~ In (lit "I(V1)") l.
Proof.
  assert (N : distinct [lit "a"]) by (constructor; [intros []|constructor]).
  assert (I : distinct [lit "v1"]) by (constructor; [intros []|constructor]).
  destruct (C40_flags 1 0 1 0 [lit "a"] [lit "v1"] (fun k => INR k + 1) (fun _ => 3) N I) as (l & E & F & _).
  exists l. split; [exact E|]. split.
  - apply (F 0%nat); [reflexivity|]. unfold above. simpl. rewrite Rmult_0_l. replace (0 + 1 - 3) with (-(2)) by lra.
    rewrite Rabs_Ropp, Rabs_pos_eq; lra.
  - rewrite (F 1%nat) by reflexivity. unfold above. simpl. rewrite Rmult_0_l. replace (1 + 1 - 3) with (-(1)) by lra.
    rewrite Rabs_Ropp, Rabs_pos_eq; lra.
Qed.

(** * C41 *)

(** The vector with the ground node in front. *)
Definition with_ground (x : vec) : vec := fun n => match n with O => 0 | S m => x m end.

(** Minus the sum over the sources of voltage times current; [k] voltage-defined
    elements come before [es]. *)
Definition is_source (e : lelem) : bool :=
  match e with EV _ _ _ _ _ | EI _ _ _ _ _ | EE _ _ _ _ _ _ | EG _ _ _ _ _ _ | EF _ _ _ _ _ | EH _ _ _ _ _ => true | _ => false end.
Definition src_current (nv : nat) (all : list lelem) (X : vec) (k : nat) (e : lelem) : R :=
  match e with EI _ _ _ dc _ => dc | _ => dc_current nv all X k e end.
Fixpoint delivered (nv : nat) (all es : list lelem) (X : vec) (k : nat) : R :=
  match es with
  | [] => 0
  | e :: es' =>
      (if is_source e then - ((X (term1 e) - X (term2 e)) * src_current nv all X k e) else 0)
      + delivered nv all es' X (if is_vde e then S k else k)
  end.

Definition indexed (e : lelem) : bool := match e with EV _ _ _ _ _ | EE _ _ _ _ _ _ => true | _ => false end.

(** No V or E element after an H element. *)
Definition h_last (es : list lelem) : Prop :=
  forall pre id n1 n2 src a post, es = (pre ++ EH id n1 n2 src a :: post)%list -> Forall (fun e => indexed e = false) post.

Lemma guarded_diff : forall x n1 n2, guarded_v x n1 n1 n2 n2 = with_ground x n1 - with_ground x n2.
Proof.
  intros x n1 n2. unfold guarded_v, with_ground. destruct n1, n2; simpl; rewrite ?Nat.sub_0_r; reflexivity.
Qed.

Lemma find_vsource_nth : forall es src k r id n1 n2 dc td,
  NoDup (map (fun e => upper (lid e)) (filter is_vde es)) ->
  nth_error (filter is_vde es) r = Some (EV id n1 n2 dc td) -> lower id = lower src ->
  find_vsource es src k = Ok (k + r)%nat.
Proof.
  induction es as [|a es IH]; intros src k r id n1 n2 dc td ND H E; simpl in *; [destruct r; discriminate|].
  destruct (is_vde a) eqn:Ea; simpl in *.
  - inversion ND as [|? ? Hn ND']; subst. destruct r as [|r]; simpl in H.
    + injection H as ->. rewrite E, String.eqb_refl. f_equal. lia.
    + assert (NX : String.eqb (lower (lid a)) (lower src) = false).
      { apply String.eqb_neq. intros K. apply Hn. rewrite <- E in K. apply upper_eq_iff_lower_eq in K. rewrite K.
        apply (in_map (fun e => upper (lid e)) _ (EV id n1 n2 dc td)). eapply nth_error_In; eauto. }
      assert (IH' := IH src (S k) r id n1 n2 dc td ND' H E). replace (k + S r)%nat with (S k + r)%nat by lia.
      destruct a; simpl in NX; try discriminate; auto. rewrite NX. exact IH'.
  - rewrite (IH src k r id n1 n2 dc td ND H E). reflexivity.
Qed.

Theorem C41_power_guarded : forall nv_1 es x,
  NoDup (map (fun e => upper (lid e)) (filter is_vde es)) ->
  h_last es ->
  Forall (fun e => match e with
    | EG _ n1 n2 s1 s2 _ => s1 = n1 /\ s2 = n2
    | EF _ _ _ src _ => exists id n1 n2 dc td, In (EV id n1 n2 dc td) es /\ lower id = lower src
    | EH _ _ _ src _ => (exists j, vde_index es src = Ok j) /\ branch_law (S nv_1) es (with_ground x) e = 0
    | _ => True end) es ->
  tot_power nv_1 es x = Ok (delivered (S nv_1) es es (with_ground x) 0).
Proof.
  intros nv_1 all x ND HL F. unfold tot_power.
  assert (WG : forall q, with_ground x (S nv_1 + q)%nat = x (nv_1 + q)%nat) by reflexivity.
  assert (G : forall es pre ii p, all = (pre ++ es)%list ->
    (ii = length (filter is_vde pre) \/ Forall (fun e => indexed e = false) es) ->
    power_loop nv_1 all es x ii p = Ok (p + delivered (S nv_1) all es (with_ground x) (length (filter is_vde pre)))).
  { induction es as [|e es IH]; intros pre ii p E HI; [simpl; f_equal; lra|].
    assert (E' : all = ((pre ++ [e]) ++ es)%list) by (rewrite <- app_assoc; exact E).
    assert (Fe : In e all) by (rewrite E; apply in_app_iff; right; left; reflexivity).
    assert (KE : length (filter is_vde (pre ++ [e])) = if is_vde e then S (length (filter is_vde pre)) else length (filter is_vde pre)).
    { rewrite filter_app, app_length. simpl. destruct (is_vde e); simpl; lia. }
    assert (NE : is_vde e = true -> nth_error (filter is_vde all) (length (filter is_vde pre)) = Some e).
    { intros V. rewrite E, filter_app. rewrite nth_error_app2 by lia. rewrite Nat.sub_diag. simpl. rewrite V. reflexivity. }
    rewrite Forall_forall in F. specialize (F e Fe).
    assert (TL : forall ii', (ii' = length (filter is_vde (pre ++ [e])) \/ Forall (fun e => indexed e = false) es) -> forall p',
      power_loop nv_1 all es x ii' p' = Ok (p' + delivered (S nv_1) all es (with_ground x) (length (filter is_vde (pre ++ [e]))))).
    { intros ii' H p'. apply IH; assumption. }
    rewrite KE in TL.
    assert (HT : Forall (fun e => indexed e = false) (e :: es) -> Forall (fun e => indexed e = false) es) by (intros K; inversion K; assumption).
    destruct e as [id n1 n2 r|id n1 n2 c|id n1 n2 l|id l1 l2 k m|id n1 n2 dc td|id n1 n2 dc td|id n1 n2 s1 s2 a|id n1 n2 s1 s2 a|id n1 n2 src a|id n1 n2 src a|id n1 n2];
      cbn [power_loop delivered is_source is_vde term1 term2 src_current dc_current] in *.
    - rewrite TL by tauto. f_equal. lra.
    - rewrite TL by tauto. f_equal. lra.
    - rewrite TL by (destruct HI; [left; congruence|tauto]). f_equal. lra.
    - rewrite TL by tauto. f_equal. lra.
    - rewrite TL by (destruct HI; [left; congruence|tauto]). f_equal. rewrite guarded_diff.
      destruct HI as [->|HI]; [|inversion HI; discriminate]. rewrite WG. ring.
    - rewrite TL by tauto. f_equal. rewrite guarded_diff. ring.
    - rewrite TL by (destruct HI; [left; congruence|tauto]). f_equal. rewrite guarded_diff.
      destruct HI as [->|HI]; [|inversion HI; discriminate]. rewrite WG. ring.
    - destruct F as [-> ->]. rewrite TL by tauto. f_equal. rewrite guarded_diff. ring.
    - destruct F as (vid & a1 & a2 & dc & td & IN & LE).
      assert (IV : In (EV vid a1 a2 dc td) (filter is_vde all)) by (apply filter_In; auto).
      apply In_nth_error in IV. destruct IV as [j IV].
      rewrite (find_vsource_nth all src 0 j vid a1 a2 dc td ND IV LE). cbn [bindr].
      assert (VI : vde_index all src = Ok j).
      { apply (nth_vde_index all src j (EV vid a1 a2 dc td)); auto. simpl. apply upper_eq_iff_lower_eq. exact LE. }
      rewrite VI, TL by tauto. f_equal. change (0 + j)%nat with j. rewrite guarded_diff. rewrite WG. ring.
    - destruct F as [[j J] BL]. rewrite J.
      assert (VI : vde_index all id = Ok (length (filter is_vde pre))).
      { apply (nth_vde_index all id _ (EH id n1 n2 src a)); auto. }
      rewrite VI. cbn [bindr]. rewrite TL by (right; eapply HL; exact E). f_equal.
      cbn [branch_law] in BL. rewrite J in BL.
      assert (BL' : with_ground x n1 - with_ground x n2 = a * x (nv_1 + j)%nat) by (rewrite WG in BL; lra).
      rewrite BL', WG. ring.
    - rewrite TL by tauto. f_equal. lra. }
  rewrite (G all [] 0%nat 0 eq_refl); [|left; reflexivity]. f_equal. simpl. lra.
Qed.
Print Assumptions C41_power_guarded.

(** A solution: Kirchhoff's current law at the nodes 1 .. nv_1 and the branch laws. *)
Definition solves (nv_1 : nat) (es : list lelem) (x : vec) : Prop :=
  (forall n, (1 <= n <= nv_1)%nat -> kcl (S nv_1) es es 0 n (with_ground x) = 0) /\
  Forall (fun e => branch_law (S nv_1) es (with_ground x) e = 0) es.

(** V2 comes after H1 and is charged with the current of H1. *)
Theorem C41_H_refuted : exists nv_1 es x p, solves nv_1 es x /\ tot_power nv_1 es x = Ok p /\
  p <> delivered (S nv_1) es es (with_ground x) 0.
Proof.
  exists 3%nat, [EV "V1" 1 0 1 false; ER "R1" 1 0 1; EH "H1" 2 0 "V1" 1; ER "R2" 2 0 1; EV "V2" 3 0 5 false; ER "R3" 3 0 1],
    (fun k => nth k [1; -1; 5; -1; 1; -5] 0).
  eexists. split; [|split].
  - split.
    + intros n H. assert (C : (n = 1 \/ n = 2 \/ n = 3)%nat) by lia. destruct C as [-> | [-> | ->]]; simpl; lra.
    + repeat apply Forall_cons; [..|apply Forall_nil]; simpl; lra.
  - vm_compute find_vsource. cbn. reflexivity.
  - intros K. simpl in K. unfold guarded_v in K. simpl in K. lra.
Qed.
Print Assumptions C41_H_refuted.

(** The control voltage of a G source is taken from its own output nodes. *)
Theorem C41_G_refuted : exists nv_1 es x p, solves nv_1 es x /\ tot_power nv_1 es x = Ok p /\
  p <> delivered (S nv_1) es es (with_ground x) 0.
Proof.
  exists 2%nat, [EV "V1" 1 0 1 false; EG "G1" 2 0 1 0 1; ER "R1" 2 0 1], (fun k => nth k [1; -1; 0] 0).
  eexists. split; [|split].
  - split.
    + intros n H. assert (C : (n = 1 \/ n = 2)%nat) by lia. destruct C as [-> | ->]; simpl; lra.
    + repeat apply Forall_cons; [..|apply Forall_nil]; simpl; lra.
  - reflexivity.
  - intros K. simpl in K. unfold guarded_v in K. simpl in K. lra.
Qed.
Print Assumptions C41_G_refuted.

(** 1 V across 2 Ohm: half a Watt. *)
Example C41_example : tot_power 1 [EV "V1" 1 0 1 false; ER "R1" 1 0 2] (fun k => nth k [1; -(1/2)] 0) = Ok (0 - (1 - 0) * (-(1/2))).
Proof. reflexivity. Qed.

(** * C84 *)
Lemma dec_inj : forall a b, dec a = dec b -> a = b.
Proof.
  intros a b H. unfold dec, lit in H.
  assert (E : NilEmpty.string_of_uint (Nat.to_uint a) = NilEmpty.string_of_uint (Nat.to_uint b)).
  { rewrite <- (string_of_list_ascii_of_string (NilEmpty.string_of_uint (Nat.to_uint a))), H. apply string_of_list_ascii_of_string. }
  assert (U : Some (Nat.to_uint a) = Some (Nat.to_uint b)) by (rewrite <- !NilEmpty.usu, E; reflexivity).
  injection U as U. rewrite <- (DecimalNat.Unsigned.of_to a), U. apply DecimalNat.Unsigned.of_to.
Qed.
Lemma dec_lower : forall a, slower (dec a) = dec a.
Proof. intros a. unfold dec. induction (Nat.to_uint a) as [|u IH|u IH|u IH|u IH|u IH|u IH|u IH|u IH|u IH|u IH]; [reflexivity|..]; simpl; f_equal; exact IH. Qed.

Lemma pz_names_NoDup : forall np nz, NoDup (map slower (map (fun i => "p"%char :: dec i) (seq 0 np) ++ map (fun i => "z"%char :: dec i) (seq 0 nz))%list).
Proof.
  intros np nz. rewrite map_app, !map_map. apply NoDup_app_intro.
  - apply (NoDup_map_key _ _ _ (fun i => i)); [rewrite map_id; apply seq_NoDup|].
    intros a b E. simpl in E. injection E as E. fold (slower (dec a)) (slower (dec b)) in E. rewrite !dec_lower in E. apply dec_inj. exact E.
  - apply (NoDup_map_key _ _ _ (fun i => i)); [rewrite map_id; apply seq_NoDup|].
    intros a b E. simpl in E. injection E as E. fold (slower (dec a)) (slower (dec b)) in E. rewrite !dec_lower in E. apply dec_inj. exact E.
  - intros x A B. apply in_map_iff in A. apply in_map_iff in B. destruct A as (a & <- & _). destruct B as (b & E & _). discriminate.
Qed.

Lemma stored_mem : forall V (ups : list (str * V)) w v, cid_get (stored ups) w = Ok v -> cid_mem (stored ups) w = true.
Proof.
  intros V ups w v. generalize (stored ups) as d. induction d as [|[k u] d IH]; [discriminate|]. simpl.
  unfold cid_mem, upper_mem in *. simpl. destruct (streqb (supper k) (supper w)); [reflexivity|]. exact IH.
Qed.

Lemma nth_combine : forall A B (l : list A) (l' : list B) k a b, nth_error l k = Some a -> nth_error l' k = Some b ->
  nth_error (combine l l') k = Some (a, b).
Proof.
  induction l as [|x l IH]; intros l' k a b H H'; [destruct k; discriminate|].
  destruct l' as [|y l']; [destruct k; discriminate|]. destruct k as [|k]; simpl in *; [congruence|]. apply IH; assumption.
Qed.

(** With zeros, the poles and zeros are found under p0, p1, ... and z0, z1, ... *)
Theorem C84_with_zeros : forall V (poles zeros : list V), zeros <> [] ->
  (forall i v, nth_error poles i = Some v -> pz_getitem (pz_new poles zeros) (lit "p" ++ dec i)%list = Ok v) /\
  (forall i v, nth_error zeros i = Some v -> pz_getitem (pz_new poles zeros) (lit "z" ++ dec i)%list = Ok v).
Proof.
  intros V poles zeros NE.
  set (vars := (map (fun i => "p"%char :: dec i) (seq 0 (length poles)) ++ map (fun i => "z"%char :: dec i) (seq 0 (length zeros)))%list).
  assert (LV : length vars = length (poles ++ zeros)%list) by (unfold vars; rewrite !app_length, !map_length, !seq_length; reflexivity).
  assert (G : forall k w v, nth_error vars k = Some w -> nth_error (poles ++ zeros)%list k = Some v -> pz_getitem (pz_new poles zeros) w = Ok v).
  { intros k w v H1 H2.
    assert (D : pz_data (pz_new poles zeros) = Some (stored (combine vars (poles ++ zeros)%list))).
    { unfold pz_new. simpl. destruct zeros; [congruence|reflexivity]. }
    unfold pz_getitem. rewrite D.
    assert (K : cid_get (stored (combine vars (poles ++ zeros)%list)) w = Ok v).
    { apply (stored_nth _ _ k); [|apply nth_combine; assumption]. rewrite combine_fst by exact LV. apply pz_names_NoDup. }
    rewrite (stored_mem _ _ _ _ K). exact K. }
  assert (NS : forall c n i, (i < n)%nat -> nth_error (map (fun i => c :: dec i) (seq 0 n)) i = Some (c :: dec i)).
  { intros c n i L. rewrite nth_error_map. rewrite (nth_error_nth' _ 0%nat) by (rewrite seq_length; exact L). rewrite seq_nth by exact L. reflexivity. }
  split; intros i v H.
  - assert (L : (i < length poles)%nat) by (apply nth_error_Some; congruence). apply (G i).
    + unfold vars. rewrite nth_error_app1 by (rewrite map_length, seq_length; exact L). apply NS. exact L.
    + rewrite nth_error_app1 by exact L. exact H.
  - assert (L : (i < length zeros)%nat) by (apply nth_error_Some; congruence). apply (G (length poles + i)%nat).
    + unfold vars. rewrite nth_error_app2; rewrite map_length, seq_length; [|lia].
      replace (length poles + i - length poles)%nat with i by lia. apply NS. exact L.
    + rewrite nth_error_app2 by lia. replace (length poles + i - length poles)%nat with i by lia. exact H.
Qed.
Print Assumptions C84_with_zeros.

(** Without zeros every access by name raises AttributeError, though the variables
    p0, p1, ... are listed. *)
Theorem C84_no_zeros_refuted : forall V (poles : list V) name,
  pz_getitem (pz_new poles []) name = Err AttributeError /\ length (pz_vars (pz_new poles [])) = length poles.
Proof. intros V poles name. split; [reflexivity|]. simpl. rewrite app_nil_r, map_length, seq_length. reflexivity. Qed.
Print Assumptions C84_no_zeros_refuted.

Example C84_example : pz_getitem (pz_new [5; 7; 9]%nat [11]%nat) (lit "P2") = Ok 9%nat.
Proof. reflexivity. Qed.

(** * C85 *)

(** The argument of a complex number. *)
Definition is_angle (angle : R * R -> R) : Prop :=
  forall z, - PI < angle z <= PI /\
    fst z = sqrt (fst z * fst z + snd z * snd z) * cos (angle z) /\
    snd z = sqrt (fst z * fst z + snd z * snd z) * sin (angle z).

(** There is such a function. *)
Example C85_angle : exists angle, is_angle angle.
Proof.
  exists (fun z => let r := sqrt (fst z * fst z + snd z * snd z) in
    if Req_EM_T r 0 then 0 else if Rlt_dec (snd z) 0 then - acos (fst z / r) else acos (fst z / r)).
  intros [x y]. cbn [fst snd]. cbv zeta. assert (PP := PI_RGT_0). set (r := sqrt (x * x + y * y)).
  assert (SQ : r * r = x * x + y * y) by (apply sqrt_def; nra). assert (R0 : 0 <= r) by apply sqrt_pos.
  destruct (Req_EM_T r 0) as [Z|NZ].
  { rewrite Z in *. assert (x = 0 /\ y = 0) as [-> ->] by (split; nra). rewrite cos_0, sin_0. lra. }
  assert (RP : 0 < r) by lra.
  assert (B : -1 <= x / r <= 1).
  { split; apply (Rmult_le_reg_r r); try exact RP; unfold Rdiv; rewrite Rmult_assoc, Rinv_l by exact NZ; nra. }
  assert (SY : sqrt (1 - (x / r)²) = Rabs y / r).
  { replace (1 - (x / r)²) with ((Rabs y / r)²).
    - apply sqrt_Rsqr. apply Rmult_le_pos; [apply Rabs_pos|]. left. apply Rinv_0_lt_compat. exact RP.
    - rewrite !Rsqr_div', <- Rsqr_abs. unfold Rsqr.
      replace (y * y) with (r * r - x * x) by lra. field. exact NZ. }
  pose proof (acos_bound (x / r)) as AB.
  destruct (Rlt_dec y 0) as [YN|YP].
  - split; [|split].
    + split; [|lra]. assert (Q : -1 < x / r < 1).
      { split; apply (Rmult_lt_reg_r r); try exact RP; unfold Rdiv; rewrite Rmult_assoc, Rinv_l by exact NZ; nra. }
      pose proof (acos_bound_lt _ Q). lra.
    + rewrite cos_neg, cos_acos by exact B. field. exact NZ.
    + rewrite sin_neg, sin_acos by exact B. rewrite SY, (Rabs_left y YN). field. exact NZ.
  - split; [lra|]. split.
    + rewrite cos_acos by exact B. field. exact NZ.
    + rewrite sin_acos by exact B. rewrite SY, Rabs_right by lra. field. exact NZ.
Qed.

Theorem C85_round_trip : forall angle z, is_angle angle -> ac_read (ac_store angle false z) = z.
Proof.
  intros angle z A. destruct (A z) as (_ & E1 & E2). unfold ac_read, ac_store. simpl. rewrite <- E1, <- E2. destruct z; reflexivity.
Qed.
Print Assumptions C85_round_trip.

(** With [options.ac_phase_in_deg] the phase is written in degrees and read as
    radians. *)
Theorem C85_degrees_refuted : forall angle, is_angle angle -> exists z, ac_read (ac_store angle true z) <> z.
Proof.
  intros angle A. set (t := PI / 180). exists (cos t, sin t).
  assert (P := PI_RGT_0). assert (P4 := PI_4).
  assert (T : 0 < t < PI) by (unfold t; lra).
  assert (M : sqrt (cos t * cos t + sin t * sin t) = 1).
  { replace (cos t * cos t + sin t * sin t) with 1; [apply sqrt_1|]. assert (H := sin2_cos2 t). unfold Rsqr in H. lra. }
  destruct (A (cos t, sin t)) as (RG & E1 & E2). cbn [fst snd] in *. rewrite M in E1, E2.
  set (a := angle (cos t, sin t)) in *.
  assert (S0 : 0 < sin t) by (apply sin_gt_0; lra).
  assert (A0 : 0 < a).
  { destruct (Rle_lt_dec a 0) as [L|L]; [|exact L]. exfalso. assert (K : 0 <= sin (- a)) by (apply sin_ge_0; lra).
    rewrite sin_neg in K. lra. }
  assert (AT : a = t).
  { destruct (Rtotal_order a t) as [L|[L|L]]; [|exact L|]; exfalso.
    - assert (K := cos_decreasing_1 a t). lra.
    - assert (K := cos_decreasing_1 t a). lra. }
  unfold ac_read, ac_store. cbn [fst snd]. rewrite M. fold a. rewrite AT.
  replace (t * 180 / PI) with 1 by (unfold t; field; lra).
  intros K. injection K as K _. assert (D := cos_decreasing_1 t 1). unfold t in *. assert (PI2 := PI2_1). lra.
Qed.
Print Assumptions C85_degrees_refuted.
