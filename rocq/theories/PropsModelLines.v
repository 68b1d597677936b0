(** Property theorems about .model lines: C142-C144. *)
From Coq Require Import Ascii String List Bool Arith ZArith Lia Permutation.
From Verif Require Import Base BaseFacts Str Units Directive Netlist NetlistFacts ModelLines.
Import ListNotations.
Open Scope nat_scope.

(** ** Vocabulary: a parameter as written, and the line as a list of words. *)
Record written := mkW { w_name : str; w_text : str; w_value : val }.
Definition token_of (w : written) : str := (w_name w ++ c_eq :: w_text w)%list.

(** A name and a text without signs that could be mistaken; [w_value] is what the text
    stands for: a number, or itself. *)
Definition plain (w : written) : Prop :=
  starred (token_of w) = false /\ existsb is_eq (w_name w) = false /\ existsb is_eq (w_text w) = false /\
  convert (w_text w) TFloat = Ok (w_value w).

(** [line] consists of these words, parentheses aside. *)
Definition reads (line : str) (w label : str) (ps : list str) : Prop :=
  split (no_parens line) = lit ".model" :: w :: label :: ps.

(** A parameter the model has, with a value that suits it: n or p for the type of a MOS
    model, a number for any other. *)
Definition suits (t : mtype) (w : written) : Prop :=
  In (supper (w_name w)) (signature t) /\
  (if streqb (supper (w_name w)) (lit "TYPE") then w_value w = VStr (lit "n") \/ w_value w = VStr (lit "p") else exists d, w_value w = VNum d).

(** The words for the types; a diode has two. *)
Definition documented : list (str * mtype) := [(lit "ekv", MEkv); (lit "mosq", MMosq); (lit "diode", MDiode); (lit "d", MDiode); (lit "sw", MSwitch)].

(** The value of a parameter in a model. *)
Definition value_of (m : pmodel) (k : str) : option val := dget streqb (snd m) k.

Lemma streqb_eq : forall a b, streqb a b = true <-> a = b.
Proof. intros a b. unfold streqb. destruct (list_eq_dec ascii_dec a b); split; congruence. Qed.
Lemma streqb_ok : forall a b, reflect (a = b) (streqb a b).
Proof. intros a b. unfold streqb. destruct (list_eq_dec ascii_dec a b); constructor; assumption. Qed.

Lemma filter_eq_nil : forall s, existsb is_eq s = false -> filter is_eq s = [].
Proof. induction s as [|c s IH]; intros H; [reflexivity|]. cbn in *. apply orb_false_iff in H. destruct H as [A B]. rewrite A. exact (IH B). Qed.
Lemma span_name : forall s v, existsb is_eq s = false -> span (fun c => negb (is_eq c)) (s ++ c_eq :: v) = (s, c_eq :: v).
Proof.
  induction s as [|c s IH]; intros v H; [reflexivity|]. cbn in H. apply orb_false_iff in H. destruct H as [A B].
  cbn [app span]. rewrite A. cbn [negb]. rewrite (IH v B). reflexivity.
Qed.
Lemma read_token : forall w, plain w -> parse_param_value (token_of w) = Ok (w_name w, w_value w).
Proof.
  intros w (_ & N & T & C). unfold parse_param_value, is_valid_value_param_string, token_of.
  rewrite filter_app, (filter_eq_nil _ N). cbn [app filter]. change (is_eq c_eq) with true. cbv iota.
  rewrite (filter_eq_nil _ T). cbn [List.length Nat.eqb]. rewrite (span_name _ _ N). cbn [tl]. rewrite C. reflexivity.
Qed.

Lemma params_read : forall ps kw rest, Forall plain ps ->
  model_params (map token_of ps ++ rest) kw = model_params rest (fold_left (fun d w => dset streqb d (supper (w_name w)) (w_value w)) ps kw).
Proof.
  induction ps as [|w ps IH]; intros kw rest F; [reflexivity|]. inversion F as [|? ? P F']; subst. cbn [map app model_params fold_left].
  destruct P as [S P']. rewrite S, (read_token w (conj S P')). cbn [bindr]. apply IH. exact F'.
Qed.

Lemma dset_end : forall (kw : kwargs) k v, ~ In k (map fst kw) -> dset streqb kw k v = (kw ++ [(k, v)])%list.
Proof.
  induction kw as [|[k' v'] kw IH]; intros k v N; [reflexivity|]. cbn [dset]. cbn in N.
  destruct (streqb_ok k k') as [E|E].
  - exfalso. apply N. left. symmetry. exact E.
  - rewrite (IH k v) by (intros K; apply N; right; exact K). reflexivity.
Qed.
Lemma fold_dset : forall ps (kw : kwargs), NoDup (map fst kw ++ map (fun w => supper (w_name w)) ps) ->
  fold_left (fun d w => dset streqb d (supper (w_name w)) (w_value w)) ps kw =
  (kw ++ map (fun w => (supper (w_name w), w_value w)) ps)%list.
Proof.
  induction ps as [|w ps IH]; intros kw N; [rewrite app_nil_r; reflexivity|]. cbn [fold_left map] in *.
  rewrite dset_end.
  - rewrite IH; [rewrite <- app_assoc; reflexivity|]. rewrite map_app. cbn [map fst]. rewrite <- app_assoc. exact N.
  - intros K. apply NoDup_remove_2 in N. apply N. apply in_or_app. left. exact K.
Qed.

Lemma smem_in : forall k l, smem k l = true <-> In k l.
Proof.
  intros k l. unfold smem. rewrite existsb_exists. split.
  - intros (x & I & E). apply streqb_eq in E. subst. exact I.
  - intros I. exists k. split; [exact I|]. apply streqb_eq. reflexivity.
Qed.
Lemma type_word : forall w t, In (w, t) documented -> model_type w = Some t.
Proof. intros w t H. repeat (destruct H as [E|H]; [injection E as <- <-; reflexivity|]). destruct H. Qed.

Definition names (ps : list written) : list str := map (fun w => supper (w_name w)) ps.
Definition args (ps : list written) : kwargs := map (fun w => (supper (w_name w), w_value w)) ps.
Lemma args_names : forall ps, map fst (args ps) = names ps.
Proof. intros ps. unfold args, names. rewrite map_map. reflexivity. Qed.

Lemma args_get : forall ps w, NoDup (names ps) -> In w ps -> dget streqb (args ps) (supper (w_name w)) = Some (w_value w).
Proof.
  induction ps as [|x ps IH]; intros w N I; [destruct I|]. cbn [args names map] in *. cbn [dget]. inversion N as [|? ? N1 N2]; subst.
  destruct (streqb_ok (supper (w_name w)) (supper (w_name x))) as [E|E].
  - destruct I as [<-|I]; [reflexivity|]. exfalso. apply N1. rewrite <- E. exact (in_map (fun w => supper (w_name w)) ps w I).
  - destruct I as [->|I]; [congruence|]. exact (IH w N2 I).
Qed.
Lemma args_none : forall ps k, ~ In k (names ps) -> dget streqb (args ps) k = None.
Proof.
  intros ps k N. apply (dget_None_notin streqb streqb_ok). unfold dkeys. rewrite args_names. exact N.
Qed.
Lemma args_some : forall ps k v, dget streqb (args ps) k = Some v -> exists w, In w ps /\ supper (w_name w) = k /\ w_value w = v.
Proof.
  intros ps k v H. apply (dget_In streqb streqb_ok) in H. unfold args in H. apply in_map_iff in H. destruct H as (w & E & I).
  injection E as <- <-. exists w. auto.
Qed.

Lemma type_in_stored : forall t, In (lit "TYPE") (signature t) -> In (lit "TYPE") (stored_as_is t).
Proof. intros [| | |] H; cbn in *; try (left; reflexivity); repeat (destruct H as [H|H]; [discriminate H|]); destruct H. Qed.

(** * C142 *)

(** A line with a documented type and suitable parameters, each written once (a switch
    with both thresholds or none), makes a model of that type and label, which has the
    values written and no other. *)
Theorem C142_written : forall line w t label ps, reads line w label (map token_of ps) -> In (w, t) documented ->
  Forall plain ps -> Forall (suits t) ps -> NoDup (names ps) ->
  (t = MSwitch -> (In (lit "VON") (names ps) <-> In (lit "VOFF") (names ps))) ->
  exists m, model_line line = Ok (label, m) /\ fst m = t /\
    (forall p, In p ps -> value_of m (supper (w_name p)) = Some (w_value p)) /\
    (forall k, ~ In k (names ps) -> value_of m k = None).
Proof.
  intros line w t label ps R D P S N SW. exists (t, args ps). split; [|split; [reflexivity|split]].
  - unfold model_line. rewrite R. assert (PR := params_read ps [] [] P). rewrite app_nil_r in PR. rewrite PR. clear PR. cbn [model_params bindr].
    rewrite (type_word w t D). rewrite fold_dset by exact N. cbn [app]. fold (args ps). unfold construct.
    assert (K1 : forallb (fun p => smem (fst p) (signature t)) (args ps) = true).
    { apply forallb_forall. intros p I. unfold args in I. apply in_map_iff in I. destruct I as (x & <- & I). cbn [fst].
      apply smem_in. rewrite Forall_forall in S. exact (proj1 (S x I)). }
    rewrite K1. cbn [negb].
    assert (K2 : check_type t (args ps) = Ok tt).
    { unfold check_type. destruct t; try reflexivity. destruct (dget streqb (args ps) (lit "TYPE")) as [v|] eqn:G; [|reflexivity].
      apply args_some in G. destruct G as (x & I & E1 & E2). rewrite Forall_forall in S. destruct (S x I) as [_ Q]. rewrite E1 in Q.
      change (streqb (lit "TYPE") (lit "TYPE")) with true in Q. cbv iota in Q. rewrite E2 in Q. destruct Q as [-> | ->]; reflexivity. }
    rewrite K2. cbn [bindr].
    assert (K3 : forallb (fun p => smem (fst p) (stored_as_is t) || float_ok (snd p)) (args ps) = true).
    { apply forallb_forall. intros p I. unfold args in I. apply in_map_iff in I. destruct I as (x & <- & I). cbn [fst snd].
      rewrite Forall_forall in S. destruct (S x I) as [Q1 Q2]. destruct (streqb_ok (supper (w_name x)) (lit "TYPE")) as [E|E].
      - rewrite E in *. apply type_in_stored in Q1. apply smem_in in Q1. rewrite Q1. reflexivity.
      - destruct Q2 as (d & ->). apply orb_true_r. }
    rewrite K3. cbn [negb].
    assert (K4 : check_thresholds t (args ps) = Ok tt).
    { unfold check_thresholds. destruct t; try reflexivity. specialize (SW eq_refl).
      destruct (dget streqb (args ps) (lit "VON")) as [a|] eqn:A; destruct (dget streqb (args ps) (lit "VOFF")) as [b|] eqn:B; try reflexivity; exfalso.
      - assert (I : In (lit "VON") (names ps)) by (apply args_some in A; destruct A as (x & I & E & _); unfold names; apply in_map_iff; exists x; auto).
        apply SW in I. apply (dget_None_notin streqb streqb_ok) in B. unfold dkeys in B. rewrite args_names in B. contradiction.
      - assert (I : In (lit "VOFF") (names ps)) by (apply args_some in B; destruct B as (x & I & E & _); unfold names; apply in_map_iff; exists x; auto).
        apply SW in I. apply (dget_None_notin streqb streqb_ok) in A. unfold dkeys in A. rewrite args_names in A. contradiction. }
    rewrite K4. reflexivity.
  - intros p I. exact (args_get ps p N I).
  - intros k K. exact (args_none ps k K).
Qed.
Print Assumptions C142_written.

(** A switch with one threshold only is no model: the other is None. *)
Theorem C142_one_threshold_refuted : exists line, reads line (lit "sw") (lit "s1") [lit "von=3"] /\ model_line line = Err TypeError.
Proof. exists (lit ".model sw s1 (von=3)"). split; vm_compute; reflexivity. Qed.
Print Assumptions C142_one_threshold_refuted.

(** A p-channel model, in parentheses. *)
Example C142_example : model_line (lit ".model ekv pch (type=p vto=-0.6 kp=20u)") =
  Ok (lit "pch", (MEkv, [(lit "TYPE", VStr (lit "p")); (lit "VTO", VNum ((-6)%Z, (-1)%Z)); (lit "KP", VNum (20%Z, (-6)%Z))])).
Proof. vm_compute. reflexivity. Qed.

(** * C143 *)

(** The order of the parameters is immaterial. *)
Theorem C143_order : forall l1 l2 w t label ps1 ps2, reads l1 w label (map token_of ps1) -> reads l2 w label (map token_of ps2) ->
  Permutation ps1 ps2 -> In (w, t) documented -> Forall plain ps1 -> Forall (suits t) ps1 -> NoDup (names ps1) ->
  (t = MSwitch -> (In (lit "VON") (names ps1) <-> In (lit "VOFF") (names ps1))) ->
  exists m1 m2, model_line l1 = Ok (label, m1) /\ model_line l2 = Ok (label, m2) /\ fst m1 = fst m2 /\ forall k, value_of m1 k = value_of m2 k.
Proof.
  intros l1 l2 w t label ps1 ps2 R1 R2 PM D P S N SW.
  assert (PN : Permutation (names ps1) (names ps2)) by (apply Permutation_map; exact PM).
  destruct (C142_written l1 w t label ps1 R1 D P S N SW) as (m1 & E1 & T1 & V1 & O1).
  destruct (C142_written l2 w t label ps2 R2 D) as (m2 & E2 & T2 & V2 & O2).
  - exact (Permutation_Forall PM P).
  - exact (Permutation_Forall PM S).
  - exact (Permutation_NoDup PN N).
  - intros E. specialize (SW E). split; intros I; apply (Permutation_in _ PN), SW, (Permutation_in _ (Permutation_sym PN)), I.
  - exists m1, m2. split; [exact E1|]. split; [exact E2|]. split; [congruence|]. intros k.
    destruct (in_dec (list_eq_dec ascii_dec) k (names ps1)) as [I|I].
    + unfold names in I. apply in_map_iff in I. destruct I as (x & <- & I). rewrite (V1 x I). symmetry. apply V2. exact (Permutation_in _ PM I).
    + rewrite (O1 k I). symmetry. apply O2. intros K. apply I. exact (Permutation_in _ (Permutation_sym PN) K).
Qed.
Print Assumptions C143_order.

(** Nor do parentheses, nor what follows a word that begins with a star. *)
Theorem C143_comments : forall l1 l2 w label ps star rest, starred star = true ->
  reads l1 w label (ps ++ star :: rest) -> reads l2 w label ps -> model_line l1 = model_line l2.
Proof.
  intros l1 l2 w label ps star rest S R1 R2. unfold model_line. rewrite R1, R2.
  assert (E : forall ps kw, model_params (ps ++ star :: rest) kw = model_params ps kw).
  { clear - S. induction ps as [|t ps IH]; intros kw; cbn [app model_params]; [rewrite S; reflexivity|].
    destruct (starred t); [reflexivity|]. destruct (parse_param_value t) as [[l v]|]; [|reflexivity]. cbn [bindr]. apply IH. }
  rewrite E. reflexivity.
Qed.
Print Assumptions C143_comments.
Theorem C143_parentheses : forall l1 l2, no_parens l1 = no_parens l2 -> model_line l1 = model_line l2.
Proof. intros l1 l2 H. unfold model_line. rewrite H. reflexivity. Qed.
Print Assumptions C143_parentheses.

(** The same parameters, in another order, with parentheses and a comment. *)
Example C143_example : exists m1 m2,
  model_line (lit ".model diode d1 is=1e-15 n=1.1") = Ok (lit "d1", m1) /\ model_line (lit ".model diode d1 (n=1.1 is=1e-15) * a diode") = Ok (lit "d1", m2) /\
  value_of m1 (lit "IS") = value_of m2 (lit "IS") /\ value_of m1 (lit "IS") = Some (VNum (1%Z, (-15)%Z)) /\ m1 <> m2.
Proof. eexists. eexists. split; [vm_compute; reflexivity|]. split; [vm_compute; reflexivity|]. split; [vm_compute; reflexivity|]. split; [vm_compute; reflexivity|]. intros E. discriminate E. Qed.

(** * C144 *)

(** Lines that are too short, and types that do not exist, are parse errors. *)
Theorem C144_reported : forall line,
  (List.length (split (no_parens line)) < 3 -> model_line line = Err NetlistParseError) /\
  (forall w label ps, reads line w label (map token_of ps) -> Forall plain ps -> (forall t, ~ In (w, t) documented) ->
     model_line line = Err NetlistParseError).
Proof.
  intros line. unfold model_line. split.
  - intros L. destruct (split (no_parens line)) as [|a [|b [|c l]]]; cbn in L; try reflexivity. lia.
  - intros w label ps R P U. rewrite R. assert (PR := params_read ps [] [] P). rewrite app_nil_r in PR. rewrite PR. clear PR. cbn [model_params bindr].
    assert (M : model_type w = None); [|rewrite M; reflexivity]. unfold model_type.
    destruct (streqb_ok w (lit "ekv")) as [->|_]; [exfalso; apply (U MEkv); cbn; auto|].
    destruct (streqb_ok w (lit "mosq")) as [->|_]; [exfalso; apply (U MMosq); cbn; auto|].
    destruct (streqb_ok w (lit "diode")) as [->|_]; [exfalso; apply (U MDiode); cbn; auto|].
    destruct (streqb_ok w (lit "d")) as [->|_]; [exfalso; apply (U MDiode); cbn; auto 6|]. cbn [orb].
    destruct (streqb_ok w (lit "sw")) as [->|_]; [exfalso; apply (U MSwitch); cbn; auto 6|]. reflexivity.
Qed.
Print Assumptions C144_reported.

(** A parameter that the model does not have is a TypeError of the call... *)
Theorem C144_unknown_parameter_refuted : forall line w t label ps p, reads line w label (map token_of ps) -> In (w, t) documented ->
  Forall plain ps -> NoDup (names ps) -> In p ps -> ~ In (supper (w_name p)) (signature t) -> model_line line = Err TypeError.
Proof.
  intros line w t label ps p R D P N I U. unfold model_line. rewrite R. assert (E := params_read ps [] [] P). rewrite app_nil_r in E. rewrite E.
  cbn [model_params bindr]. rewrite (type_word w t D), fold_dset by exact N. cbn [app]. fold (args ps). unfold construct.
  assert (K : forallb (fun p => smem (fst p) (signature t)) (args ps) = false).
  { destruct (forallb _ (args ps)) eqn:F; [|reflexivity]. exfalso. apply U. rewrite forallb_forall in F.
    specialize (F (supper (w_name p), w_value p)). apply smem_in. apply F. exact (in_map (fun w => (supper (w_name w), w_value w)) ps p I). }
  rewrite K. reflexivity.
Qed.
Print Assumptions C144_unknown_parameter_refuted.

(** ... and a value that is no number is a ValueError of [float] - or no error at all,
    for the parameters that are stored as they come. *)
Theorem C144_no_number_refuted :
  (exists line, reads line (lit "diode") (lit "d1") [lit "is=tiny"] /\ model_line line = Err ValueError) /\
  (exists line, reads line (lit "diode") (lit "d1") [lit "is"] /\ model_line line = Err ValueError) /\
  (exists line m, reads line (lit "ekv") (lit "m1") [lit "lambda=tiny"] /\ model_line line = Ok (lit "m1", m) /\ value_of m (lit "LAMBDA") = Some (VStr (lit "tiny"))).
Proof.
  split; [|split].
  - exists (lit ".model diode d1 is=tiny"). split; vm_compute; reflexivity.
  - exists (lit ".model diode d1 is"). split; vm_compute; reflexivity.
  - exists (lit ".model ekv m1 lambda=tiny"). eexists. split; [vm_compute; reflexivity|]. split; vm_compute; reflexivity.
Qed.
Print Assumptions C144_no_number_refuted.
(** Which ones these are. *)
Definition unchecked : list (mtype * str) := [(MEkv, lit "XJ"); (MEkv, lit "LAMBDA"); (MMosq, lit "LAMBDA"); (MMosq, lit "AKP"); (MMosq, lit "AVT")].
Theorem C144_text_refuted : forall line w t label p text, reads line w label [token_of p] -> In (w, t) documented -> plain p ->
  w_value p = VStr text -> In (supper (w_name p)) (signature t) -> supper (w_name p) <> lit "TYPE" ->
  (In (t, supper (w_name p)) unchecked -> exists m, model_line line = Ok (label, m) /\ value_of m (supper (w_name p)) = Some (VStr text)) /\
  (~ In (t, supper (w_name p)) unchecked -> model_line line = Err ValueError).
Proof.
  intros line w t label p text R D P V I NT. set (k := supper (w_name p)) in *.
  assert (CT : check_type t [(k, VStr text)] = Ok tt).
  { unfold check_type. cbn [dget]. destruct (streqb_ok (lit "TYPE") k) as [E1|E1]; [congruence|]. destruct t; reflexivity. }
  assert (ML : model_line line = bindr (if negb (smem k (stored_as_is t)) then Err ValueError else bindr (check_thresholds t [(k, VStr text)]) (fun _ => Ok (t, [(k, VStr text)]))) (fun m => Ok (label, m))).
  { unfold model_line. rewrite R. assert (E := params_read [p] [] [] (Forall_cons _ P (Forall_nil _))). cbn [map app] in E. rewrite E.
    cbn [fold_left dset model_params bindr]. rewrite (type_word w t D). unfold construct. cbn [forallb fst snd]. fold k.
    rewrite V. rewrite (proj2 (smem_in k (signature t)) I). cbn [andb negb]. rewrite CT. cbn [bindr float_ok]. rewrite orb_false_r, andb_true_r. reflexivity. }
  rewrite ML. unfold value_of.
  assert (GT : dget streqb [(k, VStr text)] k = Some (VStr text)) by (cbn [dget]; destruct (streqb_ok k k); congruence).
  assert (ST : In k (stored_as_is t) <-> In (t, k) unchecked).
  { split.
    - intros H. destruct t; cbn in H |- *; repeat (destruct H as [<-|H]; [first [exfalso; apply NT; reflexivity|auto 8]|]); destruct H.
    - intros H. cbn in H. repeat (destruct H as [H|H]; [injection H as <- <-; cbn; auto 8|]). destruct H. }
  split.
  - intros H. apply ST in H. rewrite (proj2 (smem_in k (stored_as_is t)) H). cbn [negb].
    assert (TH : check_thresholds t [(k, VStr text)] = Ok tt) by (unfold check_thresholds; destruct t; try reflexivity; destruct H).
    rewrite TH. cbn [bindr]. eexists. split; [reflexivity|exact GT].
  - intros H. destruct (smem k (stored_as_is t)) eqn:M; [|reflexivity]. exfalso. apply H, ST, smem_in. exact M.
Qed.
Print Assumptions C144_text_refuted.

(** * C145 *)

(** The models read are those of the lines; of two lines with one label the later. *)
Definition last_of (label : str) (l : list (str * pmodel)) : option pmodel :=
  fold_left (fun acc p => if streqb label (fst p) then Some (snd p) else acc) l None.

Lemma models_from : forall lines ms models, parse_models lines models = Ok ms ->
  exists each, map (fun l => match model_line l with Ok x => Some x | Err _ => None end) lines = map Some each /\
  forall label, dget streqb ms label = fold_left (fun acc p => if streqb label (fst p) then Some (snd p) else acc) each (dget streqb models label).
Proof.
  induction lines as [|l lines IH]; intros ms models H; cbn [parse_models] in H.
  - injection H as <-. exists []. split; reflexivity.
  - destruct (model_line l) as [[label m]|] eqn:E; [|discriminate]. cbn [bindr] in H. destruct (IH _ _ H) as (each & M & G).
    exists ((label, m) :: each). split; [cbn [map]; rewrite E, M; reflexivity|]. intros k. rewrite G. cbn [fold_left fst snd].
    rewrite (dget_dset streqb streqb_ok). reflexivity.
Qed.
Theorem C145_last_wins : forall lines ms, parse_models lines [] = Ok ms ->
  exists each, map (fun l => match model_line l with Ok x => Some x | Err _ => None end) lines = map Some each /\
  forall label, dget streqb ms label = last_of label each.
Proof. intros lines ms H. exact (models_from lines ms [] H). Qed.
Print Assumptions C145_last_wins.

(** With labels that differ, every line has its model. *)
Theorem C145_distinct : forall lines each ms, parse_models lines [] = Ok ms ->
  map (fun l => match model_line l with Ok x => Some x | Err _ => None end) lines = map Some each -> NoDup (map fst each) ->
  forall label m, In (label, m) each -> dget streqb ms label = Some m.
Proof.
  intros lines each ms H M N label m I. destruct (C145_last_wins lines ms H) as (each' & M' & G).
  assert (E : each' = each). { rewrite M in M'. clear - M'. revert each' M'. induction each as [|x l IH]; intros [|y l'] H; try discriminate H; [reflexivity|].
    cbn in H. injection H as -> H. f_equal. exact (IH l' H). }
  subst each'. rewrite G. unfold last_of. clear - N I. generalize (@None pmodel) as acc.
  induction each as [|[k x] l IH]; intros acc; [destruct I|]. cbn in N. inversion N as [|? ? N1 N2]; subst. cbn [fold_left fst snd]. destruct I as [E|I].
  - injection E as -> ->. assert (R : streqb label label = true) by (apply streqb_eq; reflexivity). rewrite R. clear - N1. revert N1.
    generalize (Some m). induction l as [|[k y] l IH]; intros acc N1; [reflexivity|]. cbn [fold_left fst snd].
    destruct (streqb_ok label k) as [->|_]; [exfalso; apply N1; left; reflexivity|]. apply IH. intros K. apply N1. right. exact K.
  - exact (IH N2 I _).
Qed.
Print Assumptions C145_distinct.

(** A label used twice goes unnoticed (a subcircuit defined twice is an error). *)
Theorem C145_redefined_refuted : exists l1 l2 m1 m2, model_line l1 = Ok (lit "nch", m1) /\ model_line l2 = Ok (lit "nch", m2) /\ fst m1 <> fst m2 /\
  parse_models [l1; l2] [] = Ok [(lit "nch", m2)].
Proof.
  exists (lit ".model ekv nch vto=0.5"), (lit ".model mosq nch vto=0.7"). eexists. eexists.
  split; [vm_compute; reflexivity|]. split; [vm_compute; reflexivity|]. split; [discriminate|]. vm_compute. reflexivity.
Qed.
Print Assumptions C145_redefined_refuted.

Example C145_example : exists ms, parse_models [lit ".model ekv nch vto=0.5"; lit ".model sw sw1 vt=2 vh=0.1"] [] = Ok ms /\
  option_map fst (dget streqb ms (lit "sw1")) = Some MSwitch /\ option_map fst (dget streqb ms (lit "nch")) = Some MEkv.
Proof. eexists. split; [vm_compute; reflexivity|]. split; vm_compute; reflexivity. Qed.
