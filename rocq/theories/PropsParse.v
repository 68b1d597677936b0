(** Property theorems about the reading of netlists: units (C26), continuation
    lines (C27). *)
From Coq Require Import Ascii String List Bool Arith ZArith Lia.
From Verif Require Import Base Str Units Lines.
Import ListNotations.
Open Scope Z_scope.

(** * C26 *)

(** Specification: the number fields of SPICE. *)
Record number := mkNum {
  n_sign : option bool;              (* explicit sign, true for minus *)
  n_int : str; n_dot : bool; n_frac : str;
  n_exp : option (option bool * str) }.

Definition all_digits (s : str) : Prop := Forall (fun c => is_digit c = true) s.
Definition wf_num (n : number) : Prop :=
  all_digits (n_int n) /\ all_digits (n_frac n) /\ (n_int n ++ n_frac n)%list <> [] /\
  (n_dot n = false -> n_frac n = []) /\
  match n_exp n with Some (_, ds) => all_digits ds /\ ds <> [] | None => True end.

Definition show_sign (o : option bool) : str :=
  match o with None => [] | Some true => lit "-" | Some false => lit "+" end.
Definition render (n : number) : str :=
  (show_sign (n_sign n) ++ n_int n ++ (if n_dot n then lit "." else []) ++ n_frac n ++
   match n_exp n with Some (sg, ds) => lit "E" ++ show_sign sg ++ ds | None => [] end)%list.

Definition sgn (o : option bool) : Z := match o with Some true => -1 | _ => 1 end.
(** Positional value of a string of digits. *)
Fixpoint dval (s : str) : Z :=
  match s with [] => 0 | c :: s' => (Z.of_nat (nat_of_ascii c) - 48) * 10 ^ Z.of_nat (length s') + dval s' end.

(** The number is [fst * 10 ^ snd]. *)
Definition value (n : number) : dec :=
  (sgn (n_sign n) * (dval (n_int n) * 10 ^ Z.of_nat (length (n_frac n)) + dval (n_frac n)),
   (match n_exp n with Some (sg, ds) => sgn sg * dval ds | None => 0 end) - Z.of_nat (length (n_frac n))).

(** The scale factors of the SPICE manual; mil = 25.4e-6. *)
Inductive scale : str -> Z -> Z -> Prop :=
| sc_none : scale [] 1 0
| sc_T : scale (lit "T") 1 12 | sc_G : scale (lit "G") 1 9 | sc_MEG : scale (lit "MEG") 1 6
| sc_K : scale (lit "K") 1 3 | sc_MIL : scale (lit "MIL") 254 (-7) | sc_M : scale (lit "M") 1 (-3)
| sc_U : scale (lit "U") 1 (-6) | sc_N : scale (lit "N") 1 (-9) | sc_P : scale (lit "P") 1 (-12)
| sc_F : scale (lit "F") 1 (-15).

(** ** Lemmas *)
Lemma span_spec : forall p s a b, span p s = (a, b) ->
  s = (a ++ b)%list /\ Forall (fun c => p c = true) a /\ match b with [] => True | c :: _ => p c = false end.
Proof.
  induction s as [|c s IH]; intros a b H; simpl in H.
  - injection H as <- <-. repeat split; constructor.
  - destruct (p c) eqn:P.
    + destruct (span p s) as [a' b'] eqn:S. injection H as <- <-.
      destruct (IH _ _ eq_refl) as (-> & F & T). repeat split; auto.
    + injection H as <- <-. repeat split; auto.
Qed.

Lemma span_app : forall p a b, Forall (fun c => p c = true) a ->
  match b with [] => True | c :: _ => p c = false end -> span p (a ++ b) = (a, b).
Proof.
  induction a as [|c a IH]; intros b F T; simpl.
  - destruct b as [|c b]; [reflexivity|]. simpl. rewrite T. reflexivity.
  - inversion F; subst. rewrite H1, IH; auto.
Qed.

Lemma digits_val_app : forall a s, fold_left (fun a c => 10 * a + digit_val c) s a = a * 10 ^ Z.of_nat (length s) + digits_val s.
Proof.
  intros a s. revert a. unfold digits_val.
  induction s as [|c s IH]; intros a; cbn [fold_left]; [cbn [length]; rewrite Z.pow_0_r; ring|].
  rewrite IH. rewrite (IH (10 * 0 + digit_val c)). cbn [length]. rewrite Nat2Z.inj_succ, Z.pow_succ_r by lia. ring.
Qed.

Lemma is_digit_range : forall c, is_digit c = true -> (48 <= nat_of_ascii c <= 57)%nat.
Proof.
  intros c H. unfold is_digit in H. apply andb_true_iff in H. destruct H as [A B].
  apply Nat.leb_le in A. apply Nat.leb_le in B. lia.
Qed.

Lemma digits_dval : forall s, all_digits s -> digits_val s = dval s.
Proof.
  induction s as [|c s IH]; intros F; [reflexivity|]. inversion F; subst. apply is_digit_range in H1.
  unfold digits_val. cbn [fold_left]. rewrite digits_val_app, IH by assumption. cbn [dval]. unfold digit_val.
  rewrite Nat2Z.inj_sub by lia. ring.
Qed.

Lemma dval_app : forall a b, dval (a ++ b) = dval a * 10 ^ Z.of_nat (length b) + dval b.
Proof.
  induction a as [|c a IH]; intros b; simpl; [lia|].
  rewrite IH, app_length, Nat2Z.inj_add, Z.pow_add_r by lia. ring.
Qed.

(** [float] reads what [render] writes. *)
Definition not_sign (s : str) : Prop := match s with c :: _ => c <> c_plus /\ c <> c_minus | [] => True end.

Lemma sign_show : forall o s, not_sign s -> sign (show_sign o ++ s) = (sgn o, s).
Proof.
  intros [[|]|] s NS; simpl; auto. destruct s as [|c s]; [reflexivity|]. simpl in NS. unfold sign.
  destruct (ascii_dec c c_plus); [tauto|]. destruct (ascii_dec c c_minus); [tauto|]. reflexivity.
Qed.

Lemma digit_not : forall c, is_digit c = true -> c <> c_plus /\ c <> c_minus /\ c <> c_dot /\ c <> c_E.
Proof. intros c H. repeat split; intros ->; discriminate. Qed.

Lemma not_sign_digits : forall ds t, all_digits ds -> not_sign t -> not_sign (ds ++ t).
Proof.
  intros ds t F N. destruct ds as [|c ds]; [exact N|]. inversion F; subst. apply digit_not in H1. simpl. tauto.
Qed.

Lemma float_render : forall n, wf_num n -> float_of (render n) = Ok (value n).
Proof.
  intros [sg ip dot fp ex] (W1 & W2 & W3 & W4 & W5). cbn [n_sign n_int n_dot n_frac n_exp] in *.
  unfold render, float_of, value. cbn [n_sign n_int n_dot n_frac n_exp].
  set (tail := match ex with Some (sg0, ds) => (lit "E" ++ show_sign sg0 ++ ds)%list | None => [] end).
  assert (TD : match tail with [] => True | c :: _ => is_digit c = false end).
  { unfold tail. destruct ex as [[sg0 ds]|]; simpl; auto. }
  assert (NS : not_sign (ip ++ (if dot then lit "." else []) ++ fp ++ tail)).
  { apply not_sign_digits; auto. destruct dot; simpl.
    - split; discriminate.
    - rewrite W4 by reflexivity. simpl. unfold tail. destruct ex as [[sg0 ds]|]; simpl; auto. split; discriminate. }
  rewrite sign_show by exact NS. clear NS.
  assert (TD2 : match ((if dot then lit "." else []) ++ fp ++ tail)%list with [] => True | c :: _ => is_digit c = false end).
  { destruct dot; [reflexivity|]. rewrite W4 by reflexivity. exact TD. }
  rewrite (span_app is_digit ip _ W1 TD2). cbv beta iota.
  assert (FS : fraction ((if dot then lit "." else []) ++ fp ++ tail) = (fp, tail)).
  { destruct dot; simpl.
    - apply span_app; auto.
    - rewrite W4 by reflexivity. simpl. unfold tail. destruct ex as [[sg0 ds]|]; reflexivity. }
  rewrite FS. clear FS.
  assert (AD : all_digits (ip ++ fp)) by (apply Forall_app; auto).
  destruct (ip ++ fp)%list as [|c0 r0] eqn:E; [congruence|]. rewrite <- E in *. clear E c0 r0.
  rewrite digits_dval, dval_app by exact AD.
  unfold tail. destruct ex as [[sg0 ds]|]; simpl app.
  - cbn [ascii_dec]. replace (if ascii_dec "E" c_E then _ else _) with
      (let '(es, s5) := sign (show_sign sg0 ++ ds) in
            let '(ed, s6) := span is_digit s5 in
            match ed, s6 with
            | _ :: _, [] => Ok (sgn sg * (dval ip * 10 ^ Z.of_nat (length fp) + dval fp), - Z.of_nat (length fp) + es * digits_val ed)
            | _, _ => Err ValueError
            end) by reflexivity.
    destruct W5 as [D1 D2]. rewrite sign_show.
    2:{ rewrite <- (app_nil_r ds). apply not_sign_digits; simpl; auto. }
    rewrite <- (app_nil_r ds) at 1. rewrite span_app by (simpl; auto).
    destruct ds as [|d ds]; [congruence|]. rewrite digits_dval by exact D1. f_equal. f_equal. ring.
  - reflexivity.
Qed.

Lemma sign_inv : forall s sg r, sign s = (sg, r) -> exists o, s = (show_sign o ++ r)%list /\ sg = sgn o.
Proof.
  intros s sg r H. unfold sign in H. destruct s as [|c s].
  - injection H as <- <-. exists None. auto.
  - destruct (ascii_dec c c_plus) as [->|]; [injection H as <- <-; exists (Some false); auto|].
    destruct (ascii_dec c c_minus) as [->|]; [injection H as <- <-; exists (Some true); auto|].
    injection H as <- <-. exists None. auto.
Qed.

Lemma float_inv : forall s v, float_of s = Ok v -> exists n, wf_num n /\ s = render n /\ v = value n.
Proof.
  intros s v H. unfold float_of in H.
  destruct (sign s) as [sg s1] eqn:S1. apply sign_inv in S1. destruct S1 as (o & -> & ->).
  destruct (span is_digit s1) as [ip s2] eqn:S2. apply span_spec in S2. destruct S2 as (-> & F1 & T1).
  assert (DOT : exists dot fp s3,
    fraction s2 = (fp, s3) /\
    s2 = ((if dot : bool then lit "." else []) ++ fp ++ s3)%list /\ all_digits fp /\ (dot = false -> fp = [])).
  { destruct s2 as [|c s2].
    - exists false, [], []. repeat split; constructor.
    - destruct (ascii_dec c c_dot) as [->|NE].
      + destruct (span is_digit s2) as [fp s3] eqn:S3. pose proof S3 as S4.
        apply span_spec in S3. destruct S3 as (-> & F & _).
        exists true, fp, s3. split; [exact S4|]. repeat split; auto. intros D; discriminate D.
      + exists false, [], (c :: s2). split; [simpl; destruct (ascii_dec c c_dot); [contradiction|reflexivity]|].
        repeat split; constructor. }
  destruct DOT as (dot & fp & s3 & E & -> & F2 & DF). rewrite E in H. clear E.
  assert (AD : all_digits (ip ++ fp)) by (apply Forall_app; auto).
  destruct (ip ++ fp)%list as [|c0 r0] eqn:IF; [discriminate|]. rewrite <- IF in *.
  assert (NE : (ip ++ fp)%list <> []) by congruence. clear IF c0 r0.
  rewrite digits_dval, dval_app in H by exact AD.
  destruct s3 as [|c s4].
  - injection H as <-. exists (mkNum o ip dot fp None). unfold wf_num, render, value.
    cbn [n_sign n_int n_dot n_frac n_exp]. repeat split; auto.
  - destruct (ascii_dec c c_E) as [->|]; [|discriminate].
    destruct (sign s4) as [es s5] eqn:S4. apply sign_inv in S4. destruct S4 as (o2 & -> & ->).
    destruct (span is_digit s5) as [ed s6] eqn:S5. apply span_spec in S5. destruct S5 as (-> & F3 & _).
    destruct ed as [|e0 ed]; [discriminate|]. destruct s6; [|discriminate]. injection H as <-.
    exists (mkNum o ip dot fp (Some (o2, e0 :: ed))). unfold wf_num, render, value.
    cbn [n_sign n_int n_dot n_frac n_exp]. rewrite app_nil_r. repeat split; auto; try discriminate.
    rewrite digits_dval by exact F3. f_equal. ring.
Qed.

Lemma num_chars_render : forall n, wf_num n -> Forall (fun c => num_char c = true) (render n).
Proof.
  intros n (W1 & W2 & _ & _ & W5). unfold render.
  assert (D : forall s, all_digits s -> Forall (fun c => num_char c = true) s).
  { intros s F. eapply Forall_impl; [|exact F]. intros c H. unfold num_char. rewrite H. reflexivity. }
  assert (SS : forall o, Forall (fun c => num_char c = true) (show_sign o)).
  { intros [[|]|]; repeat constructor. }
  repeat (apply Forall_app; split); auto.
  - destruct (n_dot n); repeat constructor.
  - destruct (n_exp n) as [[o ds]|]; [|constructor]. destruct W5 as [W5 _].
    repeat (apply Forall_app; split); auto. repeat constructor.
Qed.

Lemma render_nonempty : forall n, wf_num n -> render n <> [].
Proof.
  intros n (_ & _ & W & _) E. unfold render in E.
  apply app_eq_nil in E. destruct E as [_ E]. apply app_eq_nil in E. destruct E as [E1 E].
  apply app_eq_nil in E. destruct E as [_ E]. apply app_eq_nil in E. destruct E as [E2 _].
  apply W. rewrite E1, E2. reflexivity.
Qed.

Lemma table_scale : forall s m e, scale s m e <-> dget streqb multipliers s = Some (m, e).
Proof.
  intros s m e. split.
  - destruct 1; vm_compute; reflexivity.
  - intros H. unfold multipliers, dget, streqb in H.
    repeat match type of H with
    | (if (if ?d then true else false) then _ else _) = _ =>
        destruct d as [->|]; [injection H as <- <-; constructor|]
    end. discriminate.
Qed.

Lemma scale_first : forall s m e, scale s m e -> match s with [] => True | c :: _ => num_char c = false end.
Proof. destruct 1; simpl; auto. Qed.

(** Every number field, whatever the case and the blanks around it, has its value. *)
Theorem C26_values : forall s n suf m e, wf_num n -> scale suf m e ->
  supper (strip s) = (render n ++ suf)%list ->
  convert_units s = Ok (fst (value n) * m, snd (value n) + e).
Proof.
  intros s n suf m e W SC E. unfold convert_units.
  destruct s as [|c s]; [exfalso; simpl in E; symmetry in E; apply app_eq_nil in E; destruct E as [E _];
                         exact (render_nonempty n W E)|].
  rewrite E, (span_app num_char) by (try apply num_chars_render; auto; eapply scale_first; eauto).
  destruct (render n) as [|c0 r] eqn:R; [exfalso; eapply render_nonempty; eauto|]. rewrite <- R.
  rewrite (float_render n W). apply table_scale in SC. rewrite SC. reflexivity.
Qed.
Print Assumptions C26_values.

(** Nothing else is accepted. *)
Theorem C26_nothing_else : forall s v, convert_units s = Ok v ->
  exists n suf m e, wf_num n /\ scale suf m e /\ supper (strip s) = (render n ++ suf)%list /\
    v = (fst (value n) * m, snd (value n) + e).
Proof.
  intros s v H. unfold convert_units in H. destruct s as [|c s]; [discriminate|].
  destruct (span num_char (supper (strip (c :: s)))) as [num mult] eqn:SP.
  apply span_spec in SP. destruct SP as (E & _ & _).
  destruct num as [|c0 num]; [discriminate|].
  destruct (float_of (c0 :: num)) as [w|] eqn:F; [|discriminate].
  apply float_inv in F. destruct F as (n & W & R & ->).
  destruct (dget streqb multipliers mult) as [[m e]|] eqn:D; [|discriminate]. injection H as <-.
  exists n, mult, m, e. rewrite R in E. split; [exact W|]. split; [apply table_scale; exact D|]. auto.
Qed.
Print Assumptions C26_nothing_else.

Theorem C26_empty : convert_units [] = Err NetlistParseError /\
  forall s, Forall (fun c => is_ws c = true) s -> s <> [] -> convert_units s = Err ValueError.
Proof.
  split; [reflexivity|]. intros s F NE. unfold convert_units. destruct s as [|c s]; [congruence|].
  assert (L : lstrip (c :: s) = []).
  { clear NE. revert F. generalize (c :: s). induction l as [|x l IH]; intros F; [reflexivity|].
    inversion F; subst. simpl. rewrite H1. auto. }
  unfold strip. rewrite L. reflexivity.
Qed.
Print Assumptions C26_empty.

(** Unit letters after the scale factor are refused (SPICE ignores them). *)
Theorem C26_unit_letters_refuted :
  convert_units (lit "10kohm") = Err ValueError /\ convert_units (lit "5V") = Err ValueError /\
  convert_units (lit "3pF") = Err ValueError.
Proof. vm_compute. auto. Qed.
Print Assumptions C26_unit_letters_refuted.

Example C26_example :
  convert_units (lit " -2.50e-3meg ") = Ok (-250, 1) /\ convert_units (lit "1.5M") = Ok (15, -4) /\
  convert_units (lit "3mil") = Ok (762, -7) /\ convert_units (lit "1f") = Ok (1, -15) /\
  convert_units (lit "1e") = Err ValueError.
Proof. vm_compute. auto. Qed.

(** * C27 *)

(** A continuation line: blanks, '+', text. *)
Definition continuation (body l : str) : Prop :=
  exists ws, Forall (fun c => is_ws c = true) ws /\ l = (ws ++ c_cont :: body)%list.
Definition starts_new (fp : list str) : Prop :=
  match fp with
  | [] => True
  | l :: _ => match strip l with [] => True | c :: _ => c <> c_cont end
  end.

Lemma is_ws_lower : forall c, is_ws (lower_ascii c) = is_ws c.
Proof. intros [[] [] [] [] [] [] [] []]; reflexivity. Qed.
Lemma is_ws_cont : is_ws c_cont = false. Proof. reflexivity. Qed.

Lemma split_aux_app_ws : forall s w c t, is_ws c = true ->
  split_aux w (s ++ c :: t) = (split_aux w s ++ split t)%list.
Proof.
  induction s as [|x s IH]; intros w c t H; simpl.
  - rewrite H. destruct w; reflexivity.
  - destruct (is_ws x); [destruct w; simpl; f_equal; auto|]; auto.
Qed.

Lemma split_lstrip : forall s, split (lstrip s) = split s.
Proof. unfold split. induction s as [|c s IH]; simpl; auto. destruct (is_ws c) eqn:E; auto. simpl. rewrite E. reflexivity. Qed.

Lemma split_ws_end : forall ws s w, Forall (fun c => is_ws c = true) ws -> split_aux w (s ++ ws) = split_aux w s.
Proof.
  intros ws s w F. destruct ws as [|c ws]; [rewrite app_nil_r; reflexivity|].
  inversion F; subst. rewrite split_aux_app_ws by assumption.
  replace (split ws) with (@nil str); [apply app_nil_r|].
  unfold split. clear -H2. induction H2; simpl; auto. rewrite H. exact IHForall.
Qed.

Lemma lstrip_decomp : forall s, exists ws, Forall (fun c => is_ws c = true) ws /\ s = (ws ++ lstrip s)%list.
Proof.
  induction s as [|c s IH]; simpl; [exists []; auto|]. destruct (is_ws c) eqn:E.
  - destruct IH as (ws & F & H). exists (c :: ws). split; [auto|]. simpl. rewrite <- H. reflexivity.
  - exists []. auto.
Qed.
Lemma rstrip_decomp : forall s, exists ws, Forall (fun c => is_ws c = true) ws /\ s = (rev (lstrip (rev s)) ++ ws)%list.
Proof.
  intros s. destruct (lstrip_decomp (rev s)) as (ws & F & H). exists (rev ws). split.
  - apply Forall_rev. exact F.
  - rewrite <- rev_app_distr, <- H, rev_involutive. reflexivity.
Qed.
Lemma split_slower : forall s w, split_aux (slower w) (slower s) = map slower (split_aux w s).
Proof.
  induction s as [|c s IH]; intros w; simpl.
  - destruct w; reflexivity.
  - rewrite is_ws_lower. destruct (is_ws c).
    + destruct w; simpl; [apply (IH [])|]. f_equal. apply (IH []).
    + rewrite <- IH. unfold slower at 3. rewrite map_app. reflexivity.
Qed.

(** What [join_lines] reads of a continuation line. *)
Lemma cont_strip : forall body l, continuation body l ->
  exists b', slower (strip l) = c_cont :: b' /\ split b' = map slower (split body).
Proof.
  intros body l (ws & F & ->). unfold strip.
  assert (L : lstrip (ws ++ c_cont :: body) = c_cont :: body).
  { clear -F. induction F; simpl; [reflexivity|]. rewrite H. exact IHF. }
  rewrite L. destruct (rstrip_decomp (c_cont :: body)) as (ws2 & F2 & H).
  destruct (rev (lstrip (rev (c_cont :: body)))) as [|c b2] eqn:R.
  - exfalso. simpl in H. destruct ws2 as [|w ws2]; [discriminate|]. injection H as <- _.
    inversion F2; subst. discriminate.
  - injection H as <- HB. exists (slower b2). split; [reflexivity|].
    rewrite HB. unfold split. rewrite split_ws_end by exact F2. apply (split_slower b2 []).
Qed.

(** The joined line has the words of the line and of the continuation lines, in
    order; reading goes on with the line after them (a blank one is dropped). *)
Theorem C27_continuation_lines : forall bodies conts fp line,
  Forall2 continuation bodies conts -> starts_new fp ->
  exists joined fp', join_lines (conts ++ fp) line = (joined, fp') /\
    split joined = (split line ++ concat (map (fun b => map slower (split b)) bodies))%list /\
    (fp' = fp \/ exists l, strip l = [] /\ fp = l :: fp').
Proof.
  intros bodies conts fp line H SN. revert line. induction H as [|b l bodies conts C H IH]; intros line.
  - simpl app. destruct fp as [|l fp]; simpl.
    + exists line, []. rewrite app_nil_r. auto.
    + simpl in SN. destruct (strip l) as [|c s] eqn:E; simpl.
      * exists line, fp. rewrite app_nil_r. repeat split; auto. right. exists l. auto.
      * exists line, (l :: fp). rewrite app_nil_r. repeat split; auto.
        destruct (ascii_dec (lower_ascii c) c_cont) as [EQ|]; [|reflexivity].
        exfalso. apply SN. revert EQ. clear. destruct c as [[] [] [] [] [] [] [] []]; intros EQ; vm_compute in EQ; try discriminate; reflexivity.
  - destruct (cont_strip b l C) as (b' & E & SB). simpl app. cbn [join_lines]. rewrite E.
    destruct (ascii_dec c_cont c_cont) as [_|]; [|congruence].
    destruct (IH (line ++ c_space :: b')%list) as (joined & fp' & J1 & J2 & J3).
    exists joined, fp'. split; [exact J1|]. split; [|exact J3].
    rewrite J2. unfold split at 1. rewrite split_aux_app_ws by reflexivity. fold (split line).
    simpl concat. rewrite SB, app_assoc. reflexivity.
Qed.
Print Assumptions C27_continuation_lines.

Example C27_example :
  let r := join_lines [lit "+ N2  "; lit "  +10K"; lit "V1 1 0 1"] (lit "r1 n1") in
  split (fst r) = [lit "r1"; lit "n1"; lit "n2"; lit "10k"] /\ snd r = [lit "V1 1 0 1"].
Proof. vm_compute. auto. Qed.
