(** Lemmas about the printing of numbers and the cutting of lines (Netlist.v). *)
From Coq Require Import Ascii String List Bool Arith ZArith QArith Qpower Qabs Lia Lqa.
From Verif Require Import Base BaseFacts Str Units Directive Netlist PropsParse.
Import ListNotations.
Open Scope Z_scope.

(** ** Decimal digits *)
Lemma digit_char : forall d, 0 <= d < 10 ->
  is_digit (ascii_of_nat (48 + Z.to_nat d)) = true /\ Z.of_nat (nat_of_ascii (ascii_of_nat (48 + Z.to_nat d))) - 48 = d.
Proof.
  intros d H.
  assert (C : d = 0 \/ d = 1 \/ d = 2 \/ d = 3 \/ d = 4 \/ d = 5 \/ d = 6 \/ d = 7 \/ d = 8 \/ d = 9) by lia.
  repeat (destruct C as [->|C]; [split; reflexivity|]). subst. split; reflexivity.
Qed.

Lemma digits_fuel_ok : forall fuel n, 0 <= n < 2 ^ Z.of_nat fuel ->
  (0 < fuel)%nat ->
  all_digits (digits_fuel fuel n) /\ dval (digits_fuel fuel n) = n /\ digits_fuel fuel n <> [] /\
  (0 < n -> 10 ^ (Z.of_nat (length (digits_fuel fuel n)) - 1) <= n).
Proof.
  induction fuel as [|fuel IH]; intros n H P; [lia|]. cbn [digits_fuel].
  destruct (digit_char (n mod 10)) as [D V]; [apply Z.mod_pos_bound; lia|].
  destruct (n <? 10) eqn:L.
  - apply Z.ltb_lt in L. rewrite Z.mod_small in * by lia. split; [constructor; auto; constructor|].
    split; [cbn [dval length]; rewrite V; simpl; lia|]. split; [discriminate|].
    intros N. simpl. lia.
  - apply Z.ltb_ge in L.
    assert (F : (0 < fuel)%nat). { destruct fuel; [exfalso|lia]. change (2 ^ Z.of_nat 1) with 2 in H. lia. }
    rewrite Nat2Z.inj_succ, Z.pow_succ_r in H by lia.
    destruct (IH (n / 10)) as (A & B & C & E).
    { split; [apply Z.div_pos; lia|]. apply Z.div_lt_upper_bound; lia. } { exact F. }
    split; [apply Forall_app; split; [exact A|constructor; auto; constructor]|].
    split.
    { rewrite dval_app, B. cbn [dval length]. rewrite V. change (10 ^ Z.of_nat 1) with 10. change (10 ^ Z.of_nat 0) with 1.
      pose proof (Z.div_mod n 10). lia. }
    split; [intros Q; apply app_eq_nil in Q; destruct Q; discriminate|].
    intros N. rewrite app_length. cbn [length]. rewrite Nat2Z.inj_add. change (Z.of_nat 1) with 1.
    replace (Z.of_nat (length (digits_fuel fuel (n / 10))) + 1 - 1) with (Z.succ (Z.of_nat (length (digits_fuel fuel (n / 10))) - 1)) by lia.
    assert (LL : (0 < length (digits_fuel fuel (n / 10)))%nat) by (destruct (digits_fuel fuel (n / 10)); [congruence|simpl; lia]).
    rewrite Z.pow_succ_r by lia. pose proof (Z.div_mod n 10). pose proof (Z.mod_pos_bound n 10).
    assert (0 < n / 10) by (apply Z.div_str_pos; lia). specialize (E H2). lia.
Qed.

Lemma digits_ok : forall n, 0 <= n ->
  all_digits (digits n) /\ dval (digits n) = n /\ digits n <> [] /\
  (0 < n -> 10 ^ (Z.of_nat (length (digits n)) - 1) <= n).
Proof.
  intros n H. unfold digits. apply digits_fuel_ok; [|lia]. split; [lia|].
  rewrite Nat2Z.inj_succ. pose proof (Z.log2_nonneg n). rewrite Z2Nat.id by lia.
  destruct (Z.eq_dec n 0) as [->|N]; [simpl; lia|]. apply Z.log2_spec. lia.
Qed.

Lemma dval_bound : forall s, all_digits s -> 0 <= dval s < 10 ^ Z.of_nat (length s).
Proof.
  induction 1 as [|c s D F IH]; [simpl; lia|]. cbn [dval length]. apply is_digit_range in D.
  rewrite Nat2Z.inj_succ, Z.pow_succ_r by lia. nia.
Qed.

Lemma digits_short : forall n k, 0 < n < 10 ^ Z.of_nat k -> (length (digits n) <= k)%nat.
Proof.
  intros n k H. destruct (digits_ok n ltac:(lia)) as (_ & _ & _ & E). specialize (E ltac:(lia)).
  destruct (le_lt_dec (length (digits n)) k) as [L|L]; [exact L|exfalso].
  assert (10 ^ Z.of_nat k <= 10 ^ (Z.of_nat (length (digits n)) - 1)) by (apply Z.pow_le_mono_r; lia). lia.
Qed.

(** ** Rounding *)
Lemma round_div_ok : forall a p, 0 <= a -> 0 < p ->
  2 * Z.abs (round_div a p * p - a) <= p /\ 0 <= round_div a p /\ (a mod p = 0 -> round_div a p * p = a).
Proof.
  intros a p A P. unfold round_div. pose proof (Z.div_mod a p ltac:(lia)) as D. pose proof (Z.mod_pos_bound a p P) as M.
  assert (Q : 0 <= a / p) by (apply Z.div_pos; lia).
  set (q := a / p) in *. set (r := a mod p) in *.
  destruct (2 * r <? p) eqn:E1; [apply Z.ltb_lt in E1; nia|]. apply Z.ltb_ge in E1.
  destruct (p <? 2 * r) eqn:E2; [apply Z.ltb_lt in E2; nia|]. apply Z.ltb_ge in E2.
  destruct (Z.even q); nia.
Qed.

Lemma round6_ok : forall a e q e', 0 < a -> round6 a e = (q, e') ->
  0 < q < 10 ^ 6 /\ e <= e' /\ 200000 * Z.abs (q * 10 ^ (e' - e) - a) <= a /\
  (forall m j, 0 <= j -> Z.abs m < 10 ^ 6 -> a = m * 10 ^ j -> q * 10 ^ (e' - e) = a).
Proof.
  intros a e q e' A H. destruct (digits_ok a ltac:(lia)) as (AD & DV & NE & LB). specialize (LB A).
  pose proof (dval_bound _ AD) as UB. rewrite DV in UB. unfold round6 in H.
  set (len := Z.of_nat (length (digits a))) in *.
  assert (LP : 0 < len). { unfold len. destruct (digits a); [congruence|simpl; lia]. }
  destruct (len - 6 <=? 0) eqn:K.
  { injection H as <- <-. apply Z.leb_le in K. rewrite Z.sub_diag, Z.pow_0_r.
    assert (10 ^ len <= 10 ^ 6) by (apply Z.pow_le_mono_r; lia). repeat split; intros; lia. }
  apply Z.leb_gt in K. set (k := len - 6) in *.
  assert (KP : 0 < 10 ^ k) by (apply Z.pow_pos_nonneg; lia).
  destruct (round_div_ok a (10 ^ k) ltac:(lia) KP) as (R1 & R2 & R3).
  assert (B1 : 100000 * 10 ^ k <= a).
  { replace (len - 1) with (5 + k) in LB by lia. rewrite Z.pow_add_r in LB by lia. change (10 ^ 5) with 100000 in LB. lia. }
  assert (B2 : a < 1000000 * 10 ^ k).
  { replace len with (6 + k) in UB by lia. rewrite Z.pow_add_r in UB by lia. change (10 ^ 6) with 1000000 in UB. lia. }
  assert (EX : forall m j, 0 <= j -> Z.abs m < 10 ^ 6 -> a = m * 10 ^ j -> round_div a (10 ^ k) * 10 ^ k = a).
  { intros m j J M E. apply R3.
    assert (KJ : k <= j).
    { destruct (Z_le_gt_dec k j) as [L|L]; [exact L|exfalso].
      assert (P : 10 ^ (j + 1) <= 10 ^ k) by (apply Z.pow_le_mono_r; lia). rewrite Z.pow_add_r in P by lia.
      change (10 ^ 1) with 10 in P. change (10 ^ 6) with 1000000 in M.
      assert (0 < 10 ^ j) by (apply Z.pow_pos_nonneg; lia). nia. }
    rewrite E. replace j with ((j - k) + k) by lia. rewrite Z.pow_add_r by lia.
    rewrite Z.mul_assoc. apply Z_mod_mult. }
  set (r := round_div a (10 ^ k)) in *.
  assert (RU : r <= 1000000) by nia. assert (RL : 100000 <= r) by nia.
  destruct (r =? 10 ^ 6) eqn:E.
  - apply Z.eqb_eq in E. change (10 ^ 6) with 1000000 in E. injection H as <- <-.
    replace (e + k + 1 - e) with (k + 1) by lia. rewrite Z.pow_add_r by lia. change (10 ^ 1) with 10.
    change (10 ^ 5) with 100000. change (10 ^ 6) with 1000000.
    split; [lia|]. split; [lia|]. split; [nia|]. intros m j J M Q. specialize (EX m j J M Q). nia.
  - apply Z.eqb_neq in E. change (10 ^ 6) with 1000000 in E. injection H as <- <-.
    replace (e + k - e) with k by lia. change (10 ^ 6) with 1000000.
    split; [lia|]. split; [lia|]. split; [nia|]. exact EX.
Qed.

Lemma strip0_ok : forall fuel a e a' e', 0 < a -> strip0 fuel a e = (a', e') ->
  0 < a' <= a /\ e <= e' /\ a' * 10 ^ (e' - e) = a.
Proof.
  induction fuel as [|fuel IH]; intros a e a' e' A H; simpl in H.
  - injection H as <- <-. rewrite Z.sub_diag, Z.pow_0_r. lia.
  - destruct (a mod 10 =? 0) eqn:M.
    + apply Z.eqb_eq in M. pose proof (Z.div_mod a 10 ltac:(lia)) as D.
      apply IH in H; [|lia]. destruct H as (H1 & H2 & H3).
      split; [lia|]. split; [lia|]. replace (e' - e) with (Z.succ (e' - (e + 1))) by lia.
      rewrite Z.pow_succ_r by lia. lia.
    + injection H as <- <-. rewrite Z.sub_diag, Z.pow_0_r. lia.
Qed.

(** ** Values *)
(** The number [m * 10^e]. *)
Definition dQ (d : dec) : Q := (inject_Z (fst d) * (10 # 1) ^ snd d)%Q.

Lemma ten_nz : ~ (10 # 1 == 0)%Q.
Proof. intros H. discriminate H. Qed.
Lemma ten_pos : forall e, (0 < (10 # 1) ^ e)%Q.
Proof. intros e. apply Qpower_0_lt. reflexivity. Qed.

Lemma dQ_shift : forall m e k, (0 <= k)%Z -> (dQ (m * 10 ^ k, e)%Z == dQ (m, e + k)%Z)%Q.
Proof.
  intros m e k K. unfold dQ. cbn [fst snd]. rewrite inject_Z_mult, (Zpower_Qpower 10 k K). change (inject_Z 10) with (10 # 1).
  rewrite Qpower_plus by exact ten_nz. ring.
Qed.

Lemma dQ_num : forall m e, (dQ (m, e) == inject_Z m * dQ (1%Z, e))%Q.
Proof. intros. unfold dQ. cbn [fst snd]. ring. Qed.
Lemma dQ_one_pos : forall e, (0 < dQ (1%Z, e))%Q.
Proof. intros. unfold dQ. cbn [fst snd]. rewrite Qmult_1_l. apply ten_pos. Qed.

(** ** "%g" *)
Lemma zeros_digits : forall n, all_digits (zeros n).
Proof. induction n; constructor; auto. Qed.
Lemma zeros_dval : forall n, dval (zeros n) = 0.
Proof. induction n; [reflexivity|]. cbn [zeros repeat dval]. change (repeat "0"%char n) with (zeros n). rewrite IHn. reflexivity. Qed.
Lemma zeros_length : forall n, length (zeros n) = n.
Proof. intros. apply repeat_length. Qed.

Lemma upper_digits : forall s, all_digits s -> supper s = s.
Proof.
  induction 1 as [|c s D F IH]; [reflexivity|]. unfold supper in *. cbn [map]. rewrite IH. f_equal.
  apply is_digit_range in D. destruct c as [[] [] [] [] [] [] [] []]; vm_compute in D; lia || reflexivity.
Qed.

Lemma show_exp_ok : forall x, exists sg ds, supper (show_exp x) = (show_sign sg ++ ds)%list /\ all_digits ds /\ ds <> [] /\
  sgn sg * dval ds = x.
Proof.
  intros x. unfold show_exp.
  exists (Some (x <? 0)), (if Z.abs x <? 10 then "0"%char :: digits (Z.abs x) else digits (Z.abs x)).
  destruct (digits_ok (Z.abs x) ltac:(lia)) as (A & B & C & _).
  assert (AD : all_digits (if Z.abs x <? 10 then "0"%char :: digits (Z.abs x) else digits (Z.abs x))).
  { destruct (Z.abs x <? 10); [constructor; auto|exact A]. }
  split.
  { unfold supper. cbn [map]. change (map upper_ascii) with supper. rewrite upper_digits by exact AD.
    destruct (x <? 0); reflexivity. }
  split; [exact AD|]. split; [destruct (Z.abs x <? 10); [discriminate|exact C]|].
  destruct (Z.abs x <? 10); [cbn [dval]|]; rewrite B;
    (destruct (x <? 0) eqn:E; cbn [sgn]; [apply Z.ltb_lt in E|apply Z.ltb_ge in E]); change (Z.of_nat (nat_of_ascii "0")) with 48; lia.
Qed.

Lemma with_point_ok : forall ds k, (0 < k)%nat -> all_digits ds -> (0 < length ds)%nat -> exists dot,
  with_point ds k = (firstn k ds ++ (if dot : bool then lit "." else []) ++ skipn k ds)%list /\
  (dot = false -> skipn k ds = []).
Proof.
  intros ds k K A L. unfold with_point. destruct (skipn k ds) as [|c r] eqn:E.
  - exists false. split; [|reflexivity]. rewrite !app_nil_r.
    rewrite firstn_all2; [reflexivity|]. pose proof (skipn_length k ds) as SL. rewrite E in SL. simpl in SL. lia.
  - exists true. split; [|discriminate]. reflexivity.
Qed.

Lemma Forall_firstn_ : forall (A : Type) (P : A -> Prop) k l, Forall P l -> Forall P (firstn k l).
Proof. intros A P k l F. rewrite <- (firstn_skipn k l) in F. apply Forall_app in F. tauto. Qed.
Lemma Forall_skipn_ : forall (A : Type) (P : A -> Prop) k l, Forall P l -> Forall P (skipn k l).
Proof. intros A P k l F. rewrite <- (firstn_skipn k l) in F. apply Forall_app in F. tauto. Qed.

Lemma supper_app : forall a b, supper (a ++ b) = (supper a ++ supper b)%list.
Proof. intros. apply map_app. Qed.

(** What ["%g"] writes is a number field with the value that was rounded. *)
Lemma fmt_g_render : forall m e a1 e1 a e2, m <> 0 -> round6 (Z.abs m) e = (a1, e1) -> strip0 6 a1 e1 = (a, e2) ->
  exists n, wf_num n /\ supper (fmt_g (m, e)) = render n /\ (dQ (value n) == dQ (Z.sgn m * a, e2)%Z)%Q.
Proof.
  intros m e a1 e1 a e2 M R6 S0. unfold fmt_g. destruct (m =? 0) eqn:E0; [apply Z.eqb_eq in E0; congruence|]. clear E0.
  rewrite R6, S0. destruct (round6_ok (Z.abs m) e a1 e1 ltac:(lia) R6) as (Q1 & _ & _ & _).
  destruct (strip0_ok 6 a1 e1 a e2 ltac:(lia) S0) as (P1 & _ & _).
  destruct (digits_ok a ltac:(lia)) as (AD & DV & NE & _).
  set (ds := digits a) in *. set (len := length ds) in *.
  assert (LP : (0 < len)%nat). { unfold len. destruct ds; [congruence|simpl; lia]. }
  set (x := e2 + Z.of_nat len - 1).
  set (sg := if m <? 0 then Some true else None : option bool).
  assert (SG : forall t, supper ((if m <? 0 then [c_minus] else []) ++ t) = (show_sign sg ++ supper t)%list).
  { intros t. rewrite supper_app. unfold sg. destruct (m <? 0); reflexivity. }
  assert (SGN : sgn sg = Z.sgn m).
  { unfold sg. destruct (m <? 0) eqn:L; [apply Z.ltb_lt in L|apply Z.ltb_ge in L]; simpl; lia. }
  rewrite SG. clear SG.
  destruct ((x <? -4) || (6 <=? x)) eqn:SCI.
  - (* scientific *)
    destruct (with_point_ok ds 1 ltac:(lia) AD LP) as (dot & WP & WD).
    destruct (show_exp_ok x) as (es & ed & SE & ED & EN & EV).
    exists (mkNum sg (firstn 1 ds) dot (skipn 1 ds) (Some (es, ed))).
    assert (W1 : all_digits (firstn 1 ds)) by (apply Forall_firstn_; exact AD).
    assert (W2 : all_digits (skipn 1 ds)) by (apply Forall_skipn_; exact AD).
    split; [|split].
    + unfold wf_num. cbn [n_sign n_int n_dot n_frac n_exp]. repeat split; auto.
      rewrite firstn_skipn. exact NE.
    + unfold render. cbn [n_sign n_int n_dot n_frac n_exp]. f_equal. rewrite WP.
      rewrite supper_app. change (supper ("e"%char :: show_exp x)) with ("E"%char :: supper (show_exp x)). rewrite SE.
      rewrite !supper_app, (upper_digits _ W1), (upper_digits _ W2). replace (supper (if dot then lit "." else [])) with (if dot then lit "." else []) by (destruct dot; reflexivity).
      rewrite <- !app_assoc. destruct dot; reflexivity.
    + unfold value. cbn [n_sign n_int n_dot n_frac n_exp].
      rewrite <- dval_app, firstn_skipn, DV, SGN, EV, skipn_length.
      replace (x - Z.of_nat (length ds - 1)) with e2; [reflexivity|]. unfold x. fold len. lia.
  - apply orb_false_iff in SCI. destruct SCI as [X1 X2]. apply Z.ltb_ge in X1. apply Z.leb_gt in X2.
    destruct (x <? 0) eqn:XN.
    + (* 0.000... *)
      apply Z.ltb_lt in XN.
      exists (mkNum sg (lit "0") true (zeros (Z.to_nat (- x - 1)) ++ ds) None).
      assert (W2 : all_digits (zeros (Z.to_nat (- x - 1)) ++ ds)) by (apply Forall_app; split; [apply zeros_digits|exact AD]).
      split; [|split].
      * unfold wf_num. cbn [n_sign n_int n_dot n_frac n_exp]. repeat split; auto; try discriminate.
        repeat constructor.
      * unfold render. cbn [n_sign n_int n_dot n_frac n_exp]. f_equal.
        rewrite supper_app, (upper_digits _ W2), app_nil_r. reflexivity.
      * unfold value. cbn [n_sign n_int n_dot n_frac n_exp]. rewrite dval_app, zeros_dval, DV, SGN, app_length, zeros_length.
        change (dval (lit "0")) with 0. rewrite !Z.mul_0_l, !Z.add_0_l.
        replace (0 - Z.of_nat (Z.to_nat (- x - 1) + length ds)) with e2; [reflexivity|]. unfold x in *. fold len. lia.
    + apply Z.ltb_ge in XN. destruct (e2 <? 0) eqn:EN.
      * (* a point inside *)
        apply Z.ltb_lt in EN.
        destruct (with_point_ok ds (S (Z.to_nat x)) ltac:(lia) AD LP) as (dot & WP & WD).
        exists (mkNum sg (firstn (S (Z.to_nat x)) ds) dot (skipn (S (Z.to_nat x)) ds) None).
        assert (W1 : all_digits (firstn (S (Z.to_nat x)) ds)) by (apply Forall_firstn_; exact AD).
        assert (W2 : all_digits (skipn (S (Z.to_nat x)) ds)) by (apply Forall_skipn_; exact AD).
        split; [|split].
        -- unfold wf_num. cbn [n_sign n_int n_dot n_frac n_exp]. repeat split; auto.
           rewrite firstn_skipn. exact NE.
        -- unfold render. cbn [n_sign n_int n_dot n_frac n_exp]. f_equal. rewrite WP.
           rewrite !supper_app, (upper_digits _ W1), (upper_digits _ W2), app_nil_r. destruct dot; reflexivity.
        -- unfold value. cbn [n_sign n_int n_dot n_frac n_exp].
           rewrite <- dval_app, firstn_skipn, DV, SGN, skipn_length.
           replace (0 - Z.of_nat (length ds - S (Z.to_nat x))) with e2; [reflexivity|]. unfold x in *. fold len. lia.
      * (* an integer *)
        apply Z.ltb_ge in EN. exists (mkNum sg (ds ++ zeros (Z.to_nat e2)) false [] None).
        assert (W1 : all_digits (ds ++ zeros (Z.to_nat e2))) by (apply Forall_app; split; [exact AD|apply zeros_digits]).
        split; [|split].
        -- unfold wf_num. cbn [n_sign n_int n_dot n_frac n_exp]. repeat split; auto; try (constructor; fail).
           intros Q. rewrite app_nil_r in Q. apply app_eq_nil in Q. tauto.
        -- unfold render. cbn [n_sign n_int n_dot n_frac n_exp]. f_equal. cbn [app]. rewrite app_nil_r. apply upper_digits, W1.
        -- unfold value. cbn [n_sign n_int n_dot n_frac n_exp]. cbn [length dval]. rewrite dval_app, zeros_dval, DV, SGN, zeros_length.
           rewrite Z2Nat.id by lia. change (Z.of_nat 0) with 0. rewrite Z.pow_0_r, Z.mul_1_r, !Z.add_0_r.
           rewrite Z.mul_assoc, (dQ_shift (Z.sgn m * a) 0 e2) by lia. reflexivity.
Qed.

(** ** What is read back *)
(** [w] is [v] rounded to six significant digits: the relative error is at most
    5e-6, and there is none if six digits are enough for [v]. *)
Definition rounded (v w : dec) : Prop :=
  (Qabs (dQ w - dQ v) * 200000 <= Qabs (dQ v))%Q /\
  (forall m e, (Z.abs m < 10 ^ 6)%Z -> (dQ v == dQ (m, e))%Q -> (dQ w == dQ v)%Q).

Lemma clean_strip : forall s, Forall (fun c => is_ws c = false) s -> strip s = s.
Proof.
  intros s F. assert (L : forall t, Forall (fun c => is_ws c = false) t -> lstrip t = t).
  { intros t H. destruct H as [|c t C H]; [reflexivity|]. simpl. rewrite C. reflexivity. }
  unfold strip. rewrite (L s F), L by (apply Forall_rev; exact F). apply rev_involutive.
Qed.

Lemma num_char_clean : forall c, num_char (upper_ascii c) = true -> is_ws c = false /\ is_eq c = false /\ c <> c_star.
Proof. intros c H. destruct c as [[] [] [] [] [] [] [] []]; vm_compute in H; try discriminate H; repeat split; discriminate. Qed.

Lemma lower_upper : forall c, upper_ascii (lower_ascii c) = upper_ascii c.
Proof. intros c. destruct c as [[] [] [] [] [] [] [] []]; reflexivity. Qed.
Lemma supper_slower_ : forall s, supper (slower s) = supper s.
Proof. intros s. unfold supper, slower. rewrite map_map. apply map_ext, lower_upper. Qed.

(** A token without blanks, equal signs or a star at the beginning. *)
Definition clean (t : str) : Prop := t <> [] /\ Forall (fun c => is_ws c = false) t /\ Forall (fun c => is_eq c = false) t /\ starred t = false.

Lemma number_clean : forall s n, wf_num n -> supper s = render n -> clean s.
Proof.
  intros s n W E. assert (F : Forall (fun c => is_ws c = false /\ is_eq c = false /\ c <> c_star) s).
  { pose proof (num_chars_render n W) as F. rewrite <- E in F. unfold supper in F. rewrite Forall_map in F.
    eapply Forall_impl; [|exact F]. intros c. apply num_char_clean. }
  repeat split.
  - intros ->. apply (render_nonempty n W). rewrite <- E. reflexivity.
  - eapply Forall_impl; [|exact F]. intros c (H1 & H2 & H3); assumption.
  - eapply Forall_impl; [|exact F]. intros c (H1 & H2 & H3); assumption.
  - destruct s as [|c s]; [reflexivity|]. inversion F; subst. destruct H1 as (_ & _ & N). unfold starred.
    destruct (ascii_dec c c_star); [contradiction|reflexivity].
Qed.

Lemma read_number : forall s n, wf_num n -> supper s = render n -> exists d, convert_units s = Ok d /\ (dQ d == dQ (value n))%Q.
Proof.
  intros s n W E. destruct (number_clean s n W E) as (_ & F & _).
  exists (fst (value n) * 1, snd (value n) + 0). split.
  - apply C26_values with (suf := []); [exact W|constructor|]. rewrite clean_strip by exact F. rewrite app_nil_r. exact E.
  - rewrite Z.mul_1_r, Z.add_0_r. destruct (value n). reflexivity.
Qed.

Lemma Qpow_nz : forall e, ~ ((10 # 1) ^ e == 0)%Q.
Proof. intros e H. pose proof (ten_pos e). rewrite H in H0. discriminate H0. Qed.

Lemma dQ_eq_int : forall a e m j, (dQ (a, e) == dQ (m, j))%Q -> (e <= j)%Z -> a = (m * 10 ^ (j - e))%Z.
Proof.
  intros a e m j H L. replace j with (e + (j - e)) in H by lia. rewrite <- dQ_shift in H by lia.
  unfold dQ in H. cbn [fst snd] in H. apply Qmult_inj_r in H; [|apply Qpow_nz]. unfold Qeq in H. simpl in H. lia.
Qed.

Lemma Qabs_pos_mult : forall a b, (0 <= b)%Q -> (Qabs (a * b) == Qabs a * b)%Q.
Proof. intros a b H. rewrite Qabs_Qmult, (Qabs_pos b H). reflexivity. Qed.

Lemma fmt_g_read : forall v, exists w, convert_units (slower (fmt_g v)) = Ok w /\ rounded v w /\ clean (slower (fmt_g v)).
Proof.
  intros [m e]. destruct (Z.eq_dec m 0) as [->|M].
  { exists (0, 0). split; [reflexivity|]. split.
    - split; [unfold dQ; cbn [fst snd]; rewrite !Qmult_0_l; discriminate|].
      intros k j _ _. unfold dQ. cbn [fst snd]. rewrite !Qmult_0_l. reflexivity.
    - repeat split; try discriminate; repeat constructor. }
  destruct (round6 (Z.abs m) e) as [a1 e1] eqn:R6. destruct (strip0 6 a1 e1) as [a e2] eqn:S0.
  destruct (fmt_g_render m e a1 e1 a e2 M R6 S0) as (n & W & E & V).
  rewrite <- supper_slower_ in E.
  destruct (read_number _ _ W E) as (w & C & DW). exists w. split; [exact C|]. split; [|apply (number_clean _ _ W E)].
  destruct (round6_ok (Z.abs m) e a1 e1 ltac:(lia) R6) as (Q1 & Q2 & Q3 & Q4).
  destruct (strip0_ok 6 a1 e1 a e2 ltac:(lia) S0) as (P1 & P2 & P3).
  assert (DV : (dQ w == dQ (Z.sgn m * (a1 * 10 ^ (e1 - e)), e)%Z)%Q).
  { rewrite DW, V. rewrite <- P3.
    replace (Z.sgn m * (a * 10 ^ (e2 - e1) * 10 ^ (e1 - e))) with (Z.sgn m * a * 10 ^ (e2 - e)).
    - rewrite dQ_shift by lia. replace (e + (e2 - e)) with e2 by lia. reflexivity.
    - replace (e2 - e) with ((e2 - e1) + (e1 - e)) by lia. rewrite Z.pow_add_r by lia. ring. }
  split.
  - rewrite DV. rewrite (dQ_num (Z.sgn m * _)), (dQ_num m).
    rewrite <- (Qabs_pos (dQ (1%Z, e))) at 1 by (apply Qlt_le_weak, dQ_one_pos).
    set (u := dQ (1%Z, e)). assert (U : (0 < u)%Q) by apply dQ_one_pos. rewrite (Qabs_pos u) by (apply Qlt_le_weak, U).
    setoid_replace (inject_Z (Z.sgn m * (a1 * 10 ^ (e1 - e)))%Z * u - inject_Z m * u)%Q
      with (inject_Z (Z.sgn m * (a1 * 10 ^ (e1 - e)) - m)%Z * u)%Q.
    2:{ unfold Zminus. rewrite inject_Z_plus, inject_Z_opp. ring. }
    rewrite !Qabs_pos_mult by (apply Qlt_le_weak, U).
    setoid_replace (Qabs (inject_Z (Z.sgn m * (a1 * 10 ^ (e1 - e)) - m)%Z) * u * 200000)%Q
      with (Qabs (inject_Z (Z.sgn m * (a1 * 10 ^ (e1 - e)) - m)%Z) * 200000 * u)%Q by ring.
    apply Qmult_le_compat_r; [|apply Qlt_le_weak, U].
    unfold Qle, Qabs, inject_Z. simpl. lia.
  - intros k j K EQ. rewrite DV. destruct (Z_le_gt_dec e j) as [L|L].
    + apply dQ_eq_int in EQ; [|exact L]. specialize (Q4 (Z.abs k) (j - e) ltac:(lia) ltac:(lia)).
      rewrite Q4.
      * replace (Z.sgn m * Z.abs m) with m by lia. reflexivity.
      * rewrite EQ, Z.abs_mul. f_equal. apply Z.abs_eq. apply Z.pow_nonneg. lia.
    + symmetry in EQ. apply dQ_eq_int in EQ; [|lia].
      assert (MB : Z.abs m < 10 ^ 6).
      { assert (1 <= 10 ^ (e - j)) by (apply Z.lt_pred_le; apply Z.pow_pos_nonneg; lia). nia. }
      rewrite (Q4 (Z.abs m) 0 ltac:(lia) ltac:(lia)); [|rewrite Z.pow_0_r; lia].
      replace (Z.sgn m * Z.abs m) with m by lia. reflexivity.
Qed.

(** ** Cutting *)
Lemma split_token : forall t w s, Forall (fun c => is_ws c = false) t -> split_aux w (t ++ s) = split_aux (w ++ t) s.
Proof.
  induction t as [|c t IH]; intros w s F; simpl; [rewrite app_nil_r; reflexivity|].
  inversion F; subst. rewrite H1, IH by assumption. rewrite <- app_assoc. reflexivity.
Qed.
Lemma split_spaced : forall l, Forall (fun t => t <> [] /\ Forall (fun c => is_ws c = false) t) l -> split (spaced l) = l.
Proof.
  unfold split. induction l as [|t l IH]; intros F; [reflexivity|]. inversion F as [|? ? [N W] F']; subst.
  destruct l as [|u l].
  - cbn [spaced]. rewrite <- (app_nil_r t) at 1. rewrite split_token by exact W. simpl. destruct t; [congruence|reflexivity].
  - change (spaced (t :: u :: l)) with (t ++ sp_ :: spaced (u :: l))%list. rewrite split_token by exact W.
    simpl app. cbn [split_aux]. change (is_ws sp_) with true. cbv iota.
    destruct t as [|c t]; [congruence|]. rewrite IH by exact F'. reflexivity.
Qed.
Lemma slower_spaced : forall l, slower (spaced l) = spaced (map slower l).
Proof.
  induction l as [|t l IH]; [reflexivity|]. destruct l as [|u l]; [reflexivity|].
  change (spaced (t :: u :: l)) with (t ++ sp_ :: spaced (u :: l))%list. unfold slower at 1. rewrite map_app. cbn [map].
  change (map lower_ascii) with slower in *. rewrite IH. reflexivity.
Qed.
