(** Property theorems about the post-processing directives (C156-C162). *)
From Coq Require Import Ascii String List Bool Arith ZArith Reals Lia Lra.
From Verif Require Import Base BaseFacts Str Units Directive Csv PropsCsv Rsum Newton Mna Results Postproc.
Import ListNotations.
Open Scope list_scope.

(** * C156: what a user writes *)

(** A signal: the voltage between two nodes, of one node, the current of an element. *)
Inductive want : Type := WPair (a b : str) | WV (a : str) | WI (a : str).
Definition blanks (w : str) : Prop := Forall (fun c => is_ws c = true) w.
Definition name (n : str) : Prop := Forall (fun c => is_word c = true) n.

(** The ways to write it: either case, blanks allowed around the names. *)
Inductive writes : want -> str -> Prop :=
| wr_pair : forall c w1 w2 a w3 w4 b w5, upper_ascii c = "V"%char -> blanks w1 -> blanks w2 -> name a -> blanks w3 -> blanks w4 -> name b -> blanks w5 ->
    writes (WPair a b) (c :: w1 ++ "("%char :: w2 ++ a ++ w3 ++ ","%char :: w4 ++ b ++ w5 ++ [")"%char])
| wr_v : forall c w1 w2 a w3, upper_ascii c = "V"%char -> blanks w1 -> blanks w2 -> name a -> blanks w3 ->
    writes (WV a) (c :: w1 ++ "("%char :: w2 ++ a ++ w3 ++ [")"%char])
| wr_i : forall c w1 w2 a w3, upper_ascii c = "I"%char -> blanks w1 -> blanks w2 -> name a -> blanks w3 ->
    writes (WI a) (c :: w1 ++ "("%char :: w2 ++ a ++ w3 ++ [")"%char]).

(** A line with signals, and between them any text without an opening parenthesis. *)
Definition filler (j : str) : Prop := Forall (fun c => c <> "("%char) j.
Inductive line_of : list want -> str -> Prop :=
| ln_end : forall j, filler j -> line_of [] j
| ln_item : forall j x t l s, filler j -> writes x t -> line_of l s -> line_of (x :: l) (j ++ t ++ s).

(** The entries of the result, by kind. *)
Definition pairs_of (l : list want) : list (str * str) := flat_map (fun x => match x with WPair a b => [(a, b)] | _ => [] end) l.
Definition volts_of (l : list want) : list str := flat_map (fun x => match x with WV a => [a] | _ => [] end) l.
Definition amps_of (l : list want) : list str := flat_map (fun x => match x with WI a => [a] | _ => [] end) l.
Definition v_label (a : str) : str := lit "V" ++ supper a.
Definition i_label (a : str) : str := lit "I(" ++ supper a ++ lit ")".
Definition pair_label (p : str * str) : lab :=
  if streqb (supper (snd p)) (lit "0") then One (v_label (fst p)) else Two (v_label (fst p)) (Some (v_label (snd p))).
Definition labels_of (l : list want) : list lab :=
  map pair_label (pairs_of l) ++ map (fun a => Two (v_label a) None) (volts_of l) ++ map (fun a => Two (i_label a) None) (amps_of l).

(** ** Characters *)
Ltac all_ascii := intros [b0 b1 b2 b3 b4 b5 b6 b7]; destruct b0, b1, b2, b3, b4, b5, b6, b7; vm_compute; try discriminate; auto.
Lemma word_not_ws : forall c, is_word c = true -> is_ws c = false.
Proof. all_ascii. Qed.
Lemma ws_not_word : forall c, is_ws c = true -> is_word c = false.
Proof. all_ascii. Qed.
Lemma upper_ws : forall c, is_ws (upper_ascii c) = is_ws c.
Proof. all_ascii. Qed.
Lemma upper_word : forall c, is_word (upper_ascii c) = is_word c.
Proof. all_ascii. Qed.
Lemma upper_idem : forall c, upper_ascii (upper_ascii c) = upper_ascii c.
Proof. all_ascii. Qed.
Lemma upper_open : forall c, upper_ascii c = "("%char -> c = "("%char.
Proof. all_ascii. Qed.
Lemma ws_not_V : forall c, is_ws c = true -> c <> "V"%char /\ c <> "I"%char /\ c <> "("%char.
Proof. all_ascii; intros _; repeat split; discriminate. Qed.
Lemma word_not_open : forall c, is_word c = true -> c <> "("%char.
Proof. all_ascii; intros; discriminate. Qed.

Lemma supper_app : forall a b, supper (a ++ b) = supper a ++ supper b.
Proof. intros. apply map_app. Qed.
Lemma blanks_upper : forall w, blanks w -> blanks (supper w).
Proof. intros w H. unfold blanks, supper. rewrite Forall_map. eapply Forall_impl; [|exact H]. intros c A. cbv beta. rewrite upper_ws. exact A. Qed.
Lemma name_upper : forall w, name w -> name (supper w).
Proof. intros w H. unfold name, supper. rewrite Forall_map. eapply Forall_impl; [|exact H]. intros c A. cbv beta. rewrite upper_word. exact A. Qed.
Lemma filler_upper : forall w, filler w -> filler (supper w).
Proof. intros w H. unfold filler, supper. rewrite Forall_map. eapply Forall_impl; [|exact H]. intros c A B. apply A, upper_open, B. Qed.
Lemma supper_idem : forall s, supper (supper s) = supper s.
Proof. intros s. unfold supper. rewrite map_map. apply map_ext. exact upper_idem. Qed.

Definition upw (x : want) : want := match x with WPair a b => WPair (supper a) (supper b) | WV a => WV (supper a) | WI a => WI (supper a) end.
Lemma writes_upper : forall x t, writes x t -> writes (upw x) (supper t).
Proof.
  intros x t H. destruct H as [c w1 w2 a w3 w4 b w5 C ? ? ? ? ? ? ?|c w1 w2 a w3 C ? ? ? ?|c w1 w2 a w3 C ? ? ? ?]; cbn [upw supper map].
  - repeat (rewrite ?map_app; cbn [map]). apply wr_pair; try apply blanks_upper; try apply name_upper; auto. rewrite upper_idem; exact C.
  - repeat (rewrite ?map_app; cbn [map]). apply wr_v; try apply blanks_upper; try apply name_upper; auto. rewrite upper_idem; exact C.
  - repeat (rewrite ?map_app; cbn [map]). apply wr_i; try apply blanks_upper; try apply name_upper; auto. rewrite upper_idem; exact C.
Qed.
Lemma line_upper : forall l s, line_of l s -> line_of (map upw l) (supper s).
Proof.
  intros l s H. induction H as [j J|j x t l s J W H IH]; cbn [map]; [apply ln_end, filler_upper, J|].
  rewrite !supper_app. apply ln_item; [apply filler_upper; exact J|apply writes_upper; exact W|exact IH].
Qed.

(** ** [strip] *)
Lemma lstrip_suffix : forall s, exists w, s = w ++ lstrip s.
Proof. induction s as [|c s [w IH]]; [exists []; reflexivity|]. cbn [lstrip]. destruct (is_ws c); [exists (c :: w); cbn; f_equal; exact IH|exists []; reflexivity]. Qed.
Lemma lstrip_app : forall s c t, is_ws c = false -> lstrip (s ++ c :: t) = lstrip s ++ c :: t.
Proof. induction s as [|x s IH]; intros c t C; cbn; [rewrite C; reflexivity|]. destruct (is_ws x); [apply IH; exact C|reflexivity]. Qed.
Lemma filler_lstrip : forall j, filler j -> filler (lstrip j).
Proof. intros j H. destruct (lstrip_suffix j) as [w E]. unfold filler in *. rewrite E in H. apply Forall_app in H. exact (proj2 H). Qed.
Definition rstrip (s : str) : str := rev (lstrip (rev s)).
Lemma rstrip_app : forall a c t, is_ws c = false -> rstrip (a ++ c :: t) = a ++ c :: rstrip t.
Proof.
  intros a c t C. unfold rstrip. rewrite rev_app_distr. cbn [rev]. rewrite <- app_assoc. cbn [app]. rewrite lstrip_app by exact C.
  rewrite rev_app_distr. cbn [rev]. rewrite rev_involutive, <- app_assoc. reflexivity.
Qed.
Lemma filler_rstrip : forall j, filler j -> filler (rstrip j).
Proof. intros j H. unfold rstrip. apply Forall_rev, filler_lstrip. apply Forall_rev. exact H. Qed.

Lemma upper_V_ws : forall c, upper_ascii c = "V"%char -> is_ws c = false.
Proof. intros c H. rewrite <- upper_ws, H. reflexivity. Qed.
Lemma upper_I_ws : forall c, upper_ascii c = "I"%char -> is_ws c = false.
Proof. intros c H. rewrite <- upper_ws, H. reflexivity. Qed.
Lemma writes_ends : forall x t, writes x t -> exists c m, t = c :: m ++ [")"%char] /\ is_ws c = false.
Proof.
  intros x t H. destruct H as [c w1 w2 a w3 w4 b w5 C|c w1 w2 a w3 C|c w1 w2 a w3 C].
  - exists c. exists (w1 ++ "("%char :: w2 ++ a ++ w3 ++ ","%char :: w4 ++ b ++ w5). split; [|apply upper_V_ws; exact C].
    repeat (rewrite <- ?app_assoc; cbn [app]). reflexivity.
  - exists c. exists (w1 ++ "("%char :: w2 ++ a ++ w3). split; [|apply upper_V_ws; exact C]. repeat (rewrite <- ?app_assoc; cbn [app]). reflexivity.
  - exists c. exists (w1 ++ "("%char :: w2 ++ a ++ w3). split; [|apply upper_I_ws; exact C]. repeat (rewrite <- ?app_assoc; cbn [app]). reflexivity.
Qed.
Lemma line_lstrip : forall l s, line_of l s -> line_of l (lstrip s).
Proof.
  intros l s H. destruct H as [j J|j x t l s J W H]; [apply ln_end, filler_lstrip, J|].
  destruct (writes_ends _ _ W) as (c & m & E & C). rewrite E. cbn [app]. rewrite lstrip_app by exact C.
  change (c :: (m ++ [")"%char]) ++ s) with ((c :: m ++ [")"%char]) ++ s). rewrite <- E. apply ln_item; [apply filler_lstrip; exact J|exact W|exact H].
Qed.
Lemma line_rstrip : forall l s, line_of l s -> line_of l (rstrip s).
Proof.
  intros l s H. induction H as [j J|j x t l s J W H IH]; [apply ln_end, filler_rstrip, J|].
  destruct (writes_ends _ _ W) as (c & m & E & C).
  assert (F : rstrip (j ++ t ++ s) = j ++ t ++ rstrip s).
  { rewrite E. rewrite !app_assoc. replace ((j ++ c :: m ++ [")"%char]) ++ s) with ((j ++ c :: m) ++ ")"%char :: s)
      by (repeat (rewrite <- ?app_assoc; cbn [app]); reflexivity).
    rewrite rstrip_app by reflexivity. repeat (rewrite <- ?app_assoc; cbn [app]). reflexivity. }
  rewrite F. apply ln_item; assumption.
Qed.
Lemma line_strip : forall l s, line_of l s -> line_of l (strip s).
Proof. intros l s H. apply line_rstrip, line_lstrip, H. Qed.

(** ** The matchers *)
Lemma span_take : forall p a c r, Forall (fun x => p x = true) a -> p c = false -> span p (a ++ c :: r) = (a, c :: r).
Proof. induction a as [|x a IH]; intros c r A C; cbn [app span]; [rewrite C; reflexivity|]. inversion A; subst. rewrite H1, IH by assumption. reflexivity. Qed.
Lemma span_split : forall p s, s = fst (span p s) ++ snd (span p s) /\ Forall (fun x => p x = true) (fst (span p s)).
Proof.
  induction s as [|c s [E F]]; cbn [span]; [split; [reflexivity|constructor]|]. destruct (p c) eqn:P; [|split; [reflexivity|constructor]].
  destruct (span p s) as [a b]; cbn in *. split; [f_equal; exact E|constructor; assumption].
Qed.

Lemma word_ws_eats : forall w2 a w3 c r d, blanks w2 -> name a -> blanks w3 -> is_ws c = false -> is_word c = false ->
  word_ws (w2 ++ a ++ w3 ++ c :: r) = (a, snd (word_ws (w2 ++ a ++ w3 ++ c :: r))) /\
  eat_ws d (snd (word_ws (w2 ++ a ++ w3 ++ c :: r))) = eat d (c :: r).
Proof.
  intros w2 a w3 c r d W2 A W3 CW CD. unfold word_ws, eat_ws.
  destruct a as [|x a].
  - cbn [app]. rewrite app_assoc. rewrite span_take by (try exact CW; apply Forall_app; split; assumption). cbn [snd].
    change (c :: r) with ([] ++ c :: r). rewrite (span_take is_word [] c r) by (try constructor; exact CD). cbn [fst snd].
    change (c :: r) with ([] ++ c :: r). rewrite (span_take is_ws [] c r) by (try constructor; exact CW). split; reflexivity.
  - assert (AX : is_word x = true) by (inversion A; assumption).
    cbn [app]. rewrite span_take by (try assumption; apply word_not_ws; exact AX). cbn [snd].
    destruct w3 as [|y w3].
    + cbn [app]. change (x :: a ++ c :: r) with ((x :: a) ++ c :: r). rewrite span_take by assumption. cbn [fst snd].
      change (c :: r) with ([] ++ c :: r). rewrite (span_take is_ws [] c r) by (try constructor; exact CW). split; reflexivity.
    + cbn [app]. change (x :: a ++ y :: w3 ++ c :: r) with ((x :: a) ++ y :: w3 ++ c :: r).
      rewrite (span_take is_word) by (try assumption; apply ws_not_word; inversion W3; assumption). cbn [fst snd].
      change (y :: w3 ++ c :: r) with ((y :: w3) ++ c :: r). rewrite span_take by assumption. split; reflexivity.
Qed.
Lemma eat_ws_open : forall w r, blanks w -> eat_ws c_open (w ++ "("%char :: r) = Some r.
Proof. intros w r W. unfold eat_ws. rewrite span_take by (try exact W; reflexivity). reflexivity. Qed.

Lemma m_pair_hit : forall w1 w2 a w3 w4 b w5 s, blanks w1 -> blanks w2 -> name a -> blanks w3 -> blanks w4 -> name b -> blanks w5 ->
  m_pair ("V"%char :: w1 ++ "("%char :: w2 ++ a ++ w3 ++ ","%char :: w4 ++ b ++ w5 ++ ")"%char :: s) = Some ((a, b), s).
Proof.
  intros w1 w2 a w3 w4 b w5 s B1 B2 A B3 B4 B B5. unfold m_pair. cbn [eat]. rewrite (Ascii.eqb_refl "V"%char). rewrite eat_ws_open by exact B1.
  destruct (word_ws_eats w2 a w3 ","%char (w4 ++ b ++ w5 ++ ")"%char :: s) c_comma) as [E1 E2]; try assumption; try reflexivity.
  rewrite E1. cbn beta iota zeta. rewrite E2. cbn [eat]. unfold c_comma. rewrite (Ascii.eqb_refl ","%char).
  destruct (word_ws_eats w4 b w5 ")"%char s c_close) as [F1 F2]; try assumption; try reflexivity.
  rewrite F1. cbn beta iota zeta. rewrite F2. cbn [eat]. unfold c_close. rewrite (Ascii.eqb_refl ")"%char). reflexivity.
Qed.
Lemma m_pair_miss : forall w1 w2 a w3 s, blanks w1 -> blanks w2 -> name a -> blanks w3 ->
  m_pair ("V"%char :: w1 ++ "("%char :: w2 ++ a ++ w3 ++ ")"%char :: s) = None.
Proof.
  intros w1 w2 a w3 s B1 B2 A B3. unfold m_pair. cbn [eat]. rewrite (Ascii.eqb_refl "V"%char). rewrite eat_ws_open by exact B1.
  destruct (word_ws_eats w2 a w3 ")"%char s c_comma) as [E1 E2]; try assumption; try reflexivity.
  rewrite E1. cbn beta iota zeta. rewrite E2. reflexivity.
Qed.
Lemma m_single_hit : forall f w1 w2 a w3 s, blanks w1 -> blanks w2 -> name a -> blanks w3 ->
  m_single f (f :: w1 ++ "("%char :: w2 ++ a ++ w3 ++ ")"%char :: s) = Some (a, s).
Proof.
  intros f w1 w2 a w3 s B1 B2 A B3. unfold m_single. cbn [eat]. rewrite (Ascii.eqb_refl f). rewrite eat_ws_open by exact B1.
  destruct (word_ws_eats w2 a w3 ")"%char s c_close) as [E1 E2]; try assumption; try reflexivity.
  rewrite E1. cbn beta iota zeta. rewrite E2. cbn [eat]. unfold c_close. rewrite (Ascii.eqb_refl ")"%char). reflexivity.
Qed.
Lemma m_single_comma : forall f w1 w2 a w3 s, blanks w1 -> blanks w2 -> name a -> blanks w3 ->
  m_single f (f :: w1 ++ "("%char :: w2 ++ a ++ w3 ++ ","%char :: s) = None.
Proof.
  intros f w1 w2 a w3 s B1 B2 A B3. unfold m_single. cbn [eat]. rewrite (Ascii.eqb_refl f). rewrite eat_ws_open by exact B1.
  destruct (word_ws_eats w2 a w3 ","%char s c_close) as [E1 E2]; try assumption; try reflexivity.
  rewrite E1. cbn beta iota zeta. rewrite E2. reflexivity.
Qed.

(** ** [findall] *)

(** A match begins with the letter [f], blanks and an opening parenthesis, and is
    followed by what is left. *)
Definition proper {A : Type} (f : ascii) (m : str -> option (A * str)) : Prop :=
  forall s a r, m s = Some (a, r) -> exists w u, s = f :: w ++ "("%char :: u ++ r /\ blanks w.

Lemma eat_split : forall c s r, eat c s = Some r -> s = c :: r.
Proof. intros c [|x s] r H; [discriminate H|]. cbn in H. destruct (Ascii.eqb_spec x c); [congruence|discriminate H]. Qed.
Lemma eat_ws_split : forall c s r, eat_ws c s = Some r -> exists w, s = w ++ c :: r /\ blanks w.
Proof.
  intros c s r H. unfold eat_ws in H. apply eat_split in H. destruct (span_split is_ws s) as [E F]. rewrite H in E.
  exists (fst (span is_ws s)). split; [exact E|exact F].
Qed.
Lemma word_ws_split : forall s, exists w, s = w ++ fst (word_ws s) ++ snd (word_ws s) /\ blanks w /\ name (fst (word_ws s)).
Proof.
  intros s. unfold word_ws. destruct (span_split is_ws s) as [E F]. destruct (span_split is_word (snd (span is_ws s))) as [G K].
  exists (fst (span is_ws s)). split; [rewrite <- G; exact E|split; assumption].
Qed.

Lemma m_single_sound : forall f s a r, m_single f s = Some (a, r) -> exists w1 w2 w3,
  s = (f :: w1 ++ "("%char :: w2 ++ a ++ w3 ++ [")"%char]) ++ r /\ blanks w1 /\ blanks w2 /\ name a /\ blanks w3.
Proof.
  intros f s a r H. unfold m_single in H. destruct (eat f s) as [s1|] eqn:E1; [|discriminate H]. apply eat_split in E1. subst s.
  destruct (eat_ws c_open s1) as [s2|] eqn:E2; [|discriminate H]. apply eat_ws_split in E2. destruct E2 as (w1 & -> & B1).
  destruct (word_ws_split s2) as (w2 & E3 & B2 & N). destruct (word_ws s2) as [x s3]. cbn [fst snd] in *.
  destruct (eat_ws c_close s3) as [s4|] eqn:E4; [|discriminate H]. apply eat_ws_split in E4. destruct E4 as (w3 & E4 & B3). injection H as <- <-.
  exists w1, w2, w3. split; [|auto]. rewrite E3, E4. unfold c_open, c_close. repeat (rewrite <- ?app_assoc; cbn [app]). reflexivity.
Qed.
Lemma m_pair_sound : forall s a b r, m_pair s = Some ((a, b), r) -> exists w1 w2 w3 w4 w5,
  s = ("V"%char :: w1 ++ "("%char :: w2 ++ a ++ w3 ++ ","%char :: w4 ++ b ++ w5 ++ [")"%char]) ++ r /\
  blanks w1 /\ blanks w2 /\ name a /\ blanks w3 /\ blanks w4 /\ name b /\ blanks w5.
Proof.
  intros s a b r H. unfold m_pair in H. destruct (eat "V"%char s) as [s1|] eqn:E1; [|discriminate H]. apply eat_split in E1. subst s.
  destruct (eat_ws c_open s1) as [s2|] eqn:E2; [|discriminate H]. apply eat_ws_split in E2. destruct E2 as (w1 & -> & B1).
  destruct (word_ws_split s2) as (w2 & E3 & B2 & N). destruct (word_ws s2) as [x s3]. cbn [fst snd] in *.
  destruct (eat_ws c_comma s3) as [s4|] eqn:E4; [|discriminate H]. apply eat_ws_split in E4. destruct E4 as (w3 & E4 & B3).
  destruct (word_ws_split s4) as (w4 & E5 & B4 & N2). destruct (word_ws s4) as [y s5]. cbn [fst snd] in *.
  destruct (eat_ws c_close s5) as [s6|] eqn:E6; [|discriminate H]. apply eat_ws_split in E6. destruct E6 as (w5 & E6 & B5). injection H as <- <- <-.
  exists w1, w2, w3, w4, w5. split; [|repeat split; assumption]. rewrite E3, E4, E5, E6. unfold c_open, c_close, c_comma.
  repeat (rewrite <- ?app_assoc; cbn [app]). reflexivity.
Qed.
Lemma m_single_proper : forall f, proper f (m_single f).
Proof.
  intros f s a r H. apply m_single_sound in H. destruct H as (w1 & w2 & w3 & E & B1 & _). exists w1, (w2 ++ a ++ w3 ++ [")"%char]).
  split; [|exact B1]. rewrite E. repeat (rewrite <- ?app_assoc; cbn [app]). reflexivity.
Qed.
Lemma m_pair_proper : proper "V"%char m_pair.
Proof.
  intros s [a b] r H. apply m_pair_sound in H. destruct H as (w1 & w2 & w3 & w4 & w5 & E & B1 & _).
  exists w1, (w2 ++ a ++ w3 ++ ","%char :: w4 ++ b ++ w5 ++ [")"%char]).
  split; [|exact B1]. rewrite E. repeat (rewrite <- ?app_assoc; cbn [app]). reflexivity.
Qed.

Section FindAll.
  Context {A : Type}.
  Variable f : ascii.
  Variable m : str -> option (A * str).
  Hypothesis P : proper f m.

  Lemma shrinks : forall s a r, m s = Some (a, r) -> (List.length r < List.length s)%nat.
  Proof. intros s a r H. destruct (P _ _ _ H) as (w & u & -> & _). cbn [List.length]. rewrite app_length. cbn [List.length]. rewrite app_length. lia. Qed.
  Lemma findall_fuel : forall n n' s, (List.length s < n)%nat -> (List.length s < n')%nat -> findall m n s = findall m n' s.
  Proof.
    induction n as [|n IH]; intros n' s L L'; [lia|]. destruct n' as [|n']; [lia|]. cbn [findall]. destruct s as [|c s]; [reflexivity|].
    destruct (m (c :: s)) as [[a r]|] eqn:E; [|apply IH; cbn in L, L'; lia]. f_equal. assert (Q := shrinks _ _ _ E). apply IH; cbn [List.length] in *; lia.
  Qed.
  Lemma re_cons : forall c s, re_findall m (c :: s) = match m (c :: s) with Some (a, r) => a :: re_findall m r | None => re_findall m s end.
  Proof.
    intros c s. unfold re_findall at 1. cbn [findall]. destruct (m (c :: s)) as [[a r]|] eqn:E.
    - f_equal. assert (Q := shrinks _ _ _ E). apply findall_fuel; cbn [List.length] in *; lia.
    - apply findall_fuel; cbn [List.length]; lia.
  Qed.
  Lemma re_nil : re_findall m [] = [].
  Proof. reflexivity. Qed.
  Lemma re_skip : forall c s, m (c :: s) = None -> re_findall m (c :: s) = re_findall m s.
  Proof. intros c s H. rewrite re_cons, H. reflexivity. Qed.
  Lemma re_hit : forall c s a r, m (c :: s) = Some (a, r) -> re_findall m (c :: s) = a :: re_findall m r.
  Proof. intros c s a r H. rewrite re_cons, H. reflexivity. Qed.
  Lemma m_other : forall c s, c <> f -> m (c :: s) = None.
  Proof. intros c s N. destruct (m (c :: s)) as [[a r]|] eqn:E; [|reflexivity]. destruct (P _ _ _ E) as (w & u & Q & _). congruence. Qed.
  Lemma re_skips : forall w s, Forall (fun c => c <> f) w -> re_findall m (w ++ s) = re_findall m s.
  Proof. induction w as [|c w IH]; intros s H; [reflexivity|]. inversion H; subst. cbn [app]. rewrite re_skip by (apply m_other; assumption). apply IH; assumption. Qed.

  (** Text without an opening parenthesis is passed over. *)
  Definition stops (t : str) : Prop := match t with [] => True | c :: _ => is_ws c = false /\ c <> "("%char end.
  Lemma no_open : forall w j t u, blanks w -> filler j -> stops t -> j ++ t = w ++ "("%char :: u -> False.
  Proof.
    induction w as [|x w IH]; intros j t u W J T E.
    - destruct j as [|c j]; cbn [app] in E.
      + destruct t as [|c t]; [discriminate E|]. injection E as -> _. destruct T as [_ T]. apply T; reflexivity.
      + injection E as -> _. inversion J; subst. congruence.
    - destruct j as [|c j]; cbn [app] in E.
      + destruct t as [|c t]; [discriminate E|]. injection E as -> _. destruct T as [T _]. inversion W; subst. congruence.
      + injection E as -> E. inversion J; subst. inversion W; subst. eapply IH; eauto.
  Qed.
  Lemma re_filler : forall j t, filler j -> stops t -> re_findall m (j ++ t) = re_findall m t.
  Proof.
    induction j as [|c j IH]; intros t J T; [reflexivity|]. inversion J; subst. cbn [app]. rewrite re_skip; [apply IH; assumption|].
    destruct (m (c :: j ++ t)) as [[a r]|] eqn:E; [|reflexivity]. exfalso. destruct (P _ _ _ E) as (w & u & Q & W). injection Q as _ Q.
    eapply no_open; [exact W| |exact T|exact Q]. assumption.
  Qed.

  (** Whatever is found occurs in the text. *)
  Lemma re_sound : forall s a, In a (re_findall m s) -> exists pre u, s = pre ++ u /\ exists r, m u = Some (a, r).
  Proof.
    intros s. remember (List.length s) as n eqn:L. assert (L' : (List.length s <= n)%nat) by lia. clear L. revert s L'.
    induction n as [|n IH]; intros [|c s] L a H; [destruct H|cbn in L; lia|destruct H|]. rewrite re_cons in H.
    destruct (m (c :: s)) as [[x r]|] eqn:E.
    - destruct H as [<-|H]; [exists [], (c :: s); split; [reflexivity|exists r; exact E]|].
      destruct (P _ _ _ E) as (w & u & Q & _). assert (K := shrinks _ _ _ E). destruct (IH r ltac:(cbn [List.length] in *; lia) a H) as (pre & v & -> & R).
      exists (f :: w ++ "("%char :: u ++ pre), v. split; [|exact R]. rewrite Q. repeat (rewrite <- ?app_assoc; cbn [app]). reflexivity.
    - destruct (IH s ltac:(cbn in L; lia) a H) as (pre & v & -> & R). exists (c :: pre), v. split; [reflexivity|exact R].
  Qed.
End FindAll.

Lemma blanks_filler : forall w, blanks w -> filler w.
Proof. intros w W. eapply Forall_impl; [|exact W]. intros c C. apply (ws_not_V c C). Qed.
Lemma name_filler : forall w, name w -> filler w.
Proof. intros w W. eapply Forall_impl; [|exact W]. intros c C. apply word_not_open, C. Qed.
Lemma filler_app : forall a b, filler a -> filler b -> filler (a ++ b).
Proof. intros. apply Forall_app; split; assumption. Qed.
Lemma filler_cons : forall c b, c <> "("%char -> filler b -> filler (c :: b).
Proof. intros. constructor; assumption. Qed.
Ltac fil := repeat first [apply filler_app | apply blanks_filler; assumption | apply name_filler; assumption | apply filler_cons; [discriminate|] | constructor].

Lemma upper_fix : forall c t u, supper (c :: t) = c :: u -> upper_ascii c = c.
Proof. intros c t u H. injection H as H _. exact H. Qed.
Lemma stops_writes : forall x t s, writes x t -> stops (t ++ s).
Proof.
  intros x t s H. destruct (writes_ends _ _ H) as (c & u & E & C). rewrite E. cbn. split; [exact C|].
  destruct H as [c' w1 w2 a w3 w4 b w5 U|c' w1 w2 a w3 U|c' w1 w2 a w3 U]; injection E as -> _; intros ->; discriminate U.
Qed.

Definition caps (s : str) : Prop := Forall (fun c => upper_ascii c = c) s.
Lemma caps_supper : forall s, caps (supper s).
Proof. intros s. unfold caps, supper. rewrite Forall_map. apply Forall_forall. intros c _. apply upper_idem. Qed.

(** What one pattern finds in a line in upper case. *)
Section OnLine.
  Context {A : Type}.
  Variable f : ascii.
  Variable m : str -> option (A * str).
  Variable pick : want -> list A.
  Hypothesis P : proper f m.
  Hypothesis F : f = "V"%char \/ f = "I"%char.
  (** On a signal, the pattern matches all of it or nothing. *)
  Hypothesis H : forall x t s, writes x t -> caps t ->
    (exists a, pick x = [a] /\ m (t ++ s) = Some (a, s)) \/ (pick x = [] /\ m (t ++ s) = None).

  Lemma after_miss : forall x t s, writes x t -> m (t ++ s) = None -> exists j, filler j /\ re_findall m (t ++ s) = re_findall m (j ++ s).
  Proof.
    intros x t s W M.
    assert (Q : exists c w1 j, t = c :: w1 ++ "("%char :: j /\ blanks w1 /\ filler j).
    { destruct W as [c w1 w2 a w3 w4 b w5 U|c w1 w2 a w3 U|c w1 w2 a w3 U]; (do 3 eexists; split; [reflexivity|split; [assumption|fil]]). }
    destruct Q as (c & w1 & j & -> & B & J). exists j. split; [exact J|]. cbn [app] in M |- *. rewrite (re_skip f m P) by exact M.
    rewrite <- app_assoc. rewrite (re_skips f m P).
    - cbn [app]. apply (re_skip f m P). apply (m_other f m P). destruct F as [-> | ->]; discriminate.
    - eapply Forall_impl; [|exact B]. intros y Y. destruct (ws_not_V y Y) as (V & I & _). destruct F as [-> | ->]; assumption.
  Qed.
  Lemma on_line : forall l s, line_of l s -> caps s -> forall j0, filler j0 -> re_findall m (j0 ++ s) = flat_map pick l.
  Proof.
    intros l s L. induction L as [j J|j x t l s J W L IH]; intros U j0 J0.
    - cbn [flat_map]. rewrite <- (app_nil_r (j0 ++ j)). rewrite (re_filler f m P); [reflexivity|apply filler_app; assumption|exact I].
    - cbn [flat_map]. apply Forall_app in U. destruct U as [_ U]. apply Forall_app in U. destruct U as [U1 U2].
      rewrite app_assoc. rewrite (re_filler f m P); [|apply filler_app; assumption|eapply stops_writes; exact W].
      destruct (H x t s W U1) as [(a & E & M)|[E M]]; rewrite E.
      + destruct (writes_ends _ _ W) as (c & u & T & _). rewrite T in M |- *. cbn [app] in M |- *. rewrite (re_hit f m P _ _ _ _ M). f_equal.
        apply (IH U2 []). constructor.
      + destruct (after_miss x t s W M) as (j' & J' & ->). cbn [app]. apply IH; assumption.
  Qed.
End OnLine.

Ltac reassoc := repeat (rewrite <- ?app_assoc; cbn [app]).
Lemma find_pairs : forall l s, line_of l s -> caps s -> re_findall m_pair s = pairs_of l.
Proof.
  intros l s L U. apply (on_line "V"%char m_pair (fun x => match x with WPair a b => [(a, b)] | _ => [] end) m_pair_proper (or_introl eq_refl)) with (j0 := []);
    [|exact L|exact U|constructor]. clear l s L U.
  intros x t s W C. destruct W as [c w1 w2 a w3 w4 b w5 U|c w1 w2 a w3 U|c w1 w2 a w3 U]; inversion C; subst; assert (c = upper_ascii c) by congruence.
  - left. exists (a, b). split; [reflexivity|]. reassoc. replace c with "V"%char by congruence. apply m_pair_hit; assumption.
  - right. split; [reflexivity|]. reassoc. replace c with "V"%char by congruence. apply m_pair_miss; assumption.
  - right. split; [reflexivity|]. cbn [app]. apply (m_other _ _ m_pair_proper). replace c with "I"%char by congruence. discriminate.
Qed.
Lemma find_volts : forall l s, line_of l s -> caps s -> re_findall (m_single "V"%char) s = volts_of l.
Proof.
  intros l s L U.
  apply (on_line "V"%char (m_single "V"%char) (fun x => match x with WV a => [a] | _ => [] end) (m_single_proper _) (or_introl eq_refl)) with (j0 := []);
    [|exact L|exact U|constructor]. clear l s L U.
  intros x t s W C. destruct W as [c w1 w2 a w3 w4 b w5 U|c w1 w2 a w3 U|c w1 w2 a w3 U]; inversion C; subst; assert (c = upper_ascii c) by congruence.
  - right. split; [reflexivity|]. reassoc. replace c with "V"%char by congruence. apply m_single_comma; assumption.
  - left. exists a. split; [reflexivity|]. reassoc. replace c with "V"%char by congruence. apply m_single_hit; assumption.
  - right. split; [reflexivity|]. cbn [app]. apply (m_other _ _ (m_single_proper _)). replace c with "I"%char by congruence. discriminate.
Qed.
Lemma find_amps : forall l s, line_of l s -> caps s -> re_findall (m_single "I"%char) s = amps_of l.
Proof.
  intros l s L U.
  apply (on_line "I"%char (m_single "I"%char) (fun x => match x with WI a => [a] | _ => [] end) (m_single_proper _) (or_intror eq_refl)) with (j0 := []);
    [|exact L|exact U|constructor]. clear l s L U.
  intros x t s W C. destruct W as [c w1 w2 a w3 w4 b w5 U|c w1 w2 a w3 U|c w1 w2 a w3 U]; inversion C; subst; assert (c = upper_ascii c) by congruence.
  - right. split; [reflexivity|]. cbn [app]. apply (m_other _ _ (m_single_proper _)). replace c with "V"%char by congruence. discriminate.
  - right. split; [reflexivity|]. cbn [app]. apply (m_other _ _ (m_single_proper _)). replace c with "V"%char by congruence. discriminate.
  - left. exists a. split; [reflexivity|]. reassoc. replace c with "I"%char by congruence. apply m_single_hit; assumption.
Qed.

Lemma pairs_upper : forall l, pairs_of (map upw l) = map (fun p => (supper (fst p), supper (snd p))) (pairs_of l).
Proof. induction l as [|[a b|a|a] l IH]; cbn; [reflexivity| |exact IH|exact IH]. f_equal. exact IH. Qed.
Lemma volts_upper : forall l, volts_of (map upw l) = map supper (volts_of l).
Proof. induction l as [|[a b|a|a] l IH]; cbn; [reflexivity|exact IH| |exact IH]. f_equal. exact IH. Qed.
Lemma amps_upper : forall l, amps_of (map upw l) = map supper (amps_of l).
Proof. induction l as [|[a b|a|a] l IH]; cbn; [reflexivity|exact IH|exact IH|]. f_equal. exact IH. Qed.

Lemma streqb_V : forall b, streqb (vname b) (lit "V0") = streqb b (lit "0").
Proof.
  intros b. destruct (streqb_spec b (lit "0")) as [->|N]; [reflexivity|]. destruct (streqb_spec (vname b) (lit "V0")) as [E|]; [|reflexivity].
  exfalso. apply N. injection E as E. exact E.
Qed.

(** The labels of a line are those of its signals in upper case: first the voltages
    between two nodes, then those of one node, then the currents. *)
Theorem C156_labels : forall l s, line_of l s -> l <> [] -> split_label s = Ok (labels_of l).
Proof.
  intros l s L N. unfold split_label. assert (L' := line_upper _ _ (line_strip _ _ L)). assert (U := caps_supper (strip s)).
  rewrite (find_pairs _ _ L' U), (find_volts _ _ L' U), (find_amps _ _ L' U), pairs_upper, volts_upper, amps_upper, !map_map.
  assert (E : map (fun x : str * str => if streqb (vname (supper (snd x))) (lit "V0") then One (vname (supper (fst x)))
      else Two (vname (supper (fst x))) (Some (vname (supper (snd x))))) (pairs_of l) = map pair_label (pairs_of l)).
  { apply map_ext. intros [a b]. unfold pair_label. cbn [fst snd]. rewrite streqb_V. reflexivity. }
  rewrite E. change (match labels_of l with [] => Err ValueError | l0 => Ok l0 end = Ok (labels_of l)).
  assert (Q : labels_of l <> []); [|destruct (labels_of l); [congruence|reflexivity]].
  unfold labels_of. destruct l as [|x l]; [congruence|]. intros Q. apply app_eq_nil in Q. destruct Q as [Q1 Q]. apply app_eq_nil in Q. destruct Q as [Q2 Q3].
  destruct x as [a b|a|a]; [discriminate Q1|discriminate Q2|discriminate Q3].
Qed.
Print Assumptions C156_labels.

(** A text without signals is refused. *)
Theorem C156_none : forall s, line_of [] s -> split_label s = Err ValueError.
Proof.
  intros s L. unfold split_label. assert (L' := line_upper _ _ (line_strip _ _ L)). assert (U := caps_supper (strip s)).
  rewrite (find_pairs _ _ L' U), (find_volts _ _ L' U), (find_amps _ _ L' U). reflexivity.
Qed.
Print Assumptions C156_none.

(** Conversely a label always stands for a signal that is written in the text. *)
Definition label_for (x : want) : lab :=
  match x with WPair a b => pair_label (a, b) | WV a => Two (v_label a) None | WI a => Two (i_label a) None end.
Theorem C156_only : forall s l y, split_label s = Ok l -> In y l ->
  exists pre x t post, supper (strip s) = pre ++ t ++ post /\ writes x t /\ y = label_for x.
Proof.
  intros s l y E Y. unfold split_label in E.
  assert (Q : In y (map (fun '(a, b) => if streqb (vname b) (lit "V0") then One (vname a) else Two (vname a) (Some (vname b))) (re_findall m_pair (supper (strip s))) ++
    map (fun a => Two (vname a) None) (re_findall (m_single "V"%char) (supper (strip s))) ++
    map (fun a => Two (lit "I(" ++ a ++ lit ")") None) (re_findall (m_single "I"%char) (supper (strip s))))).
  { destruct (_ ++ _ ++ _) as [|z zs] eqn:Z; [discriminate E|]. injection E as <-. exact Y. }
  assert (U : forall u pre n w v, caps (pre ++ u) -> u = w ++ n ++ v -> supper n = n).
  { intros u pre n w v C -> . apply Forall_app in C. destruct C as [_ C]. apply Forall_app in C. destruct C as [_ C]. apply Forall_app in C. destruct C as [C _].
    clear - C. induction C as [|c n C1 C IH]; [reflexivity|]. cbn. rewrite C1. f_equal. exact IH. }
  assert (CS := caps_supper (strip s)).
  apply in_app_or in Q. destruct Q as [Q|Q]; [|apply in_app_or in Q; destruct Q as [Q|Q]]; apply in_map_iff in Q; destruct Q as (k & <- & K).
  - apply (re_sound _ _ m_pair_proper) in K. destruct K as (pre & u & E1 & r & M). destruct k as [a b]. apply m_pair_sound in M.
    destruct M as (w1 & w2 & w3 & w4 & w5 & E2 & B1 & B2 & A & B3 & B4 & B & B5). rewrite E1 in CS.
    exists pre, (WPair a b), ("V"%char :: w1 ++ "("%char :: w2 ++ a ++ w3 ++ ","%char :: w4 ++ b ++ w5 ++ [")"%char]), r.
    split; [rewrite E1, E2; reflexivity|split; [apply wr_pair; try assumption; reflexivity|]].
    cbn [label_for]. unfold pair_label. cbn [fst snd]. unfold v_label. rewrite streqb_V.
    rewrite (U u pre a ("V"%char :: w1 ++ "("%char :: w2) (w3 ++ ","%char :: w4 ++ b ++ w5 ++ ")"%char :: r) CS) by (rewrite E2; reassoc; reflexivity).
    rewrite (U u pre b ("V"%char :: w1 ++ "("%char :: w2 ++ a ++ w3 ++ ","%char :: w4) (w5 ++ ")"%char :: r) CS) by (rewrite E2; reassoc; reflexivity).
    reflexivity.
  - apply (re_sound _ _ (m_single_proper _)) in K. destruct K as (pre & u & E1 & r & M). apply m_single_sound in M.
    destruct M as (w1 & w2 & w3 & E2 & B1 & B2 & A & B3). rewrite E1 in CS.
    exists pre, (WV k), ("V"%char :: w1 ++ "("%char :: w2 ++ k ++ w3 ++ [")"%char]), r.
    split; [rewrite E1, E2; reflexivity|split; [apply wr_v; try assumption; reflexivity|]].
    cbn [label_for]. unfold v_label. rewrite (U u pre k ("V"%char :: w1 ++ "("%char :: w2) (w3 ++ ")"%char :: r) CS) by (rewrite E2; reassoc; reflexivity). reflexivity.
  - apply (re_sound _ _ (m_single_proper _)) in K. destruct K as (pre & u & E1 & r & M). apply m_single_sound in M.
    destruct M as (w1 & w2 & w3 & E2 & B1 & B2 & A & B3). rewrite E1 in CS.
    exists pre, (WI k), ("I"%char :: w1 ++ "("%char :: w2 ++ k ++ w3 ++ [")"%char]), r.
    split; [rewrite E1, E2; reflexivity|split; [apply wr_i; try assumption; reflexivity|]].
    cbn [label_for]. unfold i_label. rewrite (U u pre k ("I"%char :: w1 ++ "("%char :: w2) (w3 ++ ")"%char :: r) CS) by (rewrite E2; reassoc; reflexivity). reflexivity.
Qed.
Print Assumptions C156_only.

(** The labels are not in the order of the line. *)
Theorem C156_order_refuted : exists s x y, line_of [x; y] s /\ split_label s = Ok [label_for y; label_for x] /\ label_for x <> label_for y.
Proof.
  exists (lit "I(V1) V(2)"), (WI (lit "V1")), (WV (lit "2")). split; [|split; [vm_compute; reflexivity|discriminate]].
  apply (ln_item [] (WI (lit "V1")) (lit "I(V1)") [WV (lit "2")] (lit " V(2)")); [constructor| |].
  - apply (wr_i "I"%char [] [] (lit "V1") []); try constructor; try reflexivity; repeat constructor.
  - apply (ln_item (lit " ") (WV (lit "2")) (lit "V(2)") [] []); [repeat constructor; discriminate| |apply ln_end; constructor].
    apply (wr_v "V"%char [] [] (lit "2") []); try constructor; try reflexivity; repeat constructor.
Qed.
Print Assumptions C156_order_refuted.
Example C156_example : split_label (lit " v(in) i(Vs) V( out , in ) V(a,0) ") =
  Ok [Two (lit "VOUT") (Some (lit "VIN")); One (lit "VA"); Two (lit "VIN") None; Two (lit "I(VS)") None].
Proof. vm_compute. reflexivity. Qed.
Example C156_example_bad : split_label (lit "V(n-1)") = Err ValueError.
Proof. vm_compute. reflexivity. Qed.

(** * C157: the curves of a plot *)
Section Curves.
  Variable angle : cpx -> cpx.
  Variable r : sol.
  (** The values and units that the results hold. *)
  Variable value : str -> list cpx.
  Variable units : str -> str.
  Definition holds (lb : str) : Prop := get r lb = Ok (value lb) /\ unit_of r lb = Ok (units lb).
  Definition in_results (x : want) : Prop :=
    match x with
    | WPair a b => holds (v_label a) /\ holds (v_label b)
    | WV a => holds (v_label a)
    | WI a => holds (i_label a)
    end.
  Definition minus (a b : list cpx) : list cpx := map (fun p => (fst (fst p) - fst (snd p), snd (fst p) - snd (snd p))%R) (combine a b).
  (** The legend, the values and the unit of each curve. *)
  Definition curves_of (l : list want) : list curve :=
    map (fun p => (v_label (fst p) ++ lit "-" ++ v_label (snd p), minus (value (v_label (fst p))) (value (v_label (snd p))), units (v_label (fst p)))) (pairs_of l) ++
    map (fun a => (v_label a, value (v_label a), units (v_label a))) (volts_of l) ++
    map (fun a => (i_label a, value (i_label a), units (i_label a))) (amps_of l).
  Definition modulus (d : list cpx) : list cpx := map (fun z => (sqrt (fst z * fst z + snd z * snd z), 0)%R) d.
  Definition bar (s : str) : str := lit "|" ++ s ++ lit "|".
  Definition ac_curves_of (l : list want) : list curve :=
    map (fun p => (bar (v_label (fst p)) ++ lit "-" ++ bar (v_label (snd p)), minus (modulus (value (v_label (fst p)))) (modulus (value (v_label (snd p)))), units (v_label (fst p)))) (pairs_of l) ++
    map (fun a => (bar (v_label a), modulus (value (v_label a)), units (v_label a))) (volts_of l) ++
    map (fun a => (bar (i_label a), modulus (value (i_label a)), units (i_label a))) (amps_of l).
  Definition no_ground (l : list want) : Prop := forall a b, In (WPair a b) l -> supper b <> lit "0".

  Lemma dsub_minus : forall a b, dsub a b = minus a b.
  Proof. induction a as [|x a IH]; intros [|y b]; try reflexivity. cbn. f_equal. apply IH. Qed.
  Lemma pass_plain : forall c s, c <> "|"%char -> c <> "a"%char -> holds (c :: s) -> data_abs_arg_pass angle r (c :: s) = Ok (value (c :: s), units (c :: s)).
  Proof.
    intros c s N1 N2 [G U]. unfold data_abs_arg_pass. destruct (Ascii.eqb_spec c c_bar); [contradiction|]. cbn [andb].
    assert (E : streqb (firstn 4 (c :: s)) (lit "arg(") = false).
    { destruct (streqb_spec (firstn 4 (c :: s)) (lit "arg(")) as [E|]; [|reflexivity]. exfalso. apply N2. injection E as E _. exact E. }
    rewrite E. cbn [andb]. rewrite G. cbn [bindr]. rewrite U. reflexivity.
  Qed.
  Lemma pass_v : forall a, holds (v_label a) -> data_abs_arg_pass angle r (v_label a) = Ok (value (v_label a), units (v_label a)).
  Proof. intros a H. apply pass_plain; [discriminate|discriminate|exact H]. Qed.
  Lemma pass_i : forall a, holds (i_label a) -> data_abs_arg_pass angle r (i_label a) = Ok (value (i_label a), units (i_label a)).
  Proof. intros a H. apply pass_plain; [discriminate|discriminate|exact H]. Qed.
  Lemma inner_bar : forall s, inner 1 (abs_head s) = s.
  Proof. intros s. unfold inner, abs_head. cbn [lit list_ascii_of_string app skipn]. apply removelast_last. Qed.
  Lemma pass_bar : forall s, holds s -> data_abs_arg_pass angle r (abs_head s) = Ok (modulus (value s), units s).
  Proof.
    intros s [G U]. unfold data_abs_arg_pass. assert (L : forall c, List.last (abs_head s) c = c_bar).
    { intros c. unfold abs_head. rewrite app_assoc. apply List.last_last. }
    assert (E : exists u, abs_head s = c_bar :: u) by (eexists; reflexivity). destruct E as [u E]. rewrite E.
    rewrite <- E. rewrite L. rewrite (Ascii.eqb_refl c_bar). cbn [andb]. rewrite inner_bar, G. cbn [bindr]. rewrite U. reflexivity.
  Qed.

  Lemma in_pairs_of : forall l a b, In (a, b) (pairs_of l) -> In (WPair a b) l.
  Proof. induction l as [|[x y|x|x] l IH]; intros a b H; cbn in H; [destruct H| |right; apply IH; exact H|right; apply IH; exact H]. destruct H as [H|H]; [left; congruence|right; apply IH; exact H]. Qed.
  Lemma in_volts_of : forall l a, In a (volts_of l) -> In (WV a) l.
  Proof. induction l as [|[x y|x|x] l IH]; intros a H; cbn in H; [destruct H|right; apply IH; exact H| |right; apply IH; exact H]. destruct H as [H|H]; [left; congruence|right; apply IH; exact H]. Qed.
  Lemma in_amps_of : forall l a, In a (amps_of l) -> In (WI a) l.
  Proof. induction l as [|[x y|x|x] l IH]; intros a H; cbn in H; [destruct H|right; apply IH; exact H|right; apply IH; exact H|]. destruct H as [H|H]; [left; congruence|right; apply IH; exact H]. Qed.

  Lemma plot_app : forall l1 l2 c1, plot_curves angle r l1 = Ok c1 ->
    plot_curves angle r (l1 ++ l2) = bindr (plot_curves angle r l2) (fun c2 => Ok (c1 ++ c2)).
  Proof.
    induction l1 as [|[y2 y1|y] l1 IH]; intros l2 c1 E.
    - injection E as <-. cbn [app]. destruct (plot_curves angle r l2); reflexivity.
    - cbn [app plot_curves] in E |- *. destruct y1 as [[|x y]|].
      + destruct (data_abs_arg_pass angle r y2) as [[d2 u]|[]]; try discriminate E; [|apply IH; exact E].
        destruct (plot_curves angle r l1) as [cs|] eqn:Q; [|discriminate E]. injection E as <-. rewrite (IH l2 cs eq_refl). destruct (plot_curves angle r l2); reflexivity.
      + destruct (data_abs_arg_pass angle r (x :: y)) as [[d1 u1]|[]]; try discriminate E; [|apply IH; exact E].
        destruct (data_abs_arg_pass angle r y2) as [[d2 u]|[]]; try discriminate E; [|apply IH; exact E].
        destruct (plot_curves angle r l1) as [cs|] eqn:Q; [|discriminate E]. injection E as <-. rewrite (IH l2 cs eq_refl). destruct (plot_curves angle r l2); reflexivity.
      + destruct (data_abs_arg_pass angle r y2) as [[d2 u]|[]]; try discriminate E; [|apply IH; exact E].
        destruct (plot_curves angle r l1) as [cs|] eqn:Q; [|discriminate E]. injection E as <-. rewrite (IH l2 cs eq_refl). destruct (plot_curves angle r l2); reflexivity.
    - discriminate E.
  Qed.
  Lemma plot_map : forall T (g : T -> lab) (h : T -> curve) l,
    (forall x l', In x l -> plot_curves angle r (g x :: l') = bindr (plot_curves angle r l') (fun cs => Ok (h x :: cs))) ->
    plot_curves angle r (map g l) = Ok (map h l).
  Proof.
    induction l as [|x l IH]; intros H; [reflexivity|]. cbn [map]. rewrite H by (left; reflexivity).
    rewrite IH by (intros y l' Y; apply H; right; exact Y). reflexivity.
  Qed.
  Lemma step_one : forall y d u l', data_abs_arg_pass angle r y = Ok (d, u) ->
    plot_curves angle r (Two y None :: l') = bindr (plot_curves angle r l') (fun cs => Ok ((y, d, u) :: cs)).
  Proof. intros y d u l' E. cbn [plot_curves]. rewrite E. reflexivity. Qed.
  Lemma step_two : forall y d u y1 d1 u1 l', y1 <> [] -> data_abs_arg_pass angle r y1 = Ok (d1, u1) -> data_abs_arg_pass angle r y = Ok (d, u) ->
    plot_curves angle r (Two y (Some y1) :: l') = bindr (plot_curves angle r l') (fun cs => Ok ((y ++ lit "-" ++ y1, minus d d1, u) :: cs)).
  Proof. intros y d u [|x y1] d1 u1 l' N E1 E; [congruence|]. cbn [plot_curves]. rewrite E1, E, dsub_minus. reflexivity. Qed.

  Lemma curves_plain : forall l, no_ground l -> Forall in_results l -> plot_curves angle r (labels_of l) = Ok (curves_of l).
  Proof.
    intros l NG A. rewrite Forall_forall in A. unfold labels_of, curves_of.
    rewrite (plot_app _ _ (map (fun p => (v_label (fst p) ++ lit "-" ++ v_label (snd p), minus (value (v_label (fst p))) (value (v_label (snd p))), units (v_label (fst p)))) (pairs_of l))).
    - rewrite (plot_app _ _ (map (fun a => (v_label a, value (v_label a), units (v_label a))) (volts_of l))).
      + rewrite (plot_map _ _ (fun a => (i_label a, value (i_label a), units (i_label a)))).
        * reflexivity.
        * intros a l' H. apply step_one. apply pass_i. apply (A _ (in_amps_of _ _ H)).
      + apply plot_map. intros a l' H. apply step_one. apply pass_v. apply (A _ (in_volts_of _ _ H)).
    - apply plot_map. intros [a b] l' H. apply in_pairs_of in H. destruct (A _ H) as [HA HB]. unfold pair_label. cbn [fst snd].
      destruct (streqb_spec (supper b) (lit "0")) as [E|_]; [exfalso; exact (NG _ _ H E)|].
      apply (step_two _ _ _ _ (value (v_label b)) (units (v_label b))); [discriminate|apply pass_v; exact HB|apply pass_v; exact HA].
  Qed.

  (** A .plot line of an analysis other than AC draws, for each signal, its values, and
      for V(a,b) the difference of the two node voltages. *)
  Theorem C157_plot : forall s an ws l, split s = lit ".plot" :: an :: ws -> an <> lit "ac" -> line_of l (join_blank ws) -> l <> [] ->
    no_ground l -> Forall in_results l ->
    exists labels, parse_pp s = Ok (PPlot an labels) /\ plot_curves angle r labels = Ok (curves_of l).
  Proof.
    intros s an ws l E NA L N NG A. exists (labels_of l). split; [|apply curves_plain; assumption].
    unfold parse_pp. rewrite E. cbn [streqb]. replace (streqb (lit ".plot") (lit ".plot")) with true by reflexivity. unfold parse_plot.
    rewrite (C156_labels _ _ L N). cbn [bindr]. destruct (streqb_spec an (lit "ac")); [contradiction|reflexivity].
  Qed.

  Definition bar_lab (y : lab) : lab := match y with Two a b => Two (abs_head a) (option_map abs_head b) | One a => One a end.
  Lemma bar_labels_ok : forall l, (forall a, ~ In (One a) l) -> bar_labels l = Ok (map bar_lab l).
  Proof.
    induction l as [|[a b|a] l IH]; intros H; cbn; [reflexivity| |exfalso; apply (H a); left; reflexivity].
    rewrite IH by (intros x X; apply (H x); right; exact X). reflexivity.
  Qed.
  Lemma no_one : forall l, no_ground l -> forall x, ~ In (One x) (labels_of l).
  Proof.
    intros l NG x H. unfold labels_of in H. apply in_app_or in H. destruct H as [H|H].
    - apply in_map_iff in H. destruct H as ([a b] & E & H). unfold pair_label in E. cbn [fst snd] in E. apply in_pairs_of in H.
      destruct (streqb_spec (supper b) (lit "0")) as [Q|_]; [exact (NG _ _ H Q)|discriminate E].
    - apply in_app_or in H. destruct H as [H|H]; apply in_map_iff in H; destruct H as (? & E & _); discriminate E.
  Qed.
  Lemma curves_bar : forall l, no_ground l -> Forall in_results l -> plot_curves angle r (map bar_lab (labels_of l)) = Ok (ac_curves_of l).
  Proof.
    intros l NG A. rewrite Forall_forall in A. unfold labels_of, ac_curves_of. rewrite !map_app, !map_map.
    rewrite (plot_app _ _ (map (fun p => (bar (v_label (fst p)) ++ lit "-" ++ bar (v_label (snd p)), minus (modulus (value (v_label (fst p)))) (modulus (value (v_label (snd p)))), units (v_label (fst p)))) (pairs_of l))).
    - rewrite (plot_app _ _ (map (fun a => (bar (v_label a), modulus (value (v_label a)), units (v_label a))) (volts_of l))).
      + rewrite (plot_map _ _ (fun a => (bar (i_label a), modulus (value (i_label a)), units (i_label a)))).
        * reflexivity.
        * intros a l' H. apply step_one. apply pass_bar. apply (A _ (in_amps_of _ _ H)).
      + apply plot_map. intros a l' H. apply step_one. apply pass_bar. apply (A _ (in_volts_of _ _ H)).
    - apply plot_map. intros [a b] l' H. apply in_pairs_of in H. destruct (A _ H) as [HA HB]. unfold pair_label. cbn [fst snd].
      destruct (streqb_spec (supper b) (lit "0")) as [E|_]; [exfalso; exact (NG _ _ H E)|]. cbn [bar_lab option_map].
      apply (step_two _ _ _ _ (modulus (value (v_label b))) (units (v_label b))); [discriminate|apply pass_bar; exact HB|apply pass_bar; exact HA].
  Qed.
  (** For AC it draws the magnitudes, and for V(a,b) the difference of the magnitudes. *)
  Theorem C157_ac_actual : forall s ws l, split s = lit ".plot" :: lit "ac" :: ws -> line_of l (join_blank ws) -> l <> [] ->
    no_ground l -> Forall in_results l ->
    exists labels, parse_pp s = Ok (PPlot (lit "ac") labels) /\ plot_curves angle r labels = Ok (ac_curves_of l).
  Proof.
    intros s ws l E L N NG A. exists (map bar_lab (labels_of l)). split; [|apply curves_bar; assumption].
    unfold parse_pp. rewrite E. replace (streqb (lit ".plot") (lit ".plot")) with true by reflexivity. unfold parse_plot.
    rewrite (C156_labels _ _ L N). cbn [bindr]. replace (streqb (lit "ac") (lit "ac")) with true by reflexivity.
    rewrite bar_labels_ok by (apply no_one; exact NG). reflexivity.
  Qed.
End Curves.
Print Assumptions C157_plot.
Print Assumptions C157_ac_actual.

Lemma line_pair : forall a b, name a -> name b -> line_of [WPair a b] (lit " v(" ++ a ++ lit "," ++ b ++ lit ")").
Proof.
  intros a b A B. replace (lit " v(" ++ a ++ lit "," ++ b ++ lit ")") with (lit " " ++ ("v"%char :: [] ++ "("%char :: [] ++ a ++ [] ++ ","%char :: [] ++ b ++ [] ++ [")"%char]) ++ []).
  - apply ln_item; [repeat constructor; discriminate| |apply ln_end; constructor]. apply wr_pair; try assumption; try constructor.
  - cbn [app lit list_ascii_of_string]. rewrite app_nil_r. reflexivity.
Qed.

(** With V(a) = 1 and V(b) = -1 at some frequency the curve of V(a,b) is 0, not
    |V(a) - V(b)| = 2. *)
Theorem C157_ac_refuted : exists r labels d u, parse_pp (lit ".plot ac v(a,b)") = Ok (PPlot (lit "ac") labels) /\
  get r (lit "VA") = Ok [(1, 0)%R] /\ get r (lit "VB") = Ok [(-1, 0)%R] /\
  (forall angle, plot_curves angle r labels = Ok [(lit "|VA|-|VB|", d, u)]) /\
  d <> modulus (minus [(1, 0)%R] [(-1, 0)%R]).
Proof.
  set (r := mkSol (fun s => if streqb s (lit "VA") then Ok [(1, 0)%R] else if streqb s (lit "VB") then Ok [(-1, 0)%R] else Err KeyError) (fun _ => Ok (lit "V"))).
  exists r, [Two (lit "|VA|") (Some (lit "|VB|"))], [(sqrt (1 * 1 + 0 * 0) - sqrt (-1 * -1 + 0 * 0), 0 - 0)%R], (lit "V").
  split; [vm_compute; reflexivity|]. split; [reflexivity|]. split; [reflexivity|]. split; [intros angle; reflexivity|].
  cbn [modulus minus combine map fst snd]. intros E. injection E as E _.
  assert (S1 : sqrt (1 * 1 + 0 * 0) = sqrt (-1 * -1 + 0 * 0)) by (f_equal; ring).
  rewrite S1 in E. assert (S2 : (sqrt ((1 - -1) * (1 - -1) + (0 - 0) * (0 - 0)) = 2)%R).
  { replace ((1 - -1) * (1 - -1) + (0 - 0) * (0 - 0))%R with (2 * 2)%R by ring. apply sqrt_square. lra. }
  rewrite S2 in E. lra.
Qed.
Print Assumptions C157_ac_refuted.

(** V(a,0) cannot be plotted: the call ends with a ValueError when the line is read (AC)
    or when the plot is made. *)
Theorem C157_ground_refuted : forall a, name a ->
  parse_plot [lit "ac"; lit "v(" ++ a ++ lit ",0)"] = Err ValueError /\
  forall an, an <> lit "ac" -> parse_plot [an; lit "v(" ++ a ++ lit ",0)"] = Ok (PPlot an [One (v_label a)]) /\
    forall angle r, plot_curves angle r [One (v_label a)] = Err ValueError.
Proof.
  intros a A. assert (L : line_of [WPair a (lit "0")] (join_blank [lit "v(" ++ a ++ lit ",0)"])).
  { replace (join_blank [lit "v(" ++ a ++ lit ",0)"]) with (lit " v(" ++ a ++ lit "," ++ lit "0" ++ lit ")").
    - apply line_pair; [exact A|repeat constructor].
    - unfold join_blank. cbn [flat_map]. rewrite app_nil_r. reflexivity. }
  assert (E := C156_labels _ _ L ltac:(discriminate)). split.
  - unfold parse_plot. rewrite E. reflexivity.
  - intros an N. split; [|reflexivity]. unfold parse_plot. rewrite E. cbn [bindr]. destruct (streqb_spec an (lit "ac")); [contradiction|reflexivity].
Qed.
Print Assumptions C157_ground_refuted.
Example C157_example : forall angle, let r := mkSol (fun s => if streqb s (lit "V2") then Ok [(5, 0)%R] else if streqb s (lit "V1") then Ok [(3, 0)%R] else Err KeyError) (fun _ => Ok (lit "V")) in
  exists labels, parse_pp (lit ".plot tran v(2,1) v(1)") = Ok (PPlot (lit "tran") labels) /\
  plot_curves angle r labels = Ok [(lit "V2-V1", [(5 - 3, 0 - 0)%R], lit "V"); (lit "V1", [(3, 0)%R], lit "V")].
Proof. intros angle r. eexists. split; [vm_compute; reflexivity|]. reflexivity. Qed.

(** * C158 *)

(** A signal that is not among the results ends the whole plot with KeyError. *)
Theorem C158_missing_refuted : forall angle r l1 l2 c1 a, plot_curves angle r l1 = Ok c1 -> get r (v_label a) = Err KeyError ->
  plot_curves angle r (l1 ++ Two (v_label a) None :: l2) = Err KeyError.
Proof.
  intros angle r l1 l2 c1 a E G. rewrite (plot_app angle r _ _ _ E). cbn [plot_curves]. unfold data_abs_arg_pass, v_label.
  change (lit "V" ++ supper a) with ("V"%char :: supper a). cbn [Ascii.eqb andb].
  replace (Ascii.eqb "V"%char c_bar) with false by reflexivity. cbn [andb].
  replace (streqb (firstn 4 ("V"%char :: supper a)) (lit "arg(")) with false
    by (symmetry; destruct (streqb_spec (firstn 4 ("V"%char :: supper a)) (lit "arg(")) as [Q|]; [discriminate Q|reflexivity]).
  cbn [andb]. unfold v_label in G. change (lit "V" ++ supper a) with ("V"%char :: supper a) in G. rewrite G. reflexivity.
Qed.
Print Assumptions C158_missing_refuted.
Example C158_example : forall angle, let r := mkSol (fun s => if streqb s (lit "V1") then Ok [(3, 0)%R] else Err KeyError) (fun _ => Ok (lit "V")) in
  plot_curves angle r [Two (lit "V1") None; Two (lit "V9") None] = Err KeyError /\ plot_curves angle r [Two (lit "V1") None] = Ok [(lit "V1", [(3, 0)%R], lit "V")].
Proof. intros angle r. split; reflexivity. Qed.

(** * C159: comments at the end of a line *)

(** .four and .fft stop at a word that starts with a star. *)
Definition star_word (w : str) : Prop := exists u, w = "*"%char :: u.
Lemma four_stops : forall ws w rest, star_word w -> four_vars (ws ++ w :: rest) = four_vars ws.
Proof. induction ws as [|x ws IH]; intros w rest H; cbn [app four_vars]; [destruct H as [u ->]; reflexivity|]. destruct (starred x); [reflexivity|]. rewrite (IH _ _ H). reflexivity. Qed.
Lemma fft_stops : forall ws w rest i params an, star_word w -> fft_loop i (ws ++ w :: rest) params an = fft_loop i ws params an.
Proof.
  induction ws as [|x ws IH]; intros w rest i params an H; cbn [app fft_loop]; [destruct H as [u ->]; reflexivity|]. destruct (starred x); [reflexivity|].
  destruct (label_value x) as [lb v]. destruct (take_first (matches i lb) params) as [[t ps]|]; [|reflexivity]. destruct (convert v (s_type t)); [|reflexivity].
  cbn [bindr]. apply IH. exact H.
Qed.
Theorem C159_four_fft : forall ws w rest, star_word w -> ws <> [] ->
  parse_four (ws ++ w :: rest) = parse_four ws /\ parse_fft (ws ++ w :: rest) = parse_fft ws.
Proof.
  intros ws w rest H N. split.
  - destruct ws as [|f ws]; [congruence|]. unfold parse_four. cbn [app]. rewrite four_stops by exact H. reflexivity.
  - unfold parse_fft, fft_params. rewrite fft_stops by exact H. reflexivity.
Qed.
Print Assumptions C159_four_fft.
Example C159_example : exists p, parse_pp (lit ".four 1k v(1) * the output v(2)") = Ok p /\ parse_pp (lit ".four 1k v(1)") = Ok p.
Proof. eexists. split; vm_compute; reflexivity. Qed.

(** .plot reads the signals in the comment. *)
Theorem C159_plot_refuted : exists ws w rest p p', star_word w /\ parse_plot (ws ++ w :: rest) = Ok p /\ parse_plot ws = Ok p' /\ p <> p'.
Proof.
  exists [lit "tran"; lit "v(1)"], (lit "*"), [lit "compare"; lit "with"; lit "v(2)"]. do 2 eexists. split; [eexists; reflexivity|].
  split; [vm_compute; reflexivity|split; [vm_compute; reflexivity|discriminate]].
Qed.
Print Assumptions C159_plot_refuted.

(** * C160: the variables of .four *)

(** Each word is one signal. *)
Inductive words_of : list want -> list str -> Prop :=
| wd_nil : words_of [] []
| wd_cons : forall x t l ws, writes x t -> words_of l ws -> words_of (x :: l) (t :: ws).
Theorem C160_four : forall s f ws d l, split s = lit ".four" :: f :: ws -> convert_units f = Ok d -> words_of l ws ->
  parse_pp s = Ok (PFour d (map label_for l)).
Proof.
  intros s f ws d l E C W. unfold parse_pp. rewrite E. replace (streqb (lit ".four") (lit ".plot")) with false by reflexivity.
  replace (streqb (lit ".four") (lit ".four")) with true by reflexivity. unfold parse_four. rewrite C. cbn [bindr].
  assert (Q : four_vars ws = Ok (map label_for l)); [|rewrite Q; reflexivity].
  clear E. induction W as [|x t l ws W H IH]; [reflexivity|]. cbn [four_vars map].
  assert (S0 : starred t = false).
  { destruct W as [c ? ? ? ? ? ? ? U|c ? ? ? ? U|c ? ? ? ? U]; unfold starred; (destruct (ascii_dec c c_star) as [->|]; [discriminate U|reflexivity]). }
  rewrite S0. assert (L : line_of [x] t).
  { replace t with ([] ++ t ++ []) by (cbn [app]; apply app_nil_r). apply ln_item; [constructor|exact W|apply ln_end; constructor]. }
  unfold first_label. rewrite (C156_labels _ _ L ltac:(discriminate)). rewrite IH. destruct x; reflexivity.
Qed.
Print Assumptions C160_four.
Example C160_example : parse_pp (lit ".four 100k v(n1) i(v2) v(2,1)") =
  Ok (PFour (100, 3)%Z [Two (lit "VN1") None; Two (lit "I(V2)") None; Two (lit "V2") (Some (lit "V1"))]).
Proof. vm_compute. reflexivity. Qed.

(** A blank after the comma, as in the manual, is refused; and a fundamental frequency
    that is no number is not reported as an error of the netlist. *)
Theorem C160_blank_refuted : writes (WPair (lit "2") (lit "1")) (lit "v(2, 1)") /\ parse_pp (lit ".four 1k v(2, 1)") = Err ValueError.
Proof.
  split; [|vm_compute; reflexivity].
  apply (wr_pair "v"%char [] [] (lit "2") [] (lit " ") (lit "1") []); try reflexivity; repeat constructor.
Qed.
Print Assumptions C160_blank_refuted.
Theorem C160_fundamental_refuted : exists f, parse_pp (lit ".four " ++ f ++ lit " v(1)") = Err ValueError /\ convert_units f = Err ValueError.
Proof. exists (lit "fast"). split; vm_compute; reflexivity. Qed.
Print Assumptions C160_fundamental_refuted.

(** * C161: the parameters of .fft *)

(** A line that is accepted gets the values of [parse_params] (C57, C100), and the
    signal of its first word. *)
Lemma fft_loop_ok : forall toks i params an r, fft_loop i toks params an = Ok r -> ploop i toks params an = Ok r.
Proof.
  induction toks as [|tok toks IH]; intros i params an r; cbn [fft_loop ploop]; [auto|]. destruct (starred tok); [auto|].
  destruct (label_value tok) as [lb v]. destruct (take_first (matches i lb) params) as [[t ps]|]; [|discriminate].
  destruct (convert v (s_type t)); [cbn [bindr]; apply IH|auto].
Qed.
Lemma ploop_ok : forall toks i params an r, ploop i toks params an = Ok r -> fft_loop i toks params an = Ok r.
Proof.
  induction toks as [|tok toks IH]; intros i params an r; cbn [fft_loop ploop]; [auto|]. destruct (starred tok); [auto|].
  destruct (label_value tok) as [lb v]. destruct (take_first (matches i lb) params) as [[t ps]|]; [|discriminate].
  destruct (convert v (s_type t)); [cbn [bindr]; apply IH|auto].
Qed.
Lemma fft_params_ok : forall toks an, fft_params toks = Ok an <-> parse_params fft_table [] toks = Ok an.
Proof.
  intros toks an. unfold fft_params, parse_params. split; intros H.
  - destruct (fft_loop 0 toks fft_table []) as [p|] eqn:E; [|discriminate H]. rewrite (fft_loop_ok _ _ _ _ _ E). exact H.
  - destruct (ploop 0 toks fft_table []) as [p|] eqn:E; [|discriminate H]. rewrite (ploop_ok _ _ _ _ _ E). exact H.
Qed.
Theorem C161_fft : forall s toks args y, split s = lit ".fft" :: toks -> parse_pp s = Ok (PFft args y) ->
  parse_params fft_table [] toks = Ok args /\ exists w l, dget streqb args (lit "label") = Some (VStr w) /\ split_label w = Ok (y :: l).
Proof.
  intros s toks args y E H. unfold parse_pp in H. rewrite E in H. replace (streqb (lit ".fft") (lit ".plot")) with false in H by reflexivity.
  replace (streqb (lit ".fft") (lit ".four")) with false in H by reflexivity. replace (streqb (lit ".fft") (lit ".fft")) with true in H by reflexivity.
  unfold parse_fft in H. destruct (fft_params toks) as [an|] eqn:F; [|discriminate H]. cbn [bindr] in H.
  destruct (dget streqb an (lit "label")) as [[| |?|w|?]|] eqn:G; try discriminate H.
  unfold first_label in H. destruct (split_label w) as [[|z l]|] eqn:Q; try discriminate H. cbn [bindr] in H. injection H as <- <-.
  split; [apply fft_params_ok; exact F|]. exists w, l. split; assumption.
Qed.
Print Assumptions C161_fft.

(** A keyword that is not in the table raises KeyError, not the error of the parser;
    the manual's ALFA is one. *)
Lemma no_eq_filter : forall v, existsb is_eq v = false -> filter is_eq v = [].
Proof. induction v as [|c v IH]; intros H; [reflexivity|]. cbn in H |- *. apply orb_false_iff in H. destruct H as [A B]. rewrite A. apply IH, B. Qed.
Lemma no_eq_span : forall u x, existsb is_eq u = false -> span (fun c => negb (is_eq c)) (u ++ "="%char :: x) = (u, "="%char :: x).
Proof. induction u as [|c u IH]; intros x H; [reflexivity|]. cbn in H |- *. apply orb_false_iff in H. destruct H as [A B]. rewrite A. cbn [negb]. rewrite IH by exact B. reflexivity. Qed.
Lemma label_value_kw : forall u x, existsb is_eq u = false -> existsb is_eq x = false -> label_value (u ++ "="%char :: x) = (Some u, x).
Proof.
  intros u x U X. unfold label_value, is_valid_value_param_string. rewrite filter_app, (no_eq_filter u U). cbn [app filter].
  replace (is_eq "="%char) with true by reflexivity. rewrite (no_eq_filter x X). cbn [List.length Nat.eqb]. rewrite no_eq_span by exact U. reflexivity.
Qed.
Theorem C161_unknown_refuted : forall v u x, existsb is_eq v = false -> starred v = false ->
  u <> [] -> starred u = false -> existsb is_eq u = false -> existsb is_eq x = false ->
  Forall (fun t => s_label t <> Some u) fft_table -> parse_fft [v; u ++ "="%char :: x] = Err KeyError.
Proof.
  intros v u x NV SV NU SU EU EX F. unfold parse_fft, fft_params. cbn [fft_loop]. rewrite SV.
  assert (LV : label_value v = (None, v)) by (unfold label_value, is_valid_value_param_string; rewrite (no_eq_filter v NV); reflexivity). rewrite LV.
  assert (T : exists t, take_first (matches 0 None) fft_table = Some (t, tl fft_table) /\ s_type t = TStr) by (eexists; split; reflexivity).
  destruct T as (t & T & TT). rewrite T, TT. cbn [convert bindr].
  assert (SK : starred (u ++ "="%char :: x) = false) by (destruct u as [|c u]; [congruence|exact SU]). rewrite SK, (label_value_kw u x EU EX).
  assert (Q : take_first (matches 1 (Some u)) (tl fft_table) = None); [|rewrite Q; reflexivity].
  assert (G : Forall (fun t => s_label t <> Some u) (tl fft_table)) by (inversion F; assumption). clear - G. induction G as [|t l H G IH]; [reflexivity|].
  cbn [take_first]. rewrite IH. unfold matches. cbn [orb]. destruct (s_label t) as [y|]; cbn [optstr_eqb]; [|reflexivity].
  destruct (streqb_spec u y) as [E|]; [exfalso; apply H; f_equal; symmetry; exact E|reflexivity].
Qed.
Print Assumptions C161_unknown_refuted.
Theorem C161_alfa_refuted : parse_pp (lit ".fft v(1) window=gauss alfa=2") = Err KeyError.
Proof. vm_compute. reflexivity. Qed.
Print Assumptions C161_alfa_refuted.
Example C161_example : exists args, parse_pp (lit ".fft v(n1,n2) np=1024") = Ok (PFft args (Two (lit "VN1") (Some (lit "VN2")))) /\
  dget streqb args (lit "np") = Some (VNum (1024, 0)%Z).
Proof. eexists. split; vm_compute; reflexivity. Qed.

(** * C162: running the directives *)
Section Run.
  Variable call : action -> option exn.
  Variable results : list str.
  Variable outtype outfile : str.

  (** What the user asked for: entry number [i] of the list. *)
  Definition asked (i : nat) (p : pp) : list action :=
    match p with
    | PPlot an l => [APlot (outfile ++ lit "-" ++ Results.dec i ++ lit "." ++ outtype) an l]
    | PFour fund vs => map (fun v => AFour v fund) vs
    | PFft args l => [AFft args l (if streqb outfile (lit "stdout") then outfile else outfile ++ lit ".lis")]
    end.
  Definition all_asked (l : list pp) : list action := concat (map (fun '(i, p) => asked i p) (combine (seq 0 (List.length l)) l)).
  Definition analysis_of (p : pp) : str := match p with PPlot an _ => an | _ => lit "tran" end.

  Lemma perform_ok : forall l acts, map snd l = acts -> Forall (fun x => fst x = None) l -> (forall a, In a acts -> call a = None) ->
    perform call l = (acts, None).
  Proof.
    induction l as [|[e a] l IH]; intros acts E F C; subst acts; [reflexivity|]. inversion F as [|? ? H1 H2]; subst. cbn in H1. subst e. cbn [map snd] in *. cbn [perform].
    rewrite (C a) by (left; reflexivity). rewrite (IH (map snd l) eq_refl H2) by (intros x X; apply C; right; exact X). reflexivity.
  Qed.
  Lemma need_ok : forall an, In an results -> (if existsb (streqb an) results then None else Some KeyError) = None.
  Proof.
    intros an H. assert (E : existsb (streqb an) results = true); [|rewrite E; reflexivity]. apply existsb_exists. exists an. split; [exact H|].
    destruct (streqb_spec an an); [reflexivity|congruence].
  Qed.
  Lemma plan_asked : forall skip i p, In (analysis_of p) results -> (skip = true -> is_plot p = false) ->
    map snd (plan results outtype outfile skip i p) = asked i p /\ Forall (fun x => fst x = None) (plan results outtype outfile skip i p).
  Proof.
    intros skip i [an l|fund vs|args l] H K; cbn [plan asked analysis_of is_plot] in *; rewrite need_ok by exact H.
    - destruct skip; [discriminate (K eq_refl)|]. split; [reflexivity|repeat constructor].
    - split; [rewrite map_map; reflexivity|]. apply Forall_forall. intros x X. apply in_map_iff in X. destruct X as (v & <- & _). reflexivity.
    - split; [|repeat constructor]. unfold to_stdout. destruct (streqb outfile (lit "stdout")); [rewrite app_nil_r|]; reflexivity.
  Qed.
  Lemma concat_plan : forall skip (l : list (nat * pp)), (forall i p, In (i, p) l -> In (analysis_of p) results /\ (skip = true -> is_plot p = false)) ->
    map snd (concat (map (fun '(i, p) => plan results outtype outfile skip i p) l)) = concat (map (fun '(i, p) => asked i p) l) /\
    Forall (fun x => fst x = None) (concat (map (fun '(i, p) => plan results outtype outfile skip i p) l)).
  Proof.
    induction l as [|[i p] l IH]; intros H; [split; [reflexivity|constructor]|]. cbn [map concat].
    destruct (H i p (or_introl eq_refl)) as [H1 H2]. destruct (plan_asked skip i p H1 H2) as [A B]. destruct IH as [C D]; [intros i' p' Q; apply (H i' p'); right; exact Q|].
    rewrite map_app, A, C. split; [reflexivity|apply Forall_app; split; assumption].
  Qed.

  (** When the analyses were run and no call fails, every directive is carried out
      once, in order, each plot to its own file. *)
  Theorem C162_all : forall l, (streqb outfile (lit "stdout") = true -> forallb (fun p => negb (is_plot p)) l = true) ->
    (forall p, In p l -> In (analysis_of p) results) -> (forall a, In a (all_asked l) -> call a = None) ->
    process_postproc call results outtype outfile l = (all_asked l, None).
  Proof.
    intros l S0 R C. unfold process_postproc.
    assert (SK : (to_stdout outfile && existsb is_plot l)%bool = false).
    { unfold to_stdout. destruct (streqb outfile (lit "stdout")); [|reflexivity]. specialize (S0 eq_refl). cbn [andb]. clear - S0.
      induction l as [|p l IH]; [reflexivity|]. cbn in S0 |- *. apply andb_prop in S0. destruct S0 as [A B]. apply negb_true_iff in A. rewrite A. apply IH, B. }
    rewrite SK. destruct (concat_plan false (combine (seq 0 (List.length l)) l)) as [A B].
    - intros i p H. split; [apply R; apply in_combine_r in H; exact H|discriminate].
    - apply perform_ok; assumption.
  Qed.

  (** On the standard output the plots are left out and the rest is done. *)
  Theorem C162_stdout : forall l, outfile = lit "stdout" -> existsb is_plot l = true ->
    (forall p, In p l -> is_plot p = false -> In (lit "tran") results) ->
    (forall a, In a (all_asked (filter (fun p => negb (is_plot p)) l)) -> call a = None) ->
    process_postproc call results outtype outfile l = (all_asked (filter (fun p => negb (is_plot p)) l), None).
  Proof.
    intros l S0 X R C. unfold process_postproc. assert (T : to_stdout outfile = true) by (unfold to_stdout; rewrite S0; reflexivity). rewrite T, X. cbn [andb].
    assert (Q : forall l (n k : nat), (forall p, In p l -> is_plot p = false -> In (lit "tran") results) ->
       map snd (concat (map (fun '(i, p) => plan results outtype outfile true i p) (combine (seq n (List.length l)) l))) =
       concat (map (fun '(i, p) => asked i p) (combine (seq k (List.length (filter (fun p => negb (is_plot p)) l))) (filter (fun p => negb (is_plot p)) l))) /\
       Forall (fun x => fst x = None) (concat (map (fun '(i, p) => plan results outtype outfile true i p) (combine (seq n (List.length l)) l)))).
    { clear. induction l as [|p l IH]; intros n k H; [split; [reflexivity|constructor]|]. destruct (is_plot p) eqn:P.
      - cbn [List.length seq combine map concat filter]. rewrite P. cbn [negb]. destruct (IH (S n) k) as [A B]; [intros q Q1 Q2; apply (H q); [right; exact Q1|exact Q2]|].
        destruct p; try discriminate P. cbn [plan app]. split; assumption.
      - cbn [filter]. rewrite P. cbn [negb List.length seq combine map concat]. destruct (IH (S n) (S k)) as [A B]; [intros q Q1 Q2; apply (H q); [right; exact Q1|exact Q2]|].
        destruct (plan_asked true n p) as [D E]; [destruct p as [? ?|? ?|? ?]; [discriminate P| |]; (eapply H; [left; reflexivity|exact P])|intros _; exact P|].
        rewrite map_app, A, D. split; [|apply Forall_app; split; assumption]. f_equal. destruct p; [discriminate P| |]; reflexivity. }
    destruct (Q l 0 0 R)%nat as [A B]. apply perform_ok; assumption.
  Qed.

  (** A call that fails ends the processing: what comes after is not done. *)
  Theorem C162_failure_refuted : forall p l, outfile <> lit "stdout" -> ~ In (analysis_of p) results -> (exists i, asked i p <> []) ->
    process_postproc call results outtype outfile (p :: l) = ([], Some KeyError).
  Proof.
    intros p l S0 N [i A]. unfold process_postproc. assert (T : to_stdout outfile = false) by (unfold to_stdout; destruct (streqb_spec outfile (lit "stdout")); [contradiction|reflexivity]).
    rewrite T. cbn [andb List.length seq combine map concat].
    assert (E : forall an, ~ In an results -> existsb (streqb an) results = false).
    { intros an H. destruct (existsb (streqb an) results) eqn:E; [|reflexivity]. exfalso. apply existsb_exists in E. destruct E as (x & X & Y).
      destruct (streqb_spec an x) as [->|]; [contradiction|discriminate Y]. }
    destruct p as [an y|fund [|v vs]|args y]; cbn [plan analysis_of] in *; rewrite (E _ N); try reflexivity. exfalso. apply A. reflexivity.
  Qed.
  (** The same if the call fails: what follows it is not done. *)
  Theorem C162_call_fails_refuted : forall p l a more e, outfile <> lit "stdout" -> In (analysis_of p) results -> asked 0 p = a :: more -> call a = Some e ->
    process_postproc call results outtype outfile (p :: l) = ([a], Some e).
  Proof.
    intros p l a more e S0 I A C. unfold process_postproc. assert (T : to_stdout outfile = false) by (unfold to_stdout; destruct (streqb_spec outfile (lit "stdout")); [contradiction|reflexivity]).
    rewrite T. cbn [andb List.length seq combine map concat]. destruct (plan_asked false 0 p I ltac:(discriminate)) as [P1 P2]. rewrite A in P1.
    destruct (plan results outtype outfile false 0 p) as [|[o x] pl]; [discriminate P1|]. cbn [map snd] in P1. injection P1 as -> _.
    inversion P2 as [|? ? N _]; subst. cbn [fst] in N. subst o. cbn [app perform]. rewrite C. reflexivity.
  Qed.
End Run.
Print Assumptions C162_call_fails_refuted.
Print Assumptions C162_all.
Print Assumptions C162_stdout.
Print Assumptions C162_failure_refuted.
Example C162_example : process_postproc (fun _ => None) [lit "tran"] (lit "png") (lit "out")
    [PFour (1, 3)%Z [Two (lit "V1") None]; PPlot (lit "tran") [Two (lit "V2") None]] =
  ([AFour (Two (lit "V1") None) (1, 3)%Z; APlot (lit "out-1.png") (lit "tran") [Two (lit "V2") None]], None).
Proof. vm_compute. reflexivity. Qed.
Example C162_example_stdout : process_postproc (fun _ => None) [lit "tran"] (lit "png") (lit "stdout")
    [PPlot (lit "tran") [Two (lit "V2") None]; PFour (1, 3)%Z [Two (lit "V1") None]] = ([AFour (Two (lit "V1") None) (1, 3)%Z], None).
Proof. vm_compute. reflexivity. Qed.
