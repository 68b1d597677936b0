(** Property theorems about directives (C45, C81, C100-C103). *)
From Coq Require Import Ascii String List Bool Arith ZArith Reals Lia Lra.
From Verif Require Import Base BaseFacts Str Units Subckt Directive PropsSubckt NewtonFacts TimeFun.
Import ListNotations.
Open Scope nat_scope.

(** * Specification *)

(** The tokens before a comment. *)
Fixpoint live (toks : list str) : list str :=
  match toks with
  | [] => []
  | tok :: toks' => if starred tok then [] else tok :: live toks'
  end.

(** The parameter that the i-th token of a directive is about: the one with its
    label, or, without a label, the one with its position. *)
Definition about (tbl : list spec) (i : nat) (tok : str) (t : spec) : Prop :=
  In t tbl /\
  match fst (label_value tok) with
  | Some l => s_label t = Some l
  | None => s_pos t = Some i \/ s_label t = None
  end.

(** No token is about two parameters, and they have different destinations. *)
Definition clear (tbl : list spec) : Prop :=
  NoDup (map s_dest tbl) /\ forall i tok t u, about tbl i tok t -> about tbl i tok u -> t = u.

Lemma optnat_eqb_eq : forall a i, optnat_eqb a i = true <-> a = Some i.
Proof. intros [k|] i; simpl; [rewrite Nat.eqb_eq|]; split; intros H; try discriminate; try (injection H as ->); subst; reflexivity. Qed.
Lemma optstr_eqb_eq : forall a b, optstr_eqb a b = true <-> a = b.
Proof.
  intros [a|] [b|]; simpl; try (split; intros H; congruence).
  destruct (streqb_spec a b); split; intros H; congruence.
Qed.
Lemma matches_about : forall tbl i tok t, In t tbl -> (matches i (fst (label_value tok)) t = true <-> about tbl i tok t).
Proof.
  intros tbl i tok t H. unfold matches, about. rewrite orb_true_iff, optstr_eqb_eq.
  destruct (fst (label_value tok)) as [l|].
  - split; [intros [K|K]; [discriminate|split; [exact H|congruence]]|intros [_ K]; right; congruence].
  - rewrite optnat_eqb_eq. split; [intros [K|K]; split; auto|intros [_ [K|K]]; auto].
Qed.

(** * Lemmas *)
Definition unused (u : list str) (t : spec) : bool := negb (mem (s_dest t) u).

Lemma take_first_none : forall p l, (forall t, In t l -> p t = false) -> take_first p l = None.
Proof. intros p l. induction l as [|a l IH]; intros H; [reflexivity|]. cbn. rewrite (H a (or_introl eq_refl)), IH; [reflexivity|]. intros t T. apply H. right. exact T. Qed.
Lemma filter_all : forall A (f : A -> bool) l, (forall x, In x l -> f x = true) -> filter f l = l.
Proof. intros A f l. induction l as [|a l IH]; intros H; [reflexivity|]. cbn. rewrite (H a (or_introl eq_refl)). f_equal. apply IH. intros x X. apply H. right. exact X. Qed.

Lemma take_first_unused : forall p tbl u, NoDup (map s_dest tbl) -> (forall t v, In t tbl -> In v tbl -> p t = true -> p v = true -> t = v) ->
  take_first p (filter (unused u) tbl) =
  match find p tbl with
  | Some t => if mem (s_dest t) u then None else Some (t, filter (unused (s_dest t :: u)) tbl)
  | None => None
  end.
Proof.
  intros p tbl u. induction tbl as [|a tbl IH]; intros ND UQ; [reflexivity|].
  cbn [map] in ND. inversion ND as [|? ? NI ND']; subst.
  assert (IH' := IH ND' (fun t v T V => UQ t v (or_intror T) (or_intror V))).
  cbn [filter find]. unfold unused at 1. destruct (p a) eqn:P.
  - destruct (mem (s_dest a) u) eqn:M; cbn [negb].
    + apply take_first_none. intros t T. apply filter_In in T. destruct T as [T _]. destruct (p t) eqn:Q; [|reflexivity].
      exfalso. apply NI. rewrite (UQ a t (or_introl eq_refl) (or_intror T) P Q). apply in_map. exact T.
    + cbn [take_first]. rewrite P. f_equal. f_equal. unfold unused at 2. unfold mem at 1. cbn [existsb].
      destruct (streqb_spec (s_dest a) (s_dest a)) as [_|N]; [|contradiction]. cbn [orb negb].
      apply filter_ext_in. intros t T. unfold unused. f_equal. unfold mem. cbn [existsb].
      destruct (streqb_spec (s_dest t) (s_dest a)) as [E|_]; [|reflexivity].
      exfalso. apply NI. rewrite <- E. apply in_map. exact T.
  - destruct (mem (s_dest a) u) eqn:M; cbn [negb].
    + rewrite IH'. destruct (find p tbl) as [t|] eqn:F; [|reflexivity]. destruct (mem (s_dest t) u) eqn:M2; [reflexivity|].
      unfold unused at 2. unfold mem at 1. cbn [existsb]. unfold mem in M. rewrite M, orb_true_r. cbn [negb]. reflexivity.
    + cbn [take_first]. rewrite P, IH'. destruct (find p tbl) as [t|] eqn:F; [|reflexivity]. destruct (mem (s_dest t) u) eqn:M2; [reflexivity|].
      unfold unused at 2. unfold mem at 1. cbn [existsb]. destruct (streqb_spec (s_dest a) (s_dest t)) as [E|_].
      * exfalso. apply NI. rewrite E. apply in_map. apply find_some in F. apply F.
      * cbn [orb]. unfold mem in M. rewrite M. reflexivity.
Qed.

Definition addr (tbl : list spec) (i : nat) (tok : str) : option spec := find (matches i (fst (label_value tok))) tbl.

Lemma addr_about : forall tbl i tok t, clear tbl -> (addr tbl i tok = Some t <-> about tbl i tok t).
Proof.
  intros tbl i tok t [_ UQ]. unfold addr. split; intros H.
  - apply find_some in H. destruct H as [I M]. apply matches_about; assumption.
  - destruct (find (matches i (fst (label_value tok))) tbl) as [u|] eqn:F.
    + apply find_some in F. destruct F as [I M]. apply (matches_about tbl i tok u I) in M. rewrite (UQ i tok t u H M). reflexivity.
    + assert (N := find_none _ _ F t). destruct H as [I H]. specialize (N I). rewrite (proj2 (matches_about tbl i tok t I)) in N; [discriminate|].
      split; assumption.
Qed.

Lemma take_clear : forall tbl i tok u, clear tbl ->
  take_first (matches i (fst (label_value tok))) (filter (unused u) tbl) =
  match addr tbl i tok with Some t => if mem (s_dest t) u then None else Some (t, filter (unused (s_dest t :: u)) tbl) | None => None end.
Proof.
  intros tbl i tok u [ND UQ]. apply take_first_unused; [exact ND|]. intros t v T V P Q.
  apply (UQ i tok); apply matches_about; assumption.
Qed.

Lemma ploop_step : forall i tok toks params an, starred tok = false ->
  ploop i (tok :: toks) params an = match take_first (matches i (fst (label_value tok))) params with
    | None => Err NetlistParseError
    | Some (t, rest) => bindr (convert (snd (label_value tok)) (s_type t)) (fun x => ploop (S i) toks rest (dset streqb an (s_dest t) x)) end.
Proof. intros i tok toks params an H. cbn [ploop]. rewrite H. destruct (label_value tok) as [l v]. reflexivity. Qed.

Lemma in_dests : forall tbl t u, NoDup (map s_dest tbl) -> In t tbl -> In u tbl -> s_dest t = s_dest u -> t = u.
Proof.
  intros tbl t u. induction tbl as [|a tbl IH]; intros ND T U E; [contradiction|]. cbn [map] in ND. inversion ND as [|? ? NI ND']; subst.
  destruct T as [->|T]; destruct U as [->|U]; try reflexivity.
  - exfalso. apply NI. rewrite E. apply in_map. exact U.
  - exfalso. apply NI. rewrite <- E. apply in_map. exact T.
  - exact (IH ND' T U E).
Qed.

(** What the loop does when it succeeds. *)
Lemma ploop_ok : forall tbl, clear tbl -> forall toks i u an params an',
  ploop i toks (filter (unused u) tbl) an = Ok (params, an') ->
  exists u', params = filter (unused u') tbl /\
    (forall d, In d u' <-> In d u \/ exists k tok t, nth_error (live toks) k = Some tok /\ addr tbl (i + k) tok = Some t /\ s_dest t = d) /\
    (forall k tok, nth_error (live toks) k = Some tok -> exists t v, addr tbl (i + k) tok = Some t /\ ~ In (s_dest t) u /\
        convert (snd (label_value tok)) (s_type t) = Ok v /\ dget streqb an' (s_dest t) = Some v) /\
    (forall k k' tok tok' t, nth_error (live toks) k = Some tok -> nth_error (live toks) k' = Some tok' ->
        addr tbl (i + k) tok = Some t -> addr tbl (i + k') tok' = Some t -> k = k') /\
    (forall d, In d u \/ ~ In d u' -> dget streqb an' d = dget streqb an d).
Proof.
  intros tbl CL toks. induction toks as [|tok toks IH]; intros i u an params an' H.
  - cbn in H. injection H as <- <-. exists u. cbn [live]. split; [reflexivity|].
    assert (NE : forall A k (x : A), nth_error [] k = Some x -> False) by (intros A [|k] x K; discriminate K).
    split; [intros d; split; [auto|intros [K|(k & tk & t & K & _)]; [exact K|destruct (NE _ _ _ K)]]|].
    split; [intros k tk K; destruct (NE _ _ _ K)|]. split; [intros k k' tk tk' t K; destruct (NE _ _ _ K)|]. reflexivity.
  - destruct (starred tok) eqn:ST.
    + cbn [ploop] in H. rewrite ST in H. injection H as <- <-. exists u. cbn [live]. rewrite ST. split; [reflexivity|].
      assert (NE : forall A k (x : A), nth_error [] k = Some x -> False) by (intros A [|k] x K; discriminate K).
      split; [intros d; split; [auto|intros [K|(k & tk & t & K & _)]; [exact K|destruct (NE _ _ _ K)]]|].
      split; [intros k tk K; destruct (NE _ _ _ K)|]. split; [intros k k' tk tk' t K; destruct (NE _ _ _ K)|]. reflexivity.
    + rewrite ploop_step in H by exact ST. rewrite (take_clear tbl i tok u CL) in H. cbn [live]. rewrite ST.
      destruct (addr tbl i tok) as [t|] eqn:AD; [|discriminate]. destruct (mem (s_dest t) u) eqn:MU; [discriminate|].
      apply bindr_Ok in H. destruct H as (v & CV & H).
      assert (NU : ~ In (s_dest t) u) by (intros K; apply mem_In in K; congruence).
      destruct (IH _ _ _ _ _ H) as (u' & Pu & Uu & Tk & Di & Un). exists u'. split; [exact Pu|].
      assert (TU : In (s_dest t) u') by (apply Uu; left; left; reflexivity).
      split; [|split; [|split]].
      * intros d. rewrite Uu. split.
        -- intros [[K|K]|(k & tk & t' & K & A & E)]; [right; exists 0, tok, t; rewrite Nat.add_0_r; auto|left; exact K|].
           right. exists (S k), tk, t'. cbn [nth_error]. rewrite <- plus_n_Sm. auto.
        -- intros [K|(k & tk & t' & K & A & E)]; [left; right; exact K|]. destruct k as [|k].
           ++ cbn in K. injection K as <-. rewrite Nat.add_0_r, AD in A. injection A as <-. left. left. exact E.
           ++ cbn in K. right. exists k, tk, t'. rewrite <- plus_n_Sm in A. auto.
      * intros k tk K. destruct k as [|k].
        -- cbn in K. injection K as <-. exists t, v. rewrite Nat.add_0_r. split; [exact AD|]. split; [exact NU|]. split; [exact CV|].
           rewrite Un by (left; left; reflexivity). rewrite (dget_dset streqb streqb_spec). destruct (streqb_spec (s_dest t) (s_dest t)); [reflexivity|contradiction].
        -- cbn in K. destruct (Tk k tk K) as (t' & v' & A & N & C & G). exists t', v'. rewrite <- plus_n_Sm. split; [exact A|]. split; [|split; assumption].
           intros X. apply N. right. exact X.
      * assert (FIRST : forall k tk, nth_error (live toks) k = Some tk -> addr tbl (S i + k) tk = Some t -> False).
        { intros k tk K A. destruct (Tk k tk K) as (t' & v' & A' & N & _). rewrite A in A'. injection A' as <-. apply N. left. reflexivity. }
        intros k k' tk tk' t' K K' A A'. destruct k as [|k]; destruct k' as [|k'].
        -- reflexivity.
        -- exfalso. cbn in K, K'. injection K as <-. rewrite Nat.add_0_r, AD in A. injection A as <-. rewrite <- plus_n_Sm in A'. exact (FIRST k' tk' K' A').
        -- exfalso. cbn in K, K'. injection K' as <-. rewrite Nat.add_0_r, AD in A'. injection A' as <-. rewrite <- plus_n_Sm in A. exact (FIRST k tk K A).
        -- cbn in K, K'. f_equal. rewrite <- plus_n_Sm in A, A'. exact (Di k k' tk tk' t' K K' A A').
      * intros d D. assert (ND : d <> s_dest t) by (intros ->; destruct D; [exact (NU H0)|exact (H0 TU)]).
        rewrite Un; [|destruct D as [D|D]; [left; right; exact D|right; exact D]]. rewrite (dget_dset streqb streqb_spec).
        destruct (streqb_spec d (s_dest t)); [contradiction|reflexivity].
Qed.

(** When it succeeds. *)
Lemma ploop_succeeds : forall tbl, clear tbl -> forall toks i u an,
  (forall k tok, nth_error (live toks) k = Some tok -> exists t v, addr tbl (i + k) tok = Some t /\ ~ In (s_dest t) u /\ convert (snd (label_value tok)) (s_type t) = Ok v) ->
  (forall k k' tok tok' t, nth_error (live toks) k = Some tok -> nth_error (live toks) k' = Some tok' ->
     addr tbl (i + k) tok = Some t -> addr tbl (i + k') tok' = Some t -> k = k') ->
  exists params an', ploop i toks (filter (unused u) tbl) an = Ok (params, an').
Proof.
  intros tbl CL toks. induction toks as [|tok toks IH]; intros i u an T D; [eexists; eexists; reflexivity|].
  cbn [live] in T, D. destruct (starred tok) eqn:ST; [cbn [ploop]; rewrite ST; eexists; eexists; reflexivity|].
  rewrite ploop_step by exact ST. rewrite (take_clear tbl i tok u CL).
  destruct (T 0 tok eq_refl) as (t & v & A & N & C). rewrite Nat.add_0_r in A. rewrite A.
  destruct (mem (s_dest t) u) eqn:MU; [exfalso; apply N; apply mem_In; exact MU|]. rewrite C. cbn [bindr].
  apply IH.
  - intros k tk K. destruct (T (S k) tk K) as (t' & v' & A' & N' & C'). exists t', v'. rewrite <- plus_n_Sm in A'. split; [exact A'|]. split; [|exact C'].
    intros [E|E]; [|exact (N' E)]. assert (t' = t).
    { apply (in_dests tbl); [apply CL| | |congruence]; [apply addr_about in A'; [apply A'|exact CL]|apply addr_about in A; [apply A|exact CL]]. }
    subst t'. assert (Z : 0 = S k); [|discriminate]. apply (D 0 (S k) tok tk t); [reflexivity|exact K|rewrite Nat.add_0_r; exact A|rewrite <- plus_n_Sm; exact A'].
  - intros k k' tk tk' t' K K' A1 A2. assert (S k = S k'); [|congruence]. apply (D (S k) (S k') tk tk' t'); try assumption; rewrite <- plus_n_Sm; assumption.
Qed.

Lemma ploop_err : forall toks i params an e, ploop i toks params an = Err e -> e = NetlistParseError.
Proof.
  assert (CU : forall s e, convert_units s = Err e -> e = ValueError \/ e = NetlistParseError).
  { intros s e H. unfold convert_units in H. destruct s as [|c s]; [injection H as <-; auto|]. destruct (span num_char _) as [num mult].
    destruct num as [|c' num]; [injection H as <-; auto|]. destruct (float_of _) as [x|e'] eqn:F.
    - destruct (dget streqb multipliers mult); [discriminate|injection H as <-; auto].
    - injection H as <-. left. unfold float_of in F. destruct (sign _) as [sg s1]. destruct (span is_digit s1) as [ip s2]. destruct (fraction s2) as [fp s3].
      destruct (ip ++ fp)%list; [congruence|]. destruct s3 as [|c3 s4]; [discriminate|]. destruct (ascii_dec c3 c_E); [|congruence].
      destruct (sign s4) as [es s5]. destruct (span is_digit s5) as [ed s6]. destruct ed; [congruence|]. destruct s6; [discriminate|congruence]. }
  assert (CV : forall s ty e, convert s ty = Err e -> e = NetlistParseError).
  { intros s ty e H. destruct ty; cbn in H.
    - destruct (convert_units s) as [d|e'] eqn:C; [discriminate|]. destruct (CU s e' C) as [->| ->]; [discriminate|congruence].
    - discriminate.
    - unfold convert_boolean in H. destruct (_ || _ || _); [discriminate|]. destruct (_ || _ || _); [discriminate|]. cbn in H. congruence. }
  induction toks as [|tok toks IH]; intros i params an e H; [discriminate|]. cbn [ploop] in H. destruct (starred tok); [discriminate|].
  destruct (label_value tok) as [l v]. destruct (take_first _ _) as [[t rest]|]; [|congruence].
  destruct (convert v (s_type t)) as [x|e'] eqn:C; cbn [bindr] in H; [exact (IH _ _ _ _ H)|injection H as <-; exact (CV _ _ _ C)].
Qed.

Lemma unused_nil : forall tbl, filter (unused []) tbl = tbl.
Proof. intros tbl. apply filter_all. reflexivity. Qed.

Lemma fold_defaults : forall params an d, (forall t, In t params -> s_dest t <> d) ->
  dget streqb (fold_left (fun a t => dset streqb a (s_dest t) (s_default t)) params an) d = dget streqb an d.
Proof.
  induction params as [|p params IH]; intros an d H; [reflexivity|]. cbn [fold_left]. rewrite IH by (intros t T; apply H; right; exact T).
  rewrite (dget_dset streqb streqb_spec). destruct (streqb_spec d (s_dest p)) as [E|_]; [|reflexivity]. exfalso. exact (H p (or_introl eq_refl) (eq_sym E)).
Qed.
Lemma fold_defaults_in : forall params an t, NoDup (map s_dest params) -> In t params ->
  dget streqb (fold_left (fun a t => dset streqb a (s_dest t) (s_default t)) params an) (s_dest t) = Some (s_default t).
Proof.
  induction params as [|p params IH]; intros an t ND T; [contradiction|]. cbn [map] in ND. inversion ND as [|? ? NI ND']; subst. cbn [fold_left].
  destruct T as [->|T]; [|exact (IH _ t ND' T)].
  rewrite fold_defaults by (intros t' T' E; apply NI; rewrite <- E; apply in_map; exact T').
  rewrite (dget_dset streqb streqb_spec). destruct (streqb_spec (s_dest t) (s_dest t)); [reflexivity|contradiction].
Qed.
Lemma NoDup_map_filter : forall (f : spec -> bool) l, NoDup (map s_dest l) -> NoDup (map s_dest (filter f l)).
Proof.
  intros f l. induction l as [|a l IH]; intros H; [exact H|]. cbn [map] in H. inversion H as [|? ? NI ND]; subst. cbn [filter].
  destruct (f a); [|exact (IH ND)]. cbn [map]. constructor; [|exact (IH ND)]. intros K. apply NI. apply in_map_iff in K. destruct K as (x & E & X).
  apply filter_In in X. rewrite <- E. apply in_map. apply X.
Qed.

(** * C45 *)

(** A directive is accepted exactly if every token is about a parameter and has a
    value of its type, no two tokens are about the same one and every required
    parameter is there. *)
Definition complete (tbl : list spec) (toks : list str) : Prop :=
  (forall i tok, nth_error (live toks) i = Some tok -> exists t v, about tbl i tok t /\ convert (snd (label_value tok)) (s_type t) = Ok v) /\
  (forall i j tok tok' t, nth_error (live toks) i = Some tok -> nth_error (live toks) j = Some tok' -> about tbl i tok t -> about tbl j tok' t -> i = j) /\
  (forall t, In t tbl -> s_needed t = true -> exists i tok, nth_error (live toks) i = Some tok /\ about tbl i tok t).

Theorem C45_accepts : forall tbl an0 toks, clear tbl ->
  ((exists an, parse_params tbl an0 toks = Ok an) <-> complete tbl toks).
Proof.
  intros tbl an0 toks CL. unfold parse_params. split.
  - intros (an & H). apply bindr_Ok in H. destruct H as ([params an1] & L & H).
    rewrite <- (unused_nil tbl) in L at 1. destruct (ploop_ok tbl CL toks 0 [] an0 params an1 L) as (u' & Pu & Uu & Tk & Di & Un).
    destruct (existsb s_needed params) eqn:EX; [discriminate|]. split; [|split].
    + intros i tok K. destruct (Tk i tok K) as (t & v & A & _ & C & _). exists t, v. split; [apply (addr_about tbl _ _ _ CL); exact A|exact C].
    + intros i j tok tok' t K K' A A'. apply (Di i j tok tok' t K K'); apply (addr_about tbl _ _ _ CL); assumption.
    + intros t T N. destruct (mem (s_dest t) u') eqn:M.
      * apply mem_In in M. apply Uu in M. destruct M as [[]|(k & tk & t' & K & A & E)]. apply (addr_about tbl _ _ _ CL) in A.
        rewrite (in_dests tbl t' t (proj1 CL) (proj1 A) T E) in A. exists k, tk. split; assumption.
      * exfalso. assert (F : existsb s_needed params = true); [|congruence]. apply existsb_exists. exists t. split; [|exact N].
        rewrite Pu. apply filter_In. split; [exact T|]. unfold unused. rewrite M. reflexivity.
  - intros (TK & DI & ND).
    destruct (ploop_succeeds tbl CL toks 0 [] an0) as (params & an1 & L).
    + intros k tok K. destruct (TK k tok K) as (t & v & A & C). exists t, v. split; [apply (addr_about tbl _ _ _ CL); exact A|]. split; [intros []|exact C].
    + intros k k' tok tok' t K K' A A'. apply (DI k k' tok tok' t K K'); apply (addr_about tbl _ _ _ CL); assumption.
    + rewrite unused_nil in L. rewrite L. cbn [bindr]. destruct (existsb s_needed params) eqn:EX; [exfalso|eexists; reflexivity].
      apply existsb_exists in EX. destruct EX as (t & T & N). rewrite <- (unused_nil tbl) in L at 1.
      destruct (ploop_ok tbl CL toks 0 [] an0 params an1 L) as (u' & Pu & Uu & _). rewrite Pu in T. apply filter_In in T. destruct T as [T U].
      destruct (ND t T N) as (i & tok & K & A). unfold unused in U. apply negb_true_iff in U.
      assert (M : mem (s_dest t) u' = true); [|congruence]. apply mem_In. apply Uu. right. exists i, tok, t. split; [exact K|]. split; [|reflexivity].
      apply (addr_about tbl _ _ _ CL). exact A.
Qed.
Print Assumptions C45_accepts.

(** Otherwise it is reported as a parse error. *)
Theorem C45_rejects : forall tbl an0 toks, clear tbl -> ~ complete tbl toks -> parse_params tbl an0 toks = Err NetlistParseError.
Proof.
  intros tbl an0 toks CL N. destruct (parse_params tbl an0 toks) as [an|e] eqn:P.
  - exfalso. apply N. apply (C45_accepts tbl an0 toks CL). exists an. exact P.
  - unfold parse_params in P. destruct (ploop 0 toks tbl an0) as [[params an]|e'] eqn:L; cbn [bindr] in P.
    + destruct (existsb s_needed params); congruence.
    + injection P as <-. f_equal. exact (ploop_err _ _ _ _ _ L).
Qed.
Print Assumptions C45_rejects.

(** The result holds, for each parameter, the value of the token about it or else its
    default, and what was there before. *)
Theorem C45_values : forall tbl an0 toks an, clear tbl -> parse_params tbl an0 toks = Ok an ->
  (forall i tok t, nth_error (live toks) i = Some tok -> about tbl i tok t ->
     exists v, convert (snd (label_value tok)) (s_type t) = Ok v /\ dget streqb an (s_dest t) = Some v) /\
  (forall t, In t tbl -> (forall i tok, nth_error (live toks) i = Some tok -> ~ about tbl i tok t) ->
     s_needed t = false /\ dget streqb an (s_dest t) = Some (s_default t)) /\
  (forall d, (forall t, In t tbl -> s_dest t <> d) -> dget streqb an d = dget streqb an0 d).
Proof.
  intros tbl an0 toks an CL H. unfold parse_params in H. apply bindr_Ok in H. destruct H as ([params an1] & L & H).
  rewrite <- (unused_nil tbl) in L at 1. destruct (ploop_ok tbl CL toks 0 [] an0 params an1 L) as (u' & Pu & Uu & Tk & Di & Un).
  destruct (existsb s_needed params) eqn:EX; [discriminate|]. injection H as <-.
  assert (SUB : forall t, In t params -> In t tbl /\ ~ In (s_dest t) u').
  { intros t T. rewrite Pu in T. apply filter_In in T. destruct T as [T U]. split; [exact T|]. intros K. apply mem_In in K. unfold unused in U. rewrite K in U. discriminate. }
  split; [|split].
  - intros i tok t K A. destruct (Tk i tok K) as (t' & v & A' & _ & C & G). apply (addr_about tbl _ _ _ CL) in A'. cbn in A'.
    rewrite (proj2 CL i tok t t' A A'). exists v. split; [exact C|]. rewrite fold_defaults; [exact G|].
    intros p P E. destruct (SUB p P) as [_ N]. apply N. rewrite E. apply Uu. right. exists i, tok, t'. split; [exact K|]. split; [apply (addr_about tbl _ _ _ CL); exact A'|reflexivity].
  - intros t T NA. assert (NU : ~ In (s_dest t) u').
    { intros M. apply Uu in M. destruct M as [[]|(k & tk & t' & K & A & E)]. apply (addr_about tbl _ _ _ CL) in A.
      rewrite (in_dests tbl t' t (proj1 CL) (proj1 A) T E) in A. exact (NA k tk K A). }
    assert (IP : In t params).
    { rewrite Pu. apply filter_In. split; [exact T|]. unfold unused. destruct (mem (s_dest t) u') eqn:M; [|reflexivity]. exfalso. apply NU. apply mem_In. exact M. }
    split.
    + destruct (s_needed t) eqn:N; [|reflexivity]. exfalso. assert (F : existsb s_needed params = true); [|congruence].
      apply existsb_exists. exists t. split; assumption.
    + apply fold_defaults_in; [|exact IP]. rewrite Pu. apply NoDup_map_filter. apply CL.
  - intros d D. rewrite fold_defaults by (intros t T; apply D; apply (SUB t T)). apply Un. right. intros K. apply Uu in K.
    destruct K as [[]|(k & tk & t & _ & A & E)]. apply (addr_about tbl _ _ _ CL) in A. exact (D t (proj1 A) E).
Qed.
Print Assumptions C45_values.

(** All tables of the program are clear. *)
Definition clear_b (tbl : list spec) : bool :=
  (fix nd (l : list str) := match l with [] => true | x :: l' => negb (mem x l') && nd l' end) (map s_dest tbl) &&
  forallb (fun t => forallb (fun u => streqb (s_dest t) (s_dest u) ||
     negb (optstr_eqb (s_label t) (s_label u)) &&
     negb (match s_pos t, s_pos u with Some a, Some b => a =? b | _, _ => false end) &&
     negb (match s_label t, s_pos u with None, Some _ => true | _, _ => false end) &&
     negb (match s_label u, s_pos t with None, Some _ => true | _, _ => false end)) tbl) tbl.
Lemma clear_b_clear : forall tbl, clear_b tbl = true -> clear tbl.
Proof.
  intros tbl H. apply andb_true_iff in H. destruct H as [H1 H2].
  assert (ND : NoDup (map s_dest tbl)).
  { revert H1. generalize (map s_dest tbl). intros l. induction l as [|x l IH]; intros H; [constructor|]. apply andb_true_iff in H. destruct H as [A B].
    constructor; [|exact (IH B)]. intros K. apply mem_In in K. rewrite K in A. discriminate. }
  split; [exact ND|]. intros i tok t u [It At] [Iu Au]. rewrite forallb_forall in H2. specialize (H2 t It). rewrite forallb_forall in H2. specialize (H2 u Iu).
  apply orb_true_iff in H2. destruct H2 as [H2|H2]; [destruct (streqb_spec (s_dest t) (s_dest u)) as [E|]; [exact (in_dests tbl t u ND It Iu E)|discriminate]|exfalso].
  apply andb_true_iff in H2. destruct H2 as [H2 D]. apply andb_true_iff in H2. destruct H2 as [H2 C]. apply andb_true_iff in H2. destruct H2 as [A B].
  apply negb_true_iff in A, B, C, D. assert (A' : s_label t <> s_label u) by (intros E; apply optstr_eqb_eq in E; congruence).
  destruct (fst (label_value tok)) as [l|]; [congruence|].
  destruct At as [At|At]; destruct Au as [Au|Au].
  - rewrite At, Au, Nat.eqb_refl in B. discriminate.
  - rewrite At, Au in D. discriminate.
  - rewrite At, Au in C. discriminate.
  - congruence.
Qed.
Theorem C45_tables : forall ty tbl, In (ty, tbl) specs \/ In (ty, tbl) time_fun_specs \/ tbl = fft_table -> clear tbl.
Proof.
  intros ty tbl H. apply clear_b_clear.
  destruct H as [H|[H| ->]]; [| |vm_compute; reflexivity].
  - cbn in H. repeat destruct H as [H|H]; try contradiction; injection H as <- <-; vm_compute; reflexivity.
  - cbn in H. repeat destruct H as [H|H]; try contradiction; injection H as <- <-; vm_compute; reflexivity.
Qed.
Print Assumptions C45_tables.

(** The order of the words without a label is the documented one. *)
Definition plain (w : str) : Prop := fst (label_value w) = None /\ starred w = false.
Lemma plain_value : forall w, plain w -> label_value w = (None, w).
Proof.
  intros w [L _]. unfold label_value in *. destruct (is_valid_value_param_string w); [|reflexivity].
  destruct (span (fun c => negb (is_eq c)) w). discriminate L.
Qed.
Lemma plain_live : forall l, Forall plain l -> live l = l.
Proof. intros l H. induction H as [|w l [_ W] H IH]; [reflexivity|]. cbn [live]. rewrite W, IH. reflexivity. Qed.
Lemma plain_words : forall tbl words an, clear tbl -> Forall plain words -> parse_params tbl [] words = Ok an ->
  forall i w t, nth_error words i = Some w -> In t tbl -> s_pos t = Some i -> exists v, convert w (s_type t) = Ok v /\ dget streqb an (s_dest t) = Some v.
Proof.
  intros tbl words an CL PW P i w t K I S0. destruct (C45_values tbl [] words an CL P) as (V & _).
  assert (W : plain w) by (rewrite Forall_forall in PW; apply PW; exact (nth_error_In _ _ K)).
  destruct (V i w t) as (v & C & G).
  - rewrite plain_live by exact PW. exact K.
  - split; [exact I|]. rewrite (plain_value w W). left. exact S0.
  - rewrite (plain_value w W) in C. exists v. split; [exact C|exact G].
Qed.
Definition documented_order : list (str * list (ptype * str)) :=
  [ (lit "dc", [(TStr, lit "source"); (TFloat, lit "start"); (TFloat, lit "stop"); (TFloat, lit "step")]);
    (lit "ac", [(TStr, lit "sweep_type"); (TFloat, lit "points"); (TFloat, lit "start"); (TFloat, lit "stop")]);
    (lit "tran", [(TFloat, lit "tstep"); (TFloat, lit "tstop"); (TFloat, lit "uic")]);
    (lit "pss", [(TFloat, lit "period")]);
    (lit "pz", [(TStr, lit "output_port"); (TStr, lit "input_source"); (TFloat, lit "shift")]) ].
Ltac entry L k := exists (nth k L (sp "" None TStr false "" VNone)); split; [cbn; auto 10|split; [reflexivity|split; reflexivity]].
Theorem C45_positions : forall ty tbl order words an, In (ty, tbl) specs -> In (ty, order) documented_order -> Forall plain words ->
  parse_params tbl [] words = Ok an ->
  forall i w ty' dest, nth_error words i = Some w -> nth_error order i = Some (ty', dest) ->
    exists v, convert w ty' = Ok v /\ dget streqb an dest = Some v.
Proof.
  intros ty tbl order words an HT HO PW P i w ty' dest K N.
  assert (CL : clear tbl) by (apply (C45_tables ty); left; exact HT).
  assert (Q : exists t, In t tbl /\ s_pos t = Some i /\ s_type t = ty' /\ s_dest t = dest).
  { clear P CL PW K. cbn in HT, HO.
    repeat destruct HT as [HT|HT]; try contradiction; injection HT as <- <-; repeat destruct HO as [HO|HO]; try contradiction; try discriminate HO; injection HO as <-;
      (do 4 (destruct i as [|i]; [cbn in N; try discriminate N; injection N as <- <-;
        match goal with |- exists t, In t ?L /\ _ => first [entry L 0%nat|entry L 1%nat|entry L 2%nat|entry L 3%nat|entry L 4%nat] end|])); destruct i; discriminate N. }
  destruct Q as (t & T1 & T2 & <- & <-). exact (plain_words tbl words an CL PW P i w t K T1 T2).
Qed.
Print Assumptions C45_positions.

Example C45_ok : parse_single_analysis (lit ".dc v1 stop=2 1 step=.1") = Err NetlistParseError /\
  parse_single_analysis (lit ".dc v1 0 stop=2 step=.1 * type=log") =
  Ok [(lit "type", VStr (lit "dc")); (lit "source", VStr (lit "v1")); (lit "start", VNum (0, 0)%Z); (lit "stop", VNum (2, 0)%Z);
      (lit "step", VNum (1, -1)%Z); (lit "sweep_type", VStr (lit "LIN"))] /\
  parse_single_analysis (lit ".dc v1 0 2 step=1 step=2") = Err NetlistParseError /\
  parse_single_analysis (lit ".dc v1 0 2") = Err NetlistParseError /\
  parse_single_analysis (lit ".tran 1n 1u uic=2") =
  Ok [(lit "type", VStr (lit "tran")); (lit "tstep", VNum (1, -9)%Z); (lit "tstop", VNum (1, -6)%Z); (lit "tstart", VNum (0, 0)%Z);
      (lit "x0", VStr (lit "op+ic")); (lit "method", VNone)].
Proof. vm_compute. repeat split. Qed.

(** * C102: malformed numbers *)

(** A number that cannot be parsed is accepted as a string, for every directive and
    every string which is no number (and not empty). *)
Theorem C102_refuted : forall s, convert_units s = Err ValueError -> convert s TFloat = Ok (VStr s).
Proof. intros s H. unfold convert. rewrite H. reflexivity. Qed.
Print Assumptions C102_refuted.
Example C102_example : parse_single_analysis (lit ".tran foo 1") =
  Ok [(lit "type", VStr (lit "tran")); (lit "tstep", VStr (lit "foo")); (lit "tstop", VNum (1, 0)%Z); (lit "tstart", zero); (lit "x0", VNone); (lit "method", VNone)] /\
  parse_single_analysis (lit ".tran 1 2 uic=foo") = Err ValueError.
Proof. vm_compute. split; reflexivity. Qed.
Theorem C102_numbers : forall s v, convert s TFloat = Ok v -> (exists d, convert_units s = Ok d /\ v = VNum d) \/ v = VStr s.
Proof.
  intros s v H. unfold convert in H. destruct (convert_units s) as [d|e] eqn:C.
  - left. exists d. split; [reflexivity|congruence].
  - right. destruct e; congruence.
Qed.
Print Assumptions C102_numbers.

(** * C101: .PSS with a step *)

(** Without [points] no .PSS directive is accepted. *)
Theorem C101_refuted : forall an0 toks, (forall tok, In tok toks -> forall v, tok <> lit "points=" ++ v) ->
  parse_params pss_table an0 toks = Err NetlistParseError.
Proof.
  intros an0 toks H. apply C45_rejects; [apply (C45_tables (lit "pss")); left; cbn; auto 10|].
  intros (_ & _ & N). destruct (N (sp "points" None TFloat true "points" VNone)) as (i & tok & K & (_ & A)); [cbn; auto|reflexivity|].
  assert (LI : forall l i (x : str), nth_error (live l) i = Some x -> In x l).
  { intros l. induction l as [|a l IH]; intros j x J; [destruct j; discriminate|]. cbn [live] in J. destruct (starred a); [destruct j; discriminate|].
    destruct j as [|j]; [injection J as <-; left; reflexivity|right; exact (IH j x J)]. }
  assert (IN := LI _ _ _ K). destruct (fst (label_value tok)) as [l|] eqn:L; [|destruct A; discriminate].
  unfold label_value in L. destruct (is_valid_value_param_string tok) eqn:V; [|discriminate].
  destruct (span (fun c => negb (is_eq c)) tok) as [l' v] eqn:S. cbn in L. injection L as ->. injection A as <-.
  assert (SP : forall p s a b, span p s = (a, b) -> s = (a ++ b)%list /\ match b with [] => True | c :: _ => p c = false end).
  { intros p s. induction s as [|c s IH]; intros a b E; cbn in E; [injection E as <- <-; split; [reflexivity|exact I]|].
    destruct (p c) eqn:P; [|injection E as <- <-; split; [reflexivity|exact P]]. destruct (span p s) as [a' b'] eqn:Q. injection E as <- <-.
    destruct (IH a' b' eq_refl) as [-> B]. split; [reflexivity|exact B]. }
  destruct (SP _ _ _ _ S) as [E B]. destruct v as [|c v].
  - rewrite app_nil_r in E. subst tok. vm_compute in V. discriminate.
  - unfold is_eq in B. destruct (ascii_dec c c_eq) as [->|]; [|discriminate]. apply (H tok IN v). rewrite E. reflexivity.
Qed.
Print Assumptions C101_refuted.
Example C101_example : parse_single_analysis (lit ".pss period=1u step=10n") = Err NetlistParseError /\
  isOk (parse_single_analysis (lit ".pss period=1u step=10n points=100")) = true.
Proof. vm_compute. split; reflexivity. Qed.

(** * C103: the name of a set of initial conditions *)

(** A name which is a number becomes a float, which the string given to ic_label
    never equals. *)
Theorem C103_refuted : forall v d conds r, convert_units v = Ok d -> existsb is_eq v = false ->
  parse_ic_directive ((lit "name=" ++ v)%list :: conds) = Ok r -> fst r = VNum d.
Proof.
  intros v d conds r C NE H. unfold parse_ic_directive in H. cbn [ic_loop] in H.
  assert (PP : parse_param_value (lit "name=" ++ v) = Ok (lit "name", VNum d)).
  { unfold parse_param_value, is_valid_value_param_string. assert (F : filter is_eq v = []).
    { clear - NE. induction v as [|c v IH]; [reflexivity|]. cbn in NE. apply orb_false_iff in NE. destruct NE as [A B]. cbn. rewrite A. exact (IH B). }
    rewrite filter_app, F. cbn [lit list_ascii_of_string app]. cbn. rewrite C. reflexivity. }
  change (starred (lit "name=" ++ v)) with false in H. cbn iota in H. rewrite PP in H. cbn [bindr] in H.
  change (streqb (lit "name") (lit "name")) with true in H. cbn iota in H.
  assert (KEEP : forall toks n dd res, ic_loop toks (Some n) dd = Ok res -> fst res = Some n).
  { intros toks. induction toks as [|tok toks IH]; intros n dd res E; [cbn in E; injection E as <-; reflexivity|]. cbn [ic_loop] in E.
    destruct (starred tok); [injection E as <-; reflexivity|]. destruct (parse_param_value tok) as [[l x]|]; [|discriminate]. cbn [bindr] in E.
    destruct (streqb l (lit "name")); (destruct (val_units x) as [y|]; [cbn [bindr] in E; exact (IH _ _ _ E)|discriminate]). }
  destruct (ic_loop conds (Some (VNum d)) []) as [[n dd]|] eqn:L; [|discriminate]. apply KEEP in L. cbn in L. subst n. cbn in H. injection H as <-. reflexivity.
Qed.
Print Assumptions C103_refuted.
Example C103_example : parse_ic_directive [lit "name=1"; lit "v(1)=10u"] = Ok (VNum (1, 0)%Z, [(lit "v(1)", VNum (10, -6)%Z)]) /\
  parse_ic_directive [lit "name=x"; lit "v(1)=10u"] = Ok (VStr (lit "x"), [(lit "v(1)", VNum (10, -6)%Z)]).
Proof. vm_compute. split; reflexivity. Qed.
(** Other names are kept. *)
Theorem C103_name : forall v conds r, convert_units v = Err ValueError -> existsb is_eq v = false ->
  parse_ic_directive ((lit "name=" ++ v)%list :: conds) = Ok r -> fst r = VStr v.
Proof.
  intros v conds r C NE H. unfold parse_ic_directive in H. cbn [ic_loop] in H.
  assert (PP : parse_param_value (lit "name=" ++ v) = Ok (lit "name", VStr v)).
  { unfold parse_param_value, is_valid_value_param_string. assert (F : filter is_eq v = []).
    { clear - NE. induction v as [|c v IH]; [reflexivity|]. cbn in NE. apply orb_false_iff in NE. destruct NE as [A B]. cbn. rewrite A. exact (IH B). }
    rewrite filter_app, F. cbn [lit list_ascii_of_string app]. cbn. rewrite C. reflexivity. }
  change (starred (lit "name=" ++ v)) with false in H. cbn iota in H. rewrite PP in H. cbn [bindr] in H.
  change (streqb (lit "name") (lit "name")) with true in H. cbn iota in H.
  assert (KEEP : forall toks n dd res, ic_loop toks (Some n) dd = Ok res -> fst res = Some n).
  { intros toks. induction toks as [|tok toks IH]; intros n dd res E; [cbn in E; injection E as <-; reflexivity|]. cbn [ic_loop] in E.
    destruct (starred tok); [injection E as <-; reflexivity|]. destruct (parse_param_value tok) as [[l x]|]; [|discriminate]. cbn [bindr] in E.
    destruct (streqb l (lit "name")); (destruct (val_units x) as [y|]; [cbn [bindr] in E; exact (IH _ _ _ E)|discriminate]). }
  destruct (ic_loop conds (Some (VStr v)) []) as [[n dd]|] eqn:L; [|discriminate]. apply KEEP in L. cbn in L. subst n. cbn in H. injection H as <-. reflexivity.
Qed.
Print Assumptions C103_name.

(** * C81: sources with optional parameters left out *)
Local Open Scope R_scope.
Definition dec_val (d : dec) : R := IZR (fst d) * powerRZ 10 (snd d).
Definition num_or_none (v : option val) : option (option R) :=
  match v with Some VNone => Some None | Some (VNum d) => Some (Some (dec_val d)) | _ => None end.

(** The delay of an AM source is optional, but without it the source cannot be
    evaluated at any time. *)
Theorem C81_am_refuted : forall toks an, parse_params am_table [] toks = Ok an ->
  (forall i tok t, nth_error (live toks) i = Some tok -> about am_table i tok t -> s_dest t <> lit "td") ->
  num_or_none (dget streqb an (lit "td")) = Some None /\ forall sa fc fm oc time, am_call sa fc fm oc None time = Err TypeError.
Proof.
  intros toks an P N. split; [|reflexivity].
  destruct (C45_values am_table [] toks an (C45_tables (lit "am") _ ltac:(right; left; cbn; auto 10)) P) as (_ & D & _).
  destruct (D (fl "td" 4 false VNone)) as [_ G]; [cbn; auto 10|intros i tok K A; exact (N i tok _ K A eq_refl)|].
  change (s_dest (fl "td" 4 false VNone)) with (lit "td") in G. rewrite G. reflexivity.
Qed.
Print Assumptions C81_am_refuted.
Example C81_am_example : exists an, parse_params am_table [] [lit "sa=1"; lit "oc=1"; lit "fm=1k"; lit "fc=10k"] = Ok an /\ dget streqb an (lit "td") = Some VNone.
Proof. vm_compute. eexists. split; reflexivity. Qed.

(** The same for the carrier frequency of an SFFM source, after its delay. *)
Theorem C81_sffm_refuted : forall toks an, parse_params sffm_table [] toks = Ok an ->
  (forall i tok t, nth_error (live toks) i = Some tok -> about sffm_table i tok t -> s_dest t <> lit "fc") ->
  num_or_none (dget streqb an (lit "fc")) = Some None /\
  forall vo va mdi fs td time, td < time -> sffm_call vo va None mdi fs td time = Err TypeError.
Proof.
  intros toks an P N. split.
  - destruct (C45_values sffm_table [] toks an (C45_tables (lit "sffm") _ ltac:(right; left; cbn; auto 10)) P) as (_ & D & _).
    destruct (D (fl "fc" 2 false VNone)) as [_ G]; [cbn; auto 10|intros i tok K A; exact (N i tok _ K A eq_refl)|].
    change (s_dest (fl "fc" 2 false VNone)) with (lit "fc") in G. rewrite G. reflexivity.
  - intros vo va mdi fs td time H. unfold sffm_call. apply NewtonFacts.Rlt_b_true in H. rewrite H. reflexivity.
Qed.
Print Assumptions C81_sffm_refuted.
Example C81_sffm_example : exists an, parse_params sffm_table [] [lit "vo=1"; lit "va=1"; lit "mdi=1"; lit "fs=10k"] = Ok an /\ dget streqb an (lit "fc") = Some VNone.
Proof. vm_compute. eexists. split; reflexivity. Qed.

(** The optional parameters of the other functions have numbers (or infinity) as
    defaults. *)
Theorem C81_others : forall ty tbl t, In (ty, tbl) time_fun_specs -> In t tbl -> s_needed t = false ->
  ty = lit "am" \/ (ty = lit "sffm" /\ s_dest t = lit "fc") \/ s_default t = VInf \/ exists d, s_default t = VNum d.
Proof.
  intros ty tbl t H T N. cbn in H. repeat destruct H as [H|H]; try contradiction; injection H as <- <-; cbn in T;
    repeat destruct T as [T|T]; try contradiction; subst t; cbn in N; try discriminate; cbn; auto; try (right; right; right; eexists; reflexivity).
Qed.
Print Assumptions C81_others.
