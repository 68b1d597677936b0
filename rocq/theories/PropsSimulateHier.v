(** The laws of a netlist with subcircuits, one by one and from the text to the results (C210, C211). *)
From Coq Require Import Ascii String Reals List Bool Arith ZArith Lia Lra.
From Verif Require Import Base BaseFacts Str Units Directive Lines Reader Netlist ModelLines Nodes NodesFacts Circuit CircuitFacts Rsum Mna MnaSpec DcSolve Newton
  NewtonFacts DynFacts Csv Results PropsReader PropsNetlist PropsResults PropsMna PropsDc Session Subckt PropsSubckt Simulate PropsSimulate SimulateSub PropsSimulateSub.
Import ListNotations.
Open Scope R_scope.

(** * What it says about voltages and currents *)
Section HierLaws.
  (** What is known of a node and of an element; the current through an element from its
      first to its second end (real and imaginary parts, say); the law of an element; when
      the currents of a node balance. *)
  Context {X Y K : Type}.
  Variable thr : (str -> X) -> (str -> Y) -> K -> pelem -> R.
  Variable ends : pelem -> str * str.
  Variable lawE : (str -> X) -> (str -> Y) -> pelem -> Prop.
  Variable bal : K -> X -> R -> Prop.
  (** By full names. *)
  Variables (V : str -> X) (I : str -> Y).

  Definition hleave (v : str -> X) (i : str -> Y) (k : K) (n : str) (e : pelem) : R :=
    (if streqb n (fst (ends e)) then thr v i k e else 0) - (if streqb n (snd (ends e)) then thr v i k e else 0).

  (** The nodes of a place that some element reaches. *)
  Fixpoint used (h : hier) : list str :=
    match h with
    | HNil => []
    | HElem e r => nodes_in e ++ used r
    | HInst _ _ c b r => map snd (filter (fun x => mem (fst x) (used b)) c) ++ used r
    end.

  (** The elements of a place obey their laws, with voltages and currents named as they are
      there, and so do those of the instances, where: the ports have the voltages of the
      nodes, the other nodes their own, and the currents of these balance.  [out k n] is what
      leaves the node [n] through all of them; an instance draws at a node what leaves its
      ports. *)
  Inductive hlaws : path -> (str -> X) -> (str -> Y) -> hier -> (K -> str -> R) -> Prop :=
  | hl_nil : forall p v i out, (forall k n, out k n = 0) -> hlaws p v i HNil out
  | hl_elem : forall p v i e r out out', lawE v i e -> hlaws p v i r out' ->
      (forall k n, out k n = hleave v i k n e + out' k n) -> hlaws p v i (HElem e r) out
  | hl_inst : forall p v i l s c b r out v' i' inside out',
      (forall port n, In (port, n) c -> v' port = v n) -> v' (lit "0") = v (lit "0") ->
      (forall n, n <> lit "0" -> ~ In n (map fst c) -> v' n = V (node_name (p ++ [(l, s)], n))) ->
      (forall id, i' id = I (elem_name (p ++ [(l, s)]) id)) ->
      hlaws (p ++ [(l, s)]) v' i' b inside ->
      (forall n k, In n (used b) -> n <> lit "0" -> ~ In n (map fst c) -> bal k (v' n) (inside k n)) ->
      hlaws p v i r out' ->
      (forall k n, out k n = lsum (fun x => if streqb n (snd x) then inside k (fst x) else 0) ((lit "0", lit "0") :: c) + out' k n) ->
      hlaws p v i (HInst l s c b r) out.

  (** The whole netlist. *)
  Definition hier_laws (h : hier) : Prop :=
    exists out, hlaws [] V I h out /\ forall n k, In n (used h) -> n <> lit "0" -> bal k (V n) (out k n).
End HierLaws.

(** In each place the instances are distinct. *)
Fixpoint insts (h : hier) : list (str * str) := match h with HNil => [] | HElem _ r => insts r | HInst l s _ _ r => (l, s) :: insts r end.
Fixpoint distinct_insts (h : hier) : Prop :=
  match h with HNil => True | HElem _ r => distinct_insts r | HInst l s _ b r => ~ In (l, s) (insts r) /\ distinct_insts b /\ distinct_insts r end.
(** No F, H and K lines in subcircuits (C29). *)
Definition ref_free (e : pelem) : Prop := match e with PF _ _ _ _ _ | PH _ _ _ _ _ | PK _ _ _ _ _ _ => False | _ => True end.
Fixpoint refs_free (h : hier) : Prop := match h with HNil => True | HElem e r => ref_free e /\ refs_free r | HInst _ _ _ b r => refs_free b /\ refs_free r end.
Fixpoint refs_outside (h : hier) : Prop := match h with HNil => True | HElem _ r => refs_outside r | HInst _ _ _ b r => refs_free b /\ refs_outside r end.

(** * Lemmas *)
Definition seqb_spec := PropsSubckt.streqb_spec.
Lemma seqb_refl : forall s, streqb s s = true.
Proof. intros s. destruct (seqb_spec s s); congruence. Qed.
Lemma seqb_ne : forall a b, a <> b -> streqb a b = false.
Proof. intros a b H. destruct (seqb_spec a b); congruence. Qed.

(** Sums. *)
Lemma lsum_swap : forall A B (f : A -> B -> R) l m, lsum (fun a => lsum (f a) m) l = lsum (fun b => lsum (fun a => f a b) l) m.
Proof.
  intros A B f l m. induction l as [|a l IH]; cbn [lsum]; [symmetry; apply lsum_0; reflexivity|]. rewrite IH, <- lsum_plus. apply lsum_ext. reflexivity.
Qed.
Lemma lsum_map : forall A B (g : A -> B) (f : B -> R) l, lsum f (map g l) = lsum (fun a => f (g a)) l.
Proof. intros A B g f l. induction l as [|a l IH]; cbn [lsum map]; [reflexivity|rewrite IH; reflexivity]. Qed.
Lemma lsum_pick : forall (f : str -> R) a l, NoDup l -> In a l -> lsum (fun n => if streqb n a then f n else 0) l = f a.
Proof.
  intros f a l. induction l as [|n l IH]; intros ND IN; [destruct IN|]. inversion ND as [|? ? NI ND']; subst. cbn [lsum]. destruct (seqb_spec n a) as [->|NE].
  - rewrite lsum_0; [ring|]. intros b B. rewrite seqb_ne; [reflexivity|]. intros ->. contradiction.
  - rewrite IH; [ring|exact ND'|]. destruct IN as [E|IN]; [contradiction|exact IN].
Qed.

Lemma NoDup_both : forall (l m : list str), NoDup l -> NoDup m -> (forall x, In x l -> ~ In x m) -> NoDup (l ++ m).
Proof.
  induction l as [|a l IH]; intros m L M D; cbn [app]; [exact M|]. inversion L as [|? ? N1 N2]; subst. constructor.
  - intros Q. apply in_app_iff in Q. destruct Q as [Q|Q]; [exact (N1 Q)|]. exact (D a (or_introl eq_refl) Q).
  - apply IH; [exact N2|exact M|]. intros x Q. apply D. right. exact Q.
Qed.

(** Places. *)
Fixpoint names (h : hier) : list str :=
  match h with HNil => [] | HElem e r => nodes_in e ++ names r | HInst _ _ c _ r => map snd c ++ names r end.
Definition wfn (M : hnode) : Prop := plain_path (fst M) /\ plain (snd M).
Lemma wfn_inj : forall M M', wfn M -> wfn M' -> node_name M = node_name M' -> M = M'.
Proof.
  intros [p n] [q m] [P N] [Q M] E. cbn [fst snd] in *. destruct (C28_names_injective_guarded p q n m P Q N M) as [H _]. destruct (H E) as [-> ->]. reflexivity.
Qed.
(** The nodes of a place are nodes of the places around it, or its own. *)
Definition upper (p : path) (M : hnode) : Prop := exists q, p = fst M ++ q.
Definition below (p : path) (M : hnode) (x : str * str) : Prop := exists q, fst M = p ++ x :: q.
Lemma upper_below : forall p M x, upper p M -> below p M x -> False.
Proof. intros p M x [q E] [q' F]. apply (f_equal (@List.length (str * str))) in E. apply (f_equal (@List.length (str * str))) in F. rewrite app_length in E, F. cbn [List.length] in F. lia. Qed.
Lemma below_below : forall p M x y, below p M x -> below p M y -> x = y.
Proof. intros p M x y [q E] [q' F]. rewrite E in F. apply app_inv_head in F. congruence. Qed.
Lemma below_snoc : forall p M x y, below (p ++ [x]) M y -> below p M x.
Proof. intros p M x y [q E]. exists (y :: q). rewrite E, <- app_assoc. reflexivity. Qed.
Definition around (p : path) (env : str -> hnode) : Prop :=
  plain_path p /\ env (lit "0") = ([], lit "0") /\ forall n, plain n -> wfn (env n) /\ upper p (env n).
Lemma around_top : around [] top.
Proof. split; [constructor|]. split; [reflexivity|]. intros n N. split; [split; [constructor|exact N]|exists []; reflexivity]. Qed.
Lemma plain_0 : plain (lit "0").
Proof. intros [H|[]]. discriminate H. Qed.
Lemma dget_none : forall (c : list (str * str)) n, ~ In n (map fst c) -> dget streqb c n = None.
Proof. intros c n H. apply (dget_None_notin streqb seqb_spec). exact H. Qed.

Lemma around_inner : forall p env l s c, around p env -> plain l -> plain s -> Forall (fun x => plain (fst x) /\ plain (snd x) /\ fst x <> lit "0") c ->
  around (p ++ [(l, s)]) (inner p env l s c).
Proof.
  intros p env l s c (A1 & A2 & A3) L S' C.
  assert (P' : plain_path (p ++ [(l, s)])) by (apply Forall_app; split; [exact A1|repeat constructor; cbn; assumption]).
  assert (UP : forall M, upper p M -> upper (p ++ [(l, s)]) M) by (intros M [q E]; exists (q ++ [(l, s)]); rewrite E, app_assoc; reflexivity).
  split; [exact P'|]. rewrite Forall_forall in C. split.
  - unfold inner. rewrite dget_none; [rewrite seqb_refl; exact A2|]. intros H. apply in_map_iff in H. destruct H as (x & E & X). destruct (C x X) as (_ & _ & N). exact (N E).
  - intros n N. unfold inner. destruct (dget streqb c n) as [m|] eqn:D.
    + apply (dget_In streqb seqb_spec) in D. destruct (C _ D) as (_ & M & _). cbn [snd] in M. destruct (A3 m M) as [W U]. split; [exact W|apply UP, U].
    + destruct (seqb_spec n (lit "0")) as [->|NE].
      * destruct (A3 _ plain_0) as [W U]. split; [exact W|apply UP, U].
      * split; [split; [exact P'|exact N]|exists []; rewrite app_nil_r; reflexivity].
Qed.
Lemma inner_port : forall p env l s c x, Forall (fun x => plain (fst x) /\ plain (snd x) /\ fst x <> lit "0") c -> NoDup (map fst c) -> In x ((lit "0", lit "0") :: c) ->
  inner p env l s c (fst x) = env (snd x).
Proof.
  intros p env l s c x C ND [<-|X].
  - cbn [fst snd]. unfold inner. rewrite dget_none; [rewrite seqb_refl; reflexivity|]. intros H. apply in_map_iff in H. destruct H as (x & E & X). rewrite Forall_forall in C. destruct (C x X) as (_ & _ & N). exact (N E).
  - unfold inner. destruct x as [a b]. cbn [fst snd]. rewrite (In_dget streqb seqb_spec c a b ND X). reflexivity.
Qed.
Lemma inner_own : forall p env l s c n, ~ In n (lit "0" :: map fst c) -> inner p env l s c n = (p ++ [(l, s)], n).
Proof. intros p env l s c n H. unfold inner. rewrite dget_none, seqb_ne; [reflexivity| |]; intros Q; apply H; [left; congruence|right; exact Q]. Qed.
Lemma names_plain : forall h, plain_names h -> Forall plain (names h).
Proof.
  induction h as [|e r IH|l s c b IHb r IHr]; cbn [names plain_names]; intros P; [constructor| |].
  - apply Forall_app. split; [apply P|apply IH, P].
  - apply Forall_app. split; [|apply IHr, P]. destruct P as (_ & _ & P & _). apply Forall_map. eapply Forall_impl; [|exact P]. intros x X. apply X.
Qed.

Section Gen.
  Context {X Y K : Type}.
  Variable thr : (str -> X) -> (str -> Y) -> K -> pelem -> R.
  Variable ends : pelem -> str * str.
  Variable lawE : (str -> X) -> (str -> Y) -> pelem -> Prop.
  Variable bal : K -> X -> R -> Prop.
  Variables (V : str -> X) (I : str -> Y).
  Hypothesis ends_in : forall e, (In (fst (ends e)) (nodes_in e) /\ In (snd (ends e)) (nodes_in e)) \/ ends e = (lit "0", lit "0").
  Hypothesis ends_ren : forall f g e, ends (ren f g e) = (f (fst (ends e)), f (snd (ends e))) \/ (ends e = (lit "0", lit "0") /\ ends (ren f g e) = (lit "0", lit "0")).
  Hypothesis thr_ren : forall f g v i v' i' k e, ref_free e -> (forall n, v' n = v (f n)) -> (forall id, i' id = i (g id)) -> thr v i k (ren f g e) = thr v' i' k e.
  Hypothesis law_ren : forall f g v i v' i' e, ref_free e -> (forall n, v' n = v (f n)) -> (forall id, i' id = i (g id)) -> lawE v i (ren f g e) <-> lawE v' i' e.

  Definition vw (env : str -> hnode) (n : str) : X := V (node_name (env n)).
  Definition iw (p : path) (id : str) : Y := I (elem_name p id).
  (** How an element of a place is seen in the place. *)
  Definition seen (p : path) (env : str -> hnode) (i : str -> Y) (e : pelem) : Prop :=
    let e' := ren (fun n => node_name (env n)) (elem_name p) e in
    (forall k, thr V I k e' = thr (vw env) i k e) /\ (lawE V I e' <-> lawE (vw env) i e).
  Fixpoint seen_all (p : path) (env : str -> hnode) (i : str -> Y) (h : hier) : Prop :=
    match h with HNil => True | HElem e r => seen p env i e /\ seen_all p env i r | HInst _ _ _ b r => refs_free b /\ seen_all p env i r end.
  Lemma seen_free : forall h p env, refs_free h -> seen_all p env (iw p) h.
  Proof.
    induction h as [|e r IH|l s c b IHb r IHr]; intros p env F; cbn [seen_all refs_free] in *; [exact Logic.I| |split; [apply F|apply IHr, F]].
    split; [|apply IH, F]. split; [intros k; apply thr_ren|apply law_ren]; try apply F; reflexivity.
  Qed.
  Lemma seen_top : forall h, plain_names h -> refs_outside h -> seen_all [] top I h.
  Proof.
    induction h as [|e r IH|l s c b IHb r IHr]; intros P F; cbn [seen_all plain_names refs_outside] in *; [exact Logic.I| |split; [apply F|apply IHr; [apply P|apply F]]].
    split; [|apply IH; [apply P|apply F]]. unfold seen. cbv zeta.
    assert (E : ren (fun n => node_name (top n)) (elem_name []) e = e).
    { rewrite <- (ren_id e) at 2. apply ren_ext; [reflexivity|]. destruct (pid e); reflexivity. }
    rewrite E. split; reflexivity.
  Qed.

  Notation leave := (hleave thr ends).
  Definition fsum (p : path) (env : str -> hnode) (h : hier) (k : K) (m : str) : R := lsum (leave V I k m) (flatten p env h).
  Fixpoint hout (p : path) (env : str -> hnode) (i : str -> Y) (h : hier) (k : K) (n : str) : R :=
    match h with
    | HNil => 0
    | HElem e r => leave (vw env) i k n e + hout p env i r k n
    | HInst l s c b r =>
        lsum (fun x => if streqb n (snd x) then hout (p ++ [(l, s)]) (inner p env l s c) (iw (p ++ [(l, s)])) b k (fst x) else 0) ((lit "0", lit "0") :: c) +
        hout p env i r k n
    end.

  (** What leaves a node that is not below the place. *)
  Lemma leave_ren : forall p env i e k m, seen p env i e -> around p env ->
    leave V I k m (ren (fun n => node_name (env n)) (elem_name p) e) =
    (if streqb m (node_name (env (fst (ends e)))) then thr (vw env) i k e else 0) - (if streqb m (node_name (env (snd (ends e)))) then thr (vw env) i k e else 0).
  Proof.
    intros p env i e k m [S1 _] (_ & A & _). unfold hleave. rewrite S1. destruct (ends_ren (fun n => node_name (env n)) (elem_name p) e) as [E|[E1 E2]].
    - rewrite E. reflexivity.
    - rewrite E1, E2. cbn [fst snd]. rewrite A. change (node_name ([], lit "0")) with (lit "0"). destruct (streqb m (lit "0")); ring.
  Qed.
  Lemma leave_sum : forall p env i e k m N, seen p env i e -> around p env -> NoDup N -> In (lit "0") N -> incl (nodes_in e) N ->
    leave V I k m (ren (fun n => node_name (env n)) (elem_name p) e) =
    lsum (fun n => if streqb m (node_name (env n)) then leave (vw env) i k n e else 0) N.
  Proof.
    intros p env i e k m N SN AR ND Z IN. rewrite (leave_ren p env i e k m SN AR).
    assert (E : In (fst (ends e)) N /\ In (snd (ends e)) N).
    { destruct (ends_in e) as [[E1 E2]|E]; [split; apply IN; assumption|rewrite E; split; exact Z]. }
    destruct E as [E1 E2]. set (T := thr (vw env) i k e) in *.
    rewrite (lsum_ext _ _ (fun n => (if streqb n (fst (ends e)) then (if streqb m (node_name (env n)) then T else 0) else 0) + - (if streqb n (snd (ends e)) then (if streqb m (node_name (env n)) then T else 0) else 0))).
    - rewrite lsum_plus, lsum_opp. rewrite !lsum_pick by assumption. ring.
    - intros n _. unfold hleave. fold T. destruct (streqb m (node_name (env n))), (streqb n (fst (ends e))), (streqb n (snd (ends e))); ring.
  Qed.
  Lemma flat_sum : forall h p env i, around p env -> plain_names h -> seen_all p env i h -> forall N, NoDup N -> In (lit "0") N -> incl (names h) N ->
    forall M k, wfn M -> (forall x, ~ below p M x) ->
    fsum p env h k (node_name M) = lsum (fun n => if streqb (node_name M) (node_name (env n)) then hout p env i h k n else 0) N.
  Proof.
    induction h as [|e r IH|l s c b IHb r IHr]; intros p env i AR PN SN N ND Z IN M k WM NB; unfold fsum; cbn [flatten hout].
    - cbn [lsum]. symmetry. apply lsum_0. intros n _. destruct (streqb (node_name M) (node_name (env n))); reflexivity.
    - cbn [lsum]. cbn [seen_all plain_names names] in *. destruct SN as [S1 S2].
      rewrite (leave_sum p env i e k _ N S1 AR ND Z) by (intros x Q; apply IN, in_app_iff; auto).
      change (lsum (leave V I k (node_name M)) (flatten p env r)) with (fsum p env r k (node_name M)).
      rewrite (IH p env i AR (proj2 (proj2 PN)) S2 N ND Z (fun x Q => IN x (proj2 (in_app_iff _ _ _) (or_intror Q))) M k WM NB). rewrite <- lsum_plus.
      apply lsum_ext. intros n _. destruct (streqb (node_name M) (node_name (env n))); ring.
    - cbn [seen_all plain_names names] in *. destruct SN as [S1 S2]. destruct PN as (PL & PS & PC & NC & PB & PR').
      rewrite lsum_app. set (p' := p ++ [(l, s)]) in *. set (env' := inner p env l s c) in *.
      change (lsum (leave V I k (node_name M)) (flatten p' env' b)) with (fsum p' env' b k (node_name M)).
      change (lsum (leave V I k (node_name M)) (flatten p env r)) with (fsum p env r k (node_name M)).
      rewrite (IHr p env i AR PR' S2 N ND Z (fun x Q => IN x (proj2 (in_app_iff _ _ _) (or_intror Q))) M k WM NB).
      pose proof (around_inner p env l s c AR PL PS PC) as AR'. fold p' env' in AR'.
      set (ho := hout p' env' (iw p') b k) in *.
      set (ports := lit "0" :: map fst c).
      assert (NP : NoDup ports).
      { constructor; [|exact NC]. intros Q. apply in_map_iff in Q. destruct Q as (x & E & Q). rewrite Forall_forall in PC. destruct (PC x Q) as (_ & _ & W). exact (W E). }
      set (others := filter (fun n => negb (mem n ports)) (nodup (list_eq_dec ascii_dec) (names b))).
      assert (OT : forall n, In n others <-> In n (names b) /\ ~ In n ports).
      { intros n. unfold others. rewrite filter_In, nodup_In. rewrite <- (mem_In n ports). destruct (mem n ports); cbn; intuition congruence. }
      assert (NO : NoDup others) by (apply NoDup_filter, NoDup_nodup).
      assert (NN : NoDup (ports ++ others)) by (apply NoDup_both; [exact NP|exact NO|]; intros x Q Q'; apply OT in Q'; exact (proj2 Q' Q)).
      assert (IE : forall x, In x ((lit "0", lit "0") :: c) -> env' (fst x) = env (snd x)) by (intros x Q; apply inner_port; assumption).
      rewrite (IHb p' env' (iw p') AR' PB (seen_free b p' env' S1) (ports ++ others) NN) with (M := M) (k := k); try exact WM.
      + fold ho. rewrite lsum_app. rewrite (lsum_0 _ _ others).
        * replace ports with (map fst ((lit "0", lit "0") :: c)) by reflexivity. rewrite lsum_map.
          set (cc := (lit "0", lit "0") :: c) in *.
          symmetry. rewrite (lsum_ext _ _
            (fun n => lsum (fun x => if streqb n (snd x) then if streqb (node_name M) (node_name (env n)) then ho (fst x) else 0 else 0) cc + (if streqb (node_name M) (node_name (env n)) then hout p env i r k n else 0))).
          -- rewrite lsum_plus, lsum_swap. rewrite Rplus_0_r. f_equal. apply lsum_ext. intros x Q. cbv beta. rewrite (IE x Q).
             rewrite (lsum_pick (fun n => if streqb (node_name M) (node_name (env n)) then ho (fst x) else 0)); [reflexivity|exact ND|].
             destruct Q as [<-|Q]; [exact Z|]. apply IN, in_app_iff. left. apply in_map. exact Q.
          -- intros n _. destruct (streqb (node_name M) (node_name (env n))); [reflexivity|]. rewrite lsum_0; [ring|]. intros x _. destruct (streqb n (snd x)); reflexivity.
        * intros n Q. apply OT in Q. destruct Q as [Q1 Q2].
          assert (E : env' n = (p', n)) by (apply inner_own; exact Q2).
          rewrite E, seqb_ne; [reflexivity|]. intros W. apply (NB (l, s)). exists []. apply wfn_inj in W; [|exact WM|split; [apply AR'|]].
          -- rewrite W. reflexivity.
          -- pose proof (names_plain b PB) as PP. rewrite Forall_forall in PP. apply PP, Q1.
      + left. reflexivity.
      + intros n Q. apply in_app_iff. destruct (in_dec (list_eq_dec ascii_dec) n ports) as [W|W]; [auto|]. right. apply OT. auto.
      + intros x Q. apply (NB (l, s)). apply below_snoc with (y := x). exact Q.
  Qed.

  (** The nodes of a place and of the places below. *)
  Lemma flat_nodes : forall h p env, around p env -> plain_names h -> forall e n, In e (flatten p env h) -> In n (fst (ends e) :: snd (ends e) :: nodes_in e) ->
    exists M, n = node_name M /\ wfn M /\ (upper p M \/ exists x, In x (insts h) /\ below p M x).
  Proof.
    induction h as [|e0 r IH|l s c b IHb r IHr]; intros p env AR PN e n E H; cbn [flatten plain_names insts] in *.
    - destruct E.
    - destruct E as [<-|E].
      + assert (Q : exists a, plain a /\ n = node_name (env a)).
        { assert (NI : forall a, In a (nodes_in e0) -> plain a) by (destruct PN as (_ & PN & _); rewrite Forall_forall in PN; exact PN).
          assert (G : n = lit "0" -> exists a, plain a /\ n = node_name (env a)).
          { intros ->. exists (lit "0"). split; [exact plain_0|]. destruct AR as (_ & A & _). rewrite A. reflexivity. }
          assert (PE : plain (fst (ends e0)) /\ plain (snd (ends e0))) by (destruct (ends_in e0) as [[E1 E2]|E]; [auto|rewrite E; split; exact plain_0]).
          destruct H as [H|[H|H]].
          - destruct (ends_ren (fun n => node_name (env n)) (elem_name p) e0) as [E|[_ E]]; rewrite E in H; cbn [fst] in H; [|apply G; symmetry; exact H]. exists (fst (ends e0)). split; [apply PE|symmetry; exact H].
          - destruct (ends_ren (fun n => node_name (env n)) (elem_name p) e0) as [E|[_ E]]; rewrite E in H; cbn [snd] in H; [|apply G; symmetry; exact H]. exists (snd (ends e0)). split; [apply PE|symmetry; exact H].
          - rewrite ren_nodes in H. apply in_map_iff in H. destruct H as (a & <- & A). exists a. split; [apply NI, A|reflexivity]. }
        destruct Q as (a & PA & ->). destruct AR as (_ & _ & A3). destruct (A3 a PA) as [W U]. exists (env a). auto.
      + apply (IH p env AR (proj2 (proj2 PN)) e n E H).
    - destruct PN as (PL & PS & PC & NC & PB & PR'). apply in_app_iff in E. destruct E as [E|E].
      + destruct (IHb _ _ (around_inner p env l s c AR PL PS PC) PB e n E H) as (M & -> & W & [U|(x & _ & B)]); exists M; (split; [reflexivity|split; [exact W|]]).
        * destruct U as [q U]. destruct q as [|y q] using rev_ind; [|clear IHq].
          -- rewrite app_nil_r in U. right. exists (l, s). split; [left; reflexivity|]. exists []. symmetry. exact U.
          -- rewrite app_assoc in U. apply app_inj_tail in U. destruct U as [U _]. left. exists q. exact U.
        * right. exists (l, s). split; [left; reflexivity|]. exact (below_snoc _ _ _ _ B).
      + destruct (IHr p env AR PR' e n E H) as (M & -> & W & [U|(x & I' & B)]); exists M; (split; [reflexivity|split; [exact W|]]); [left; exact U|right; exists x; split; [right; exact I'|exact B]].
  Qed.
  Lemma flat_far : forall h p env, around p env -> plain_names h -> forall M k, wfn M -> ~ upper p M -> (forall x, In x (insts h) -> ~ below p M x) -> fsum p env h k (node_name M) = 0.
  Proof.
    intros h p env AR PN M k W U B. unfold fsum. apply lsum_0. intros e E.
    assert (F : forall n, In n (fst (ends e) :: snd (ends e) :: nodes_in e) -> node_name M <> n).
    { intros n H Q. destruct (flat_nodes h p env AR PN e n E H) as (M' & -> & W' & [U'|(x & I' & B')]); apply wfn_inj in Q; try assumption; subst M'; [exact (U U')|exact (B x I' B')]. }
    unfold hleave. rewrite !seqb_ne; [ring| |]; apply F; [right; left|left]; reflexivity.
  Qed.
  Lemma used_names : forall h n, In n (used h) -> In n (names h).
  Proof.
    induction h as [|e r IH|l s c b IHb r IHr]; intros n H; cbn [used names] in *; [exact H| |]; apply in_app_iff in H; apply in_app_iff; destruct H as [H|H]; auto.
    left. apply in_map_iff in H. destruct H as (x & <- & H). apply filter_In in H. apply in_map, H.
  Qed.
  Lemma used_flat : forall h p env n, plain_names h -> In n (used h) -> In (node_name (env n)) (node_list (flatten p env h)).
  Proof.
    induction h as [|e r IH|l s c b IHb r IHr]; intros p env n PN H; cbn [used flatten plain_names] in *; [destruct H| |].
    - unfold node_list. cbn [flat_map]. rewrite ren_nodes. apply in_app_iff in H. apply in_app_iff. destruct H as [H|H]; [left; apply in_map_iff; exists n; auto|right; apply IH; [apply PN|exact H]].
    - unfold node_list. rewrite flat_map_app. apply in_app_iff in H. apply in_app_iff. destruct H as [H|H]; [left|right; apply IHr; [apply PN|exact H]].
      apply in_map_iff in H. destruct H as (x & <- & H). apply filter_In in H. destruct H as [H1 H2]. apply mem_In in H2. destruct PN as (_ & _ & PC & NC & PB & _).
      rewrite <- (inner_port p env l s c x PC NC (or_intror H1)). apply IHb; assumption.
  Qed.

  Lemma hier_main : forall h p env i, around p env -> plain_names h -> distinct_insts h -> seen_all p env i h ->
    Forall (lawE V I) (flatten p env h) ->
    (forall M x k, wfn M -> In x (insts h) -> below p M x -> In (node_name M) (node_list (flatten p env h)) -> bal k (V (node_name M)) (fsum p env h k (node_name M))) ->
    hlaws thr ends lawE bal V I p (vw env) i h (hout p env i h).
  Proof.
    induction h as [|e r IH|l s c b IHb r IHr]; intros p env i AR PN DI SN LW BL; cbn [flatten plain_names distinct_insts seen_all insts] in *.
    - apply hl_nil. reflexivity.
    - apply hl_elem with (out' := hout p env i r); [|apply IH|reflexivity].
      + apply SN, (Forall_inv LW).
      + exact AR.
      + apply PN.
      + exact DI.
      + apply SN.
      + exact (Forall_inv_tail LW).
      + intros M x k WM IX B IM. specialize (BL M x k WM IX B). unfold node_list in BL, IM. cbn [flat_map] in BL.
        specialize (BL (proj2 (in_app_iff _ _ _) (or_intror IM))). unfold fsum in BL. cbn [flatten lsum] in BL.
        assert (Z : leave V I k (node_name M) (ren (fun n => node_name (env n)) (elem_name p) e) = 0).
        { pose proof (flat_far (HElem e HNil) p env AR) as FF. unfold fsum in FF. cbn [flatten lsum plain_names insts] in FF. rewrite <- (Rplus_0_r (leave _ _ _ _ _)).
          apply FF; [repeat split; apply PN|exact WM| |intros y []]. intros U. exact (upper_below _ _ _ U B). }
        rewrite Z, Rplus_0_l in BL. exact BL.
    - destruct PN as (PL & PS & PC & NC & PB & PR'). destruct DI as (D1 & D2 & D3). destruct SN as [S1 S2]. apply Forall_app in LW. destruct LW as [L1 L2].
      pose proof (around_inner p env l s c AR PL PS PC) as AR'. set (p' := p ++ [(l, s)]) in *. set (env' := inner p env l s c) in *.
      assert (FS : forall k m, fsum p env (HInst l s c b r) k m = fsum p' env' b k m + fsum p env r k m) by (intros k m; unfold fsum; cbn [flatten]; rewrite lsum_app; reflexivity).
      assert (RZ : forall M k, wfn M -> below p M (l, s) -> fsum p env r k (node_name M) = 0).
      { intros M k WM B. apply flat_far; try assumption; [intros U; exact (upper_below _ _ _ U B)|]. intros x X1 X2. apply D1. rewrite (below_below _ _ _ _ B X2). exact X1. }
      assert (BB : forall M k, wfn M -> below p M (l, s) -> In (node_name M) (node_list (flatten p' env' b)) -> bal k (V (node_name M)) (fsum p' env' b k (node_name M))).
      { intros M k WM B IM. specialize (BL M (l, s) k WM (or_introl eq_refl) B). rewrite FS, (RZ M k WM B), Rplus_0_r in BL. apply BL. unfold node_list. rewrite flat_map_app. apply in_app_iff. left. exact IM. }
      apply hl_inst with (v' := vw env') (i' := iw p') (inside := hout p' env' (iw p') b) (out' := hout p env i r); try reflexivity.
      + intros port n IX. unfold vw, env'. pose proof (inner_port p env l s c (port, n) PC NC (or_intror IX)) as Q. cbn [fst snd] in Q. rewrite Q. reflexivity.
      + unfold vw, env'. pose proof (inner_port p env l s c (lit "0", lit "0") PC NC (or_introl eq_refl)) as Q. cbn [fst snd] in Q. rewrite Q. reflexivity.
      + intros n N0 NP. unfold vw, env'. rewrite inner_own; [reflexivity|]. intros [Q|Q]; [exact (N0 (eq_sym Q))|exact (NP Q)].
      + apply IHb; try assumption; [apply seen_free, S1|]. intros M x k WM IX B IM. apply BB; [exact WM|exact (below_snoc _ _ _ _ B)|exact IM].
      + intros n k UN N0 NP. unfold vw.
        assert (NI : ~ In n (lit "0" :: map fst c)) by (intros [Q|Q]; [exact (N0 (eq_sym Q))|exact (NP Q)]).
        assert (E : env' n = (p', n)) by (apply inner_own; exact NI).
        assert (PN : plain n) by (pose proof (names_plain b PB) as Q; rewrite Forall_forall in Q; apply Q, used_names, UN).
        pose proof (BB (env' n) k (proj1 (proj2 (proj2 AR') n PN))) as Q. rewrite E in *. specialize (Q (ex_intro _ [] eq_refl)).
        rewrite <- E in Q at 1. specialize (Q (used_flat b p' env' n PB UN)).
        set (N := nodup (list_eq_dec ascii_dec) (lit "0" :: names b)).
        assert (NN : NoDup N) by apply NoDup_nodup.
        assert (IN : forall x, In x (lit "0" :: names b) -> In x N) by (intros x; apply nodup_In).
        rewrite (flat_sum b p' env' (iw p') AR' PB (seen_free b p' env' S1) N NN) in Q.
        * rewrite (lsum_ext _ _ (fun n' => if streqb n' n then hout p' env' (iw p') b k n' else 0)) in Q.
          -- rewrite (lsum_pick (hout p' env' (iw p') b k)) in Q; [exact Q|exact NN|]. apply IN. right. apply used_names, UN.
          -- intros n' IN'. unfold N in IN'. apply nodup_In in IN'.
             assert (PN' : plain n') by (destruct IN' as [<-|IN']; [exact plain_0|]; pose proof (names_plain b PB) as W; rewrite Forall_forall in W; apply W, IN').
             destruct (seqb_spec n' n) as [->|NE]; [rewrite E, seqb_refl; reflexivity|]. rewrite seqb_ne; [reflexivity|]. intros W.
             apply wfn_inj in W; [|split; [apply AR'|exact PN]|apply AR'; exact PN'].
             destruct (in_dec (list_eq_dec ascii_dec) n' (lit "0" :: map fst c)) as [IP|IP].
             ++ assert (UP : upper p (env' n')).
                { destruct IP as [<-|IP].
                  - pose proof (inner_port p env l s c (lit "0", lit "0") PC NC (or_introl eq_refl)) as Q'. cbn [fst snd] in Q'. unfold env'. rewrite Q'. apply AR. exact plain_0.
                  - apply in_map_iff in IP. destruct IP as (x & <- & IX). unfold env'. rewrite (inner_port p env l s c x PC NC (or_intror IX)). apply AR. rewrite Forall_forall in PC. apply (PC x IX). }
                rewrite <- W in UP. apply (upper_below _ _ (l, s) UP). exists []. reflexivity.
             ++ unfold env' in W. rewrite inner_own in W by exact IP. congruence.
        * apply IN. left. reflexivity.
        * intros x X'. apply IN. right. exact X'.
        * split; [apply AR'|exact PN].
        * intros x [q B]. cbn [fst] in B. apply (f_equal (@List.length (str * str))) in B. rewrite app_length in B. cbn [List.length] in B. lia.
      + apply IHr; try assumption. intros M x k WM IX B IM. specialize (BL M x k WM (or_intror IX) B). rewrite FS in BL.
        assert (Z : fsum p' env' b k (node_name M) = 0).
        { assert (NB : ~ below p M (l, s)) by (intros Q; apply D1; rewrite (below_below _ _ _ _ Q B); exact IX).
          apply flat_far; try assumption.
          - intros [q U]. destruct q as [|y q] using rev_ind; [|clear IHq].
            + rewrite app_nil_r in U. apply NB. exists []. symmetry. exact U.
            + unfold p' in U. rewrite app_assoc in U. apply app_inj_tail in U. destruct U as [U _]. apply (upper_below p M x); [exists q; exact U|exact B].
          - intros y _ Q. apply NB. exact (below_snoc _ _ _ _ Q). }
        rewrite Z, Rplus_0_l in BL. apply BL. unfold node_list. rewrite flat_map_app. apply in_app_iff. right. exact IM.
  Qed.
  Lemma hier_of_flat : forall h, plain_names h -> distinct_insts h -> refs_outside h -> Forall (lawE V I) (flatten [] top h) ->
    (forall m k, In m (node_list (flatten [] top h)) -> m <> lit "0" -> bal k (V m) (lsum (leave V I k m) (flatten [] top h))) ->
    hier_laws thr ends lawE bal V I h.
  Proof.
    intros h PN DI RO LW BL. exists (hout [] top I h). split.
    - change V with (vw top) at 2. apply hier_main; try assumption; [apply around_top|apply seen_top; assumption|].
      intros M x k WM IX B IM. apply BL; [exact IM|]. intros Q. change (lit "0") with (node_name ([], lit "0")) in Q. apply wfn_inj in Q; [|exact WM|split; [constructor|exact plain_0]].
      destruct B as [q B]. rewrite Q in B. discriminate B.
    - intros n k UN N0. set (N := nodup (list_eq_dec ascii_dec) (lit "0" :: names h)).
      assert (NN : NoDup N) by apply NoDup_nodup.
      assert (IN : forall x, In x (lit "0" :: names h) -> In x N) by (intros x; apply nodup_In).
      pose proof (used_flat h [] top n PN UN) as UF. change (node_name (top n)) with n in UF. pose proof (BL n k UF N0) as Q.
      pose proof (flat_sum h [] top I around_top PN (seen_top h PN RO) N NN (IN _ (or_introl eq_refl)) (fun x X' => IN x (or_intror X')) (top n) k) as F.
      change (node_name (top n)) with n in F. unfold fsum in F. rewrite F in Q.
      + rewrite (lsum_ext _ _ (fun n' => if streqb n' n then hout [] top I h k n' else 0)) in Q.
        * rewrite (lsum_pick (hout [] top I h k)) in Q; [exact Q|exact NN|]. apply IN. right. apply used_names, UN.
        * intros n' _. change (node_name (top n')) with n'. destruct (seqb_spec n n') as [->|NE]; [rewrite seqb_refl; reflexivity|]. rewrite seqb_ne by congruence. reflexivity.
      + split; [constructor|]. pose proof (names_plain h PN) as W. rewrite Forall_forall in W. apply W, used_names, UN.
      + intros x [q B]. discriminate B.
  Qed.

  (** ** The other way round *)
  Lemma flat_used : forall h p env, around p env -> plain_names h -> forall m, In m (node_list (flatten p env h)) ->
    exists M, m = node_name M /\ wfn M /\ ((exists a, In a (used h) /\ M = env a) \/ M = ([], lit "0") \/ exists x, In x (insts h) /\ below p M x).
  Proof.
    induction h as [|e r IH|l s c b IHb r IHr]; intros p env AR PN m H; cbn [flatten plain_names used insts] in *; [destruct H| |].
    - unfold node_list in H. cbn [flat_map] in H. rewrite ren_nodes in H. apply in_app_iff in H. destruct H as [H|H].
      + apply in_map_iff in H. destruct H as (a & <- & A). exists (env a). split; [reflexivity|]. split; [|left; exists a; split; [apply in_app_iff; left; exact A|reflexivity]].
        apply AR. destruct PN as (_ & PN & _). rewrite Forall_forall in PN. apply PN, A.
      + destruct (IH p env AR (proj2 (proj2 PN)) m H) as (M & -> & W & [(a & A & E)|[E|E]]); exists M; (split; [reflexivity|split; [exact W|]]); [|tauto|tauto].
        left. exists a. split; [apply in_app_iff; right; exact A|exact E].
    - destruct PN as (PL & PS & PC & NC & PB & PR'). unfold node_list in H. rewrite flat_map_app in H. apply in_app_iff in H. destruct H as [H|H].
      + destruct (IHb _ _ (around_inner p env l s c AR PL PS PC) PB m H) as (M & -> & W & [(a & A & E)|[E|(x & _ & B)]]); exists M; (split; [reflexivity|split; [exact W|]]).
        * destruct (in_dec (list_eq_dec ascii_dec) a (lit "0" :: map fst c)) as [[Q|Q]|Q].
          -- right. left. rewrite E, <- Q. apply (around_inner p env l s c AR PL PS PC).
          -- left. apply in_map_iff in Q. destruct Q as (x & <- & X'). exists (snd x). split.
             ++ apply in_app_iff. left. apply in_map. apply filter_In. split; [exact X'|]. apply mem_In. exact A.
             ++ rewrite E. apply inner_port; [exact PC|exact NC|right; exact X'].
          -- right. right. exists (l, s). split; [left; reflexivity|]. exists []. rewrite E, inner_own by exact Q. reflexivity.
        * tauto.
        * right. right. exists (l, s). split; [left; reflexivity|exact (below_snoc _ _ _ _ B)].
      + destruct (IHr p env AR PR' m H) as (M & -> & W & [(a & A & E)|[E|(x & X' & B)]]); exists M; (split; [reflexivity|split; [exact W|]]).
        * left. exists a. split; [apply in_app_iff; right; exact A|exact E].
        * tauto.
        * right. right. exists x. split; [right; exact X'|exact B].
  Qed.
  Lemma at_own : forall b p env i, around p env -> plain_names b -> seen_all p env i b -> forall n k, plain n -> (forall n', plain n' -> env n' = env n -> n' = n) ->
    In n (names b) -> (forall x, ~ below p (env n) x) -> fsum p env b k (node_name (env n)) = hout p env i b k n.
  Proof.
    intros b p env i AR PB SN n k PN INJ IB NB. set (N := nodup (list_eq_dec ascii_dec) (lit "0" :: names b)).
    assert (NN : NoDup N) by apply NoDup_nodup.
    assert (IN : forall x, In x (lit "0" :: names b) -> In x N) by (intros x; apply nodup_In).
    rewrite (flat_sum b p env i AR PB SN N NN).
    - rewrite (lsum_ext _ _ (fun n' => if streqb n' n then hout p env i b k n' else 0)).
      + apply lsum_pick; [exact NN|]. apply IN. right. exact IB.
      + intros n' IN'. unfold N in IN'. apply nodup_In in IN'.
        assert (PN' : plain n') by (destruct IN' as [<-|IN']; [exact plain_0|]; pose proof (names_plain b PB) as W; rewrite Forall_forall in W; apply W, IN').
        destruct (seqb_spec n' n) as [->|NE]; [rewrite seqb_refl; reflexivity|]. rewrite seqb_ne; [reflexivity|]. intros W.
        apply wfn_inj in W; [|apply AR; exact PN|apply AR; exact PN']. apply NE, INJ; [exact PN'|congruence].
    - apply IN. left. reflexivity.
    - intros x X'. apply IN. right. exact X'.
    - apply AR. exact PN.
    - exact NB.
  Qed.
  Lemma inner_inj : forall p env l s c n n', around p env -> Forall (fun x => plain (fst x) /\ plain (snd x) /\ fst x <> lit "0") c -> NoDup (map fst c) ->
    ~ In n (lit "0" :: map fst c) -> inner p env l s c n' = inner p env l s c n -> n' = n.
  Proof.
    intros p env l s c n n' AR PC NC N E. rewrite (inner_own p env l s c n N) in E.
    destruct (in_dec (list_eq_dec ascii_dec) n' (lit "0" :: map fst c)) as [IP|IP]; [|rewrite inner_own in E by exact IP; congruence].
    exfalso. assert (UP : upper p (p ++ [(l, s)], n)).
    { rewrite <- E. destruct IP as [<-|IP].
      - pose proof (inner_port p env l s c (lit "0", lit "0") PC NC (or_introl eq_refl)) as Q'. cbn [fst snd] in Q'. rewrite Q'. apply AR. exact plain_0.
      - apply in_map_iff in IP. destruct IP as (x & <- & IX). rewrite (inner_port p env l s c x PC NC (or_intror IX)). apply AR. rewrite Forall_forall in PC. apply (PC x IX). }
    apply (upper_below _ _ (l, s) UP). exists []. reflexivity.
  Qed.

  Fixpoint same (env : str -> hnode) (i0 : str -> Y) (v : str -> X) (i : str -> Y) (h : hier) : Prop :=
    match h with
    | HNil => True
    | HElem e r => ((forall k, thr v i k e = thr (vw env) i0 k e) /\ (lawE v i e <-> lawE (vw env) i0 e)) /\ same env i0 v i r
    | HInst _ _ _ _ r => same env i0 v i r
    end.
  Lemma same_refl : forall h env i, same env i (vw env) i h.
  Proof. induction h as [|e r IH|l s c b IHb r IHr]; intros env i; cbn [same]; [exact Logic.I| |apply IHr]. split; [split; reflexivity|apply IH]. Qed.
  Lemma same_free : forall h p env v i, refs_free h -> (forall n, v n = vw env n) -> (forall id, i id = iw p id) -> same env (iw p) v i h.
  Proof.
    induction h as [|e r IH|l s c b IHb r IHr]; intros p env v i F VV II; cbn [same refs_free] in *; [exact Logic.I| |apply IHr; try assumption; apply F].
    split; [|apply IH; try assumption; apply F]. set (f := fun n => node_name (env n)). split.
    - intros k. rewrite <- (thr_ren f (elem_name p) V I v i k e); [apply (thr_ren f (elem_name p) V I (vw env) (iw p) k e)|..]; try apply F; try reflexivity; assumption.
    - rewrite <- (law_ren f (elem_name p) V I v i e), <- (law_ren f (elem_name p) V I (vw env) (iw p) e); try apply F; try reflexivity; assumption.
  Qed.
  Lemma flat_main : forall h p env i0 v i out, around p env -> plain_names h -> distinct_insts h -> seen_all p env i0 h -> (forall n, v n = vw env n) -> same env i0 v i h ->
    hlaws thr ends lawE bal V I p v i h out ->
    Forall (lawE V I) (flatten p env h) /\ (forall k n, out k n = hout p env i0 h k n) /\
    (forall M x k, wfn M -> In x (insts h) -> below p M x -> In (node_name M) (node_list (flatten p env h)) -> bal k (V (node_name M)) (fsum p env h k (node_name M))).
  Proof.
    induction h as [|e r IH|l s c b IHb r IHr]; intros p env i0 v i out AR PN DI SN VV SM HL; cbn [flatten plain_names distinct_insts seen_all insts same hout] in *.
    - inversion HL as [? ? ? ? Z| |]; subst. split; [constructor|]. split; [exact Z|]. intros M x k _ [].
    - inversion HL as [|? ? ? ? ? ? out' LE HR OE|]; subst. destruct SN as [S1 S2]. destruct SM as [M1 M2].
      destruct (IH p env i0 v i out' AR (proj2 (proj2 PN)) DI S2 VV M2 HR) as (I1 & I2 & I3). split; [|split].
      + constructor; [apply S1, M1, LE|exact I1].
      + intros k n. rewrite OE, I2. unfold hleave. rewrite (proj1 M1 k). reflexivity.
      + intros M x k WM IX B IM.
        assert (Z : leave V I k (node_name M) (ren (fun n => node_name (env n)) (elem_name p) e) = 0).
        { pose proof (flat_far (HElem e HNil) p env AR) as FF. unfold fsum in FF. cbn [flatten lsum plain_names insts] in FF. rewrite <- (Rplus_0_r (leave _ _ _ _ _)).
          apply FF; [repeat split; apply PN|exact WM| |intros y []]. intros U. exact (upper_below _ _ _ U B). }
        unfold fsum. cbn [flatten lsum]. rewrite Z, Rplus_0_l. apply (I3 M x k WM IX B). unfold node_list in IM. cbn [flat_map] in IM. apply in_app_iff in IM. destruct IM as [IM|IM]; [|exact IM].
        exfalso. rewrite ren_nodes in IM. apply in_map_iff in IM. destruct IM as (a & E & A). destruct PN as (_ & PN & _). rewrite Forall_forall in PN.
        destruct AR as (_ & _ & A3). destruct (A3 a (PN a A)) as [W U]. apply wfn_inj in E; [|exact W|exact WM]. subst M. exact (upper_below _ _ _ U B).
    - inversion HL as [| |? ? ? ? ? ? ? ? ? v' i' inside out' VP V0 VO II HB BA HR OE]; subst. destruct PN as (PL & PS & PC & NC & PB & PR'). destruct DI as (D1 & D2 & D3). destruct SN as [S1 S2].
      pose proof (around_inner p env l s c AR PL PS PC) as AR'. set (p' := p ++ [(l, s)]) in *. set (env' := inner p env l s c) in *.
      assert (VV' : forall n, v' n = vw env' n).
      { intros n. destruct (in_dec (list_eq_dec ascii_dec) n (lit "0" :: map fst c)) as [[<-|Q]|Q].
        - rewrite V0, VV. unfold vw, env'. pose proof (inner_port p env l s c (lit "0", lit "0") PC NC (or_introl eq_refl)) as Q. cbn [fst snd] in Q. rewrite Q. reflexivity.
        - apply in_map_iff in Q. destruct Q as ([a m] & <- & Q). cbn [fst]. rewrite (VP _ _ Q), VV. unfold vw, env'. pose proof (inner_port p env l s c (a, m) PC NC (or_intror Q)) as W. cbn [fst snd] in *. rewrite W. reflexivity.
        - rewrite VO; [unfold vw, env'; rewrite inner_own by exact Q; reflexivity|intros W; apply Q; left; congruence|intros W; apply Q; right; exact W]. }
      destruct (IHb p' env' (iw p') v' i' inside AR' PB D2 (seen_free b p' env' S1) VV' (same_free b p' env' v' i' S1 VV' II) HB) as (B1 & B2 & B3).
      destruct (IHr p env i0 v i out' AR PR' D3 S2 VV SM HR) as (R1 & R2 & R3).
      assert (FS : forall k m, fsum p env (HInst l s c b r) k m = fsum p' env' b k m + fsum p env r k m) by (intros k m; unfold fsum; cbn [flatten]; rewrite lsum_app; reflexivity).
      split; [apply Forall_app; split; assumption|]. split.
      + intros k n. rewrite OE, R2. f_equal. apply lsum_ext. intros x _. rewrite B2. reflexivity.
      + intros M x k WM IX B IM. rewrite FS. unfold node_list in IM. rewrite flat_map_app in IM. apply in_app_iff in IM.
        destruct IX as [<-|IX].
        * assert (Z : fsum p env r k (node_name M) = 0).
          { apply flat_far; try assumption; [intros U; exact (upper_below _ _ _ U B)|]. intros x X1 X2. apply D1. rewrite (below_below _ _ _ _ B X2). exact X1. }
          rewrite Z, Rplus_0_r. destruct IM as [IM|IM].
          -- destruct (flat_used b p' env' AR' PB (node_name M) IM) as (M' & E & W' & C). apply wfn_inj in E; [|exact WM|exact W']. subst M'. destruct C as [(a & A & E)|[E|(y & Y' & BY)]].
             ++ assert (NP : ~ In a (lit "0" :: map fst c)).
                { intros IP. apply (upper_below p M (l, s)); [|exact B]. rewrite E. destruct IP as [<-|IP].
                  - pose proof (inner_port p env l s c (lit "0", lit "0") PC NC (or_introl eq_refl)) as Q'. cbn [fst snd] in Q'. unfold env'. rewrite Q'. apply AR. exact plain_0.
                  - apply in_map_iff in IP. destruct IP as (x & <- & IX). unfold env'. rewrite (inner_port p env l s c x PC NC (or_intror IX)). apply AR. rewrite Forall_forall in PC. apply (PC x IX). }
                assert (PA : plain a) by (pose proof (names_plain b PB) as Q; rewrite Forall_forall in Q; apply Q, used_names, A).
                assert (BN : bal k (v' a) (inside k a)) by (apply BA; [exact A|intros Q; apply NP; left; congruence|intros Q; apply NP; right; exact Q]).
                rewrite VV', B2 in BN. unfold vw in BN. rewrite E.
                rewrite (at_own b p' env' (iw p') AR' PB (seen_free b p' env' S1) a k PA); [exact BN| |apply used_names, A|].
                ** intros n' _ Q. apply (inner_inj p env l s c a n' AR PC NC NP). exact Q.
                ** intros x BX. unfold env' in BX. rewrite inner_own in BX by exact NP. destruct BX as [q BX]. cbn [fst] in BX. fold p' in BX. apply (f_equal (@List.length (str * str))) in BX. rewrite app_length in BX. cbn [List.length] in BX. lia.
             ++ exfalso. destruct B as [q B]. rewrite E in B. destruct p; discriminate B.
             ++ apply (B3 M y k WM Y' BY IM).
          -- exfalso. destruct (flat_used r p env AR PR' (node_name M) IM) as (M' & E & W' & C). apply wfn_inj in E; [|exact WM|exact W']. subst M'. destruct C as [(a & A & E)|[E|(y & Y' & BY)]].
             ++ subst M. apply (upper_below p (env a) (l, s)); [|exact B]. apply AR. pose proof (names_plain r PR') as Q; rewrite Forall_forall in Q; apply Q, used_names, A.
             ++ destruct B as [q B]. rewrite E in B. destruct p; discriminate B.
             ++ apply D1. rewrite (below_below _ _ _ _ B BY). exact Y'.
        * assert (NB : ~ below p M (l, s)) by (intros Q; apply D1; rewrite (below_below _ _ _ _ Q B); exact IX).
          assert (FB : ~ In (node_name M) (node_list (flatten p' env' b)) /\ fsum p' env' b k (node_name M) = 0).
          { assert (UU : ~ upper p' M).
            { intros [q U]. destruct q as [|y q] using rev_ind; [|clear IHq].
              - rewrite app_nil_r in U. apply NB. exists []. symmetry. exact U.
              - unfold p' in U. rewrite app_assoc in U. apply app_inj_tail in U. destruct U as [U _]. apply (upper_below p M x); [exists q; exact U|exact B]. }
            split; [|apply flat_far; try assumption; intros y _ Q; apply NB; exact (below_snoc _ _ _ _ Q)].
            intros Q. unfold node_list in Q. apply in_flat_map in Q. destruct Q as (e & Q1 & Q2).
            destruct (flat_nodes b p' env' AR' PB e (node_name M) Q1 (or_intror (or_intror Q2))) as (M' & E & W' & [U|(y & _ & BY)]); apply wfn_inj in E; try assumption; subst M'; [exact (UU U)|].
            apply NB. exact (below_snoc _ _ _ _ BY). }
          destruct FB as [FB Z]. rewrite Z, Rplus_0_l. apply (R3 M x k WM IX B). destruct IM as [IM|IM]; [contradiction|exact IM].
  Qed.
  Lemma flat_of_hier : forall h, plain_names h -> distinct_insts h -> refs_outside h -> hier_laws thr ends lawE bal V I h ->
    Forall (lawE V I) (flatten [] top h) /\
    (forall m k, In m (node_list (flatten [] top h)) -> m <> lit "0" -> bal k (V m) (lsum (leave V I k m) (flatten [] top h))).
  Proof.
    intros h PN DI RO (out & HL & BL).
    destruct (flat_main h [] top I V I out around_top PN DI (seen_top h PN RO) (fun n => eq_refl) (same_refl h top I) HL) as (L & OE & BB). split; [exact L|].
    intros m k IM N0. destruct (flat_used h [] top around_top PN m IM) as (M & -> & W & [(a & A & ->)|[->|(x & X' & B)]]).
    - change (node_name (top a)) with a in *. specialize (BL a k A N0). rewrite OE in BL.
      assert (PA : plain a) by (pose proof (names_plain h PN) as Q; rewrite Forall_forall in Q; apply Q, used_names, A).
      rewrite <- (at_own h [] top I around_top PN (seen_top h PN RO) a k PA) in BL; [exact BL| |apply used_names, A|intros x [q B]; discriminate B].
      intros n' _ Q. unfold top in Q. congruence.
    - exfalso. apply N0. reflexivity.
    - apply (BB M x k W X' B IM).
  Qed.
End Gen.
