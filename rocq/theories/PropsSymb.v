(** C63, C124, C125: the symbolic formulation. *)
From Coq Require Import Reals String Ascii List Bool Arith Lia Lra.
From Verif Require Import Base BaseFacts Str Nodes Circuit CircuitFacts Rsum Mna MnaSpec MnaFacts DynFacts Symb SymbFacts.
Import ListNotations.
Open Scope R_scope.

(** ** C63: symbolic and numeric formulation *)

(** The elements whose number the symbolic formulation reads correctly when they
    are not symbolic. *)
Definition number_read (ac : bool) (e : lelem) : Prop :=
  match e with
  | EL _ _ _ _ | EK _ _ _ _ _ => ac = false
  | EG _ _ _ _ _ _ => False
  | _ => True
  end.

(** If every symbol has the value of its element, and the elements that are not
    symbolic are of the kinds read correctly, the symbolic matrix at [s] is the MNA
    matrix plus [s] times the dynamic matrix (of the circuit without [cmin]), or the
    MNA matrix alone without [ac], and the source vectors are equal. *)
Theorem C63_agree : forall ac s is_symbolic subs env nv es m N,
  wf_circ nv es ->
  NoDup (map (fun e => upper (lid e)) (filter is_vde es)) ->
  Forall (wf_coupling es) es ->
  (forall e, In e es -> time_dependent e = false) ->
  (forall e, In e es -> is_symbolic e = true -> env (subst subs (sym_of e)) = val e) ->
  (forall e, In e es -> is_symbolic e = false -> number_read ac e) ->
  generate_mna_and_N nv es = Ok (m, N) ->
  exists ms Ns d,
    symbolic_mna_and_N false ac s is_symbolic subs env nv es = Ok (ms, Ns) /\
    generate_D 0 nv es = Ok d /\
    (forall i j, ms i j = m i j + (if ac then s * d i j else 0)) /\
    (forall i, Ns i = N i).
Proof.
  intros ac s isy subs env nv es m N W ND WK TD HS HN H.
  assert (V : forall e, In e es -> used ac e = true -> value_of isy subs env e = Ok (val e)).
  { intros e He Hu. unfold value_of. destruct (isy e) eqn:Ei; [f_equal; auto|].
    specialize (HN e He Ei). destruct e; cbn in *; try reflexivity; try congruence; contradiction. }
  destruct (symbolic_agrees false ac s isy subs env nv es V) with (m := m) (N := N)
    as (ms & Ns & d & A1 & A2 & A3 & A4); auto.
  { intros id n1 n2 r He. unfold conductance. rewrite andb_false_r, V by auto. reflexivity. }
  exists ms, Ns, d. repeat split; auto.
  intros i j. rewrite A3. destruct ac; lra.
Qed.
Print Assumptions C63_agree.

(** What the numeric formulation refuses, the symbolic one refuses too. *)
Theorem C63_refuses : forall ac s is_symbolic subs env nv es err,
  generate_mna_and_N nv es = Err err -> exists err', symbolic_mna_and_N false ac s is_symbolic subs env nv es = Err err'.
Proof.
  intros ac s isy subs env nv es err H.
  destruct (symbolic_mna_and_N false ac s isy subs env nv es) as [r|e'] eqn:E; [exfalso|eauto].
  unfold symbolic_mna_and_N in E. unfold generate_mna_and_N in H.
  destruct (y_pass1 _ _ _ _ _ _ _ _ _) as [st1|]; [cbn [bindr] in E|discriminate E].
  assert (P2 : forall l k sy st q, y_pass2 ac s isy subs env nv es l k sy = Ok q -> exists r', pass2 nv es l k st = Ok r').
  { induction l as [|e l IH]; intros k sy st q Q; cbn [y_pass2 pass2] in *; [eauto|]. destruct (is_vde e); [|eauto].
    destruct (y_stamp_vde ac s isy subs env nv es k sy e) as [sy'|] eqn:EY; [cbn [bindr] in Q|discriminate Q].
    assert (SV : exists st', stamp_vde nv es k st e = Ok st').
    { destruct st as [m v]. destruct sy as [ms vs]. destruct e; cbn [stamp_vde y_stamp_vde] in *; eauto.
      destruct (value_of _ _ _ _) as [a|]; [cbn [bindr] in EY|discriminate EY]. destruct (vde_index es src) as [j|]; [cbn [bindr] in *|discriminate EY].
      destruct (j <=? k)%nat; [eauto|discriminate EY]. }
    destruct SV as (st' & SV). rewrite SV. cbn [bindr]. eapply IH. exact Q. }
  assert (P3 : forall l my mx q, y_pass3 ac s isy subs env nv es l my = Ok q -> exists r', pass3 nv es l mx = Ok r').
  { induction l as [|e l IH]; intros my mx q Q; cbn [y_pass3 pass3] in *; [eauto|].
    destruct e; cbn [stampF bindr] in *; try (eapply IH; exact Q; fail).
    - destruct ac; [|eapply IH; exact Q]. destruct (vde_index es id) as [j|]; [cbn [bindr] in Q|discriminate Q].
      destruct (y_couplings _ _ _ _ _ _ _ _ _ _) as [m'|]; [cbn [bindr] in Q|discriminate Q]. eapply IH. exact Q.
    - destruct (vde_index es src) as [j|]; [cbn [bindr] in *|discriminate Q]. destruct (value_of _ _ _ _); [cbn [bindr] in Q|discriminate Q]. eapply IH. exact Q. }
  destruct (y_pass2 _ _ _ _ _ _ _ _ _ _) as [st2|] eqn:E2; [cbn [bindr] in E|discriminate E].
  destruct (y_pass3 _ _ _ _ _ _ _ _ _) as [m3|] eqn:E3; [|discriminate E].
  match type of H with context [pass2 nv es es 0 ?st] => destruct (P2 es 0%nat st1 st st2 E2) as (q & R2) end. rewrite R2 in H. cbn [bindr] in H.
  destruct q as [m v]. cbn in H. destruct (P3 es (fst st2) m m3 E3) as (q & R3). rewrite R3 in H. discriminate H.
Qed.
Print Assumptions C63_refuses.

(** A transformer between a source and a load, all symbolic. *)
Definition transformer : list lelem :=
  [EV "V1" 1 0 5 false; EL "L1" 1 0 2; EL "L2" 2 0 8; EK "K1" "L1" "L2" (1/2) 2; ER "R1" 2 0 4; EC "C1" 2 0 3].
Definition transformer_env (y : sym) : R :=
  if String.eqb (y_name y) "V1" then 5 else if String.eqb (y_name y) "L1" then 2
  else if String.eqb (y_name y) "L2" then 8 else if String.eqb (y_name y) "K1" then 2
  else if String.eqb (y_name y) "R1" then 4 else 3.

Example C63_example : forall s, exists ms Ns,
  symbolic_mna_and_N false true s (fun _ => true) [] transformer_env 3 transformer = Ok (ms, Ns) /\
  ms 2%nat 2%nat = 1/4 + s * 3 /\ ms 4%nat 4%nat = - (s * 2) /\ ms 4%nat 5%nat = - (s * 2) /\ Ns 3%nat = -5.
Proof.
  intros s. eexists. eexists. split; [vm_compute; reflexivity|].
  cbv -[Rplus Ropp Rmult Rinv Rminus Rdiv IZR]. repeat split; lra.
Qed.

(** A VCCS or (in AC) an inductor that is not symbolic: the formulation fails. *)
Theorem C63_number_refuted :
  exists nv es, (exists m N, generate_mna_and_N nv es = Ok (m, N)) /\ (exists d, generate_D 0 nv es = Ok d) /\
    (forall e, In e es -> time_dependent e = false) /\
    forall s subs env, symbolic_mna_and_N false true s (fun _ => false) subs env nv es = Err AttributeError.
Proof.
  exists 2%nat, [EV "V1" 1 0 5 false; EL "L1" 1 0 2]. repeat split.
  - eexists. eexists. reflexivity.
  - eexists. reflexivity.
  - intros e [<-|[<-|[]]]; reflexivity.
Qed.
Print Assumptions C63_number_refuted.

Theorem C63_vccs_refuted :
  exists nv es, (exists m N, generate_mna_and_N nv es = Ok (m, N)) /\
    (forall e, In e es -> time_dependent e = false) /\
    forall ac s subs env, symbolic_mna_and_N false ac s (fun _ => false) subs env nv es = Err AttributeError.
Proof.
  exists 2%nat, [EV "V1" 1 0 5 false; EG "G1" 1 0 1 0 2]. repeat split.
  - eexists. eexists. reflexivity.
  - intros e [<-|[<-|[]]]; reflexivity.
Qed.
Print Assumptions C63_vccs_refuted.

(** A coupling that is not symbolic: the coefficient [K] stands where the mutual
    inductance [M] belongs. *)
Theorem C63_coupling_refuted :
  exists nv es is_symbolic env ms Ns m N d s,
    (forall e, In e es -> is_symbolic e = true -> env (sym_of e) = val e) /\
    symbolic_mna_and_N false true s is_symbolic [] env nv es = Ok (ms, Ns) /\
    generate_mna_and_N nv es = Ok (m, N) /\ generate_D 0 nv es = Ok d /\
    ms 4%nat 5%nat <> m 4%nat 5%nat + s * d 4%nat 5%nat.
Proof.
  exists 3%nat, transformer, (fun e => match e with EK _ _ _ _ _ => false | _ => true end), transformer_env.
  do 5 eexists. exists 1. repeat split.
  - intros e H. cbn [transformer In] in H. repeat (destruct H as [<-|H]; [try discriminate; reflexivity|]). destruct H.
  - unfold add_cmin. destruct (Rlt_dec 0 0); [lra|].
    cbv -[Rplus Ropp Rmult Rinv Rminus Rdiv IZR]. lra.
Qed.
Print Assumptions C63_coupling_refuted.

(** A time-dependent source: the symbolic vector has its DC value, the numeric one
    leaves it to the time-dependent part. *)
Theorem C63_time_refuted :
  exists nv es ms Ns m N, symbolic_mna_and_N false false 0 (fun _ => false) [] (fun _ => 0) nv es = Ok (ms, Ns) /\
    generate_mna_and_N nv es = Ok (m, N) /\ Ns 2%nat <> N 2%nat.
Proof.
  exists 2%nat, [EV "V1" 1 0 5 true; ER "R1" 1 0 2].
  do 4 eexists. split; [reflexivity|]. split; [reflexivity|].
  cbv -[Rplus Ropp Rmult Rinv Rminus Rdiv IZR]. lra.
Qed.
Print Assumptions C63_time_refuted.

(** ** C124: substitutions *)

(** The letter an id should begin with. *)
Definition kind_letter (e : lelem) : ascii :=
  match e with
  | ER _ _ _ _ => "R" | EC _ _ _ _ => "C" | EL _ _ _ _ => "L" | EK _ _ _ _ _ => "K"
  | EV _ _ _ _ _ => "V" | EI _ _ _ _ _ => "I" | EE _ _ _ _ _ _ => "E" | EG _ _ _ _ _ _ => "G"
  | EF _ _ _ _ _ => "F" | EH _ _ _ _ _ => "H" | ENL _ _ _ => "D"
  end%char.
Definition begins (c : ascii) (t : string) : Prop := exists r, upper t = String c r.
(** Same kind of element under another id. *)
Definition rename (e : lelem) (id : string) : lelem :=
  match e with
  | ER _ a b x => ER id a b x | EC _ a b x => EC id a b x | EL _ a b x => EL id a b x
  | EK _ a b k x => EK id a b k x | EV _ a b x td => EV id a b x td | EI _ a b x td => EI id a b x td
  | EE _ a b c d x => EE id a b c d x | EG _ a b c d x => EG id a b c d x
  | EF _ a b c x => EF id a b c x | EH _ a b c x => EH id a b c x | ENL _ a b => ENL id a b
  end.
Definition substitutable (e : lelem) : Prop :=
  match e with
  | ER _ _ _ _ | EC _ _ _ _ | EL _ _ _ _ | EE _ _ _ _ _ _ | EF _ _ _ _ _ | EH _ _ _ _ _ => True
  | _ => False
  end.

Lemma upper_ascii_idem : forall c, upper_ascii (upper_ascii c) = upper_ascii c.
Proof. intros [[] [] [] [] [] [] [] []]; reflexivity. Qed.
Lemma upper_idem : forall t, upper (upper t) = upper t.
Proof. unfold upper. induction t as [|c t IH]; cbn; [reflexivity|]. rewrite upper_ascii_idem, IH. reflexivity. Qed.

Lemma upper_head_tail : forall t, upper (String.append (head_upper t) (tail t)) = upper t.
Proof. destruct t as [|c t]; cbn; [reflexivity|]. rewrite upper_ascii_idem. reflexivity. Qed.

Lemma head_of : forall c t, begins c t -> head_upper t = String c EmptyString.
Proof. intros c [|a t] [r H]; cbn in *; inversion H; reflexivity. Qed.

Lemma parse_key : forall v1 v2, parse_substitution false (v1, v2) =
  (mkSym (upper v1) true (positive_letter (head_upper v1)), mkSym (upper v2) true (positive_letter (head_upper v2))).
Proof.
  intros. unfold parse_substitution. rewrite andb_false_r. unfold symbol_factory. rewrite !upper_head_tail. reflexivity.
Qed.

Lemma fold_get : forall l d k,
  (forall v1 v2, In (v1, v2) l -> upper v1 <> y_name k) ->
  sget (fold_left (fun d p => let '(k, v) := parse_substitution false p in supdate d k v) l d) k = sget d k.
Proof.
  induction l as [|[v1 v2] l IH]; intros d k H; cbn [fold_left]; [reflexivity|].
  rewrite parse_key, IH by (intros; eapply H; right; eauto).
  rewrite sget_supdate. destruct (sym_eqb_spec (mkSym (upper v1) true (positive_letter (head_upper v1))) k) as [E|E]; [|reflexivity].
  exfalso. apply (H v1 v2); [left; reflexivity|]. subst k. reflexivity.
Qed.

Lemma fold_found : forall l d v1 v2, NoDup (map (fun p => upper (fst p)) l) -> In (v1, v2) l ->
  sget (fold_left (fun d p => let '(k, v) := parse_substitution false p in supdate d k v) l d)
    (mkSym (upper v1) true (positive_letter (head_upper v1))) =
  Some (mkSym (upper v2) true (positive_letter (head_upper v2))).
Proof.
  induction l as [|[a b] l IH]; intros d v1 v2 ND H; [destruct H|]. cbn [fold_left map fst] in *.
  inversion ND as [|? ? Hn ND']; subst. rewrite parse_key. destruct H as [E|H]; [|apply IH; auto].
  inversion E; subst. rewrite fold_get.
  - rewrite sget_supdate. destruct (sym_eqb_spec (mkSym (upper v1) true (positive_letter (head_upper v1)))
      (mkSym (upper v1) true (positive_letter (head_upper v1)))) as [_|C]; [reflexivity|congruence].
  - intros a' b' Hin Hu. apply Hn. cbn in Hu. rewrite <- Hu. apply (in_map (fun p => upper (fst p)) l (a', b') Hin).
Qed.

(** For resistors, capacitors, inductors, E, F and H sources named in the usual way
    each entry of the dictionary does what the documentation says: the element takes
    the symbol of the other one, in upper or lower case, whatever the other entries. *)
Theorem C124_substituted : forall l e id2,
  NoDup (map (fun p => upper (fst p)) l) ->
  substitutable e -> begins (kind_letter e) (lid e) -> begins (kind_letter e) id2 ->
  (exists id1, upper id1 = upper (lid e) /\ In (id1, id2) l) ->
  subst (parse_substitutions false l) (sym_of e) = sym_of (rename e id2).
Proof.
  intros l e id2 ND S B1 B2 (id1 & U & Hin).
  assert (B1' : begins (kind_letter e) id1) by (destruct B1 as [r Hr]; exists r; congruence).
  pose proof (fold_found l [] id1 id2 ND Hin) as F.
  rewrite (head_of _ _ B1'), (head_of _ _ B2), U in F.
  unfold subst, parse_substitutions.
  assert (K : sym_of e = mkSym (upper (lid e)) true (positive_letter (String (kind_letter e) EmptyString)))
    by (destruct e; cbn in S; try contradiction; reflexivity).
  rewrite K, F. destruct e; cbn in S; try contradiction; reflexivity.
Qed.
Print Assumptions C124_substituted.

(** An element that is not named keeps its symbol. *)
Theorem C124_others_kept : forall l e,
  (forall id1 id2, In (id1, id2) l -> upper id1 <> upper (lid e)) ->
  subst (parse_substitutions false l) (sym_of e) = sym_of e.
Proof.
  intros l e H. unfold subst, parse_substitutions. rewrite fold_get; [reflexivity|].
  intros v1 v2 Hin. destruct e; apply (H v1 v2 Hin).
Qed.
Print Assumptions C124_others_kept.

Example C124_example :
  let d := parse_substitutions false [("r1", "R2"); ("c1", "C2")]%string in
  subst d (sym_of (ER "R1" 1 0 1)) = sym_of (ER "R2" 1 0 1) /\
  subst d (sym_of (ER "R3" 1 0 1)) = sym_of (ER "R3" 1 0 1).
Proof. split; reflexivity. Qed.

(** For independent sources, VCCS and couplings an entry has no effect. *)
Definition not_substitutable (e : lelem) : Prop :=
  match e with EV _ _ _ _ _ | EI _ _ _ _ _ | EG _ _ _ _ _ _ | EK _ _ _ _ _ => True | _ => False end.

Theorem C124_no_effect : forall l e, not_substitutable e ->
  (forall id1 id2, In (id1, id2) l -> upper id1 = upper (lid e) -> begins (kind_letter e) id1) ->
  subst (parse_substitutions false l) (sym_of e) = sym_of e.
Proof.
  intros l e Hk HB. unfold subst, parse_substitutions.
  assert (A : forall l d, (forall id1 id2, In (id1, id2) l -> upper id1 = upper (lid e) -> begins (kind_letter e) id1) ->
    sget (fold_left (fun d p => let '(k, v) := parse_substitution false p in supdate d k v) l d) (sym_of e) = sget d (sym_of e)).
  { clear l HB. induction l as [|[v1 v2] l IH]; intros d HB; cbn [fold_left]; [reflexivity|].
    rewrite parse_key, IH by (intros; eapply HB; [right|]; eauto). rewrite sget_supdate.
    match goal with |- context [sym_eqb ?a ?b] => destruct (sym_eqb_spec a b) as [E|E] end; [|reflexivity].
    exfalso. assert (U : upper v1 = upper (lid e)).
    { change (y_name (mkSym (upper v1) true (positive_letter (head_upper v1))) = upper (lid e)). rewrite E. destruct e; reflexivity. }
    assert (B := HB v1 v2 (or_introl eq_refl) U). rewrite (head_of _ _ B) in E.
    destruct e; cbn in Hk; try contradiction; discriminate. }
  rewrite A by auto. reflexivity.
Qed.
Print Assumptions C124_no_effect.

Theorem C124_refuted : exists e1 e2 e3 e4 id2, 
  Forall (fun e => begins (kind_letter e) (lid e) /\
                   subst (parse_substitutions false [(lid e, String.append (substring 0 1 (lid e)) id2)]) (sym_of e)
                   <> sym_of (rename e (String.append (substring 0 1 (lid e)) id2))) [e1; e2; e3; e4].
Proof.
  exists (EV "V1" 1 0 1 false), (EI "I1" 1 0 1 false), (EG "G1" 1 0 1 0 1), (EK "K1" "L1" "L2" 1 1), "2"%string.
  repeat constructor; try (eexists; reflexivity); cbv; discriminate.
Qed.
Print Assumptions C124_refuted.

(** With [symb_formulate_with_gs] an entry for a resistor has no effect. *)
Theorem C124_conductance_refuted : forall r1 r2 n1 n2 x,
  subst (parse_substitutions true [(String "R" r1, String "R" r2)]) (sym_of (ER (String "R" r1) n1 n2 x))
  = sym_of (ER (String "R" r1) n1 n2 x).
Proof.
  intros. unfold subst, parse_substitutions. cbn [fold_left]. unfold parse_substitution.
  cbn [head_upper andb String.eqb]. cbv zeta.
  match goal with |- context [supdate [] ?k ?v] => rewrite (sget_supdate [] k v) end.
  match goal with |- context [sym_eqb ?a ?b] => destruct (sym_eqb_spec a b) as [E|E] end; [|reflexivity].
  exfalso. cbn in E. unfold symbol_factory, upper in E. cbn in E. inversion E.
Qed.
Print Assumptions C124_conductance_refuted.

(** The entry is for the conductances of the two resistors, which are no symbols of
    elements. *)
Theorem C124_conductance_entry : forall r1 r2 n1 n2 x m1 m2 y, subst (parse_substitutions true [(String "R" r1, String "R" r2)]) (cond_sym (sym_of (ER (String "R" r1) n1 n2 x)))
  = cond_sym (sym_of (ER (String "R" r2) m1 m2 y)).
Proof.
  intros. unfold subst, parse_substitutions. cbn [fold_left]. unfold parse_substitution.
  cbn [head_upper andb String.eqb]. cbv zeta.
  match goal with |- context [supdate [] ?k ?v] => rewrite (sget_supdate [] k v) end.
  unfold cond_sym, sym_of, symbol_factory. cbn.
  match goal with |- context [sym_eqb ?a ?b] => destruct (sym_eqb_spec a b) as [E|E] end; fold upper in *.
  - fold (upper (upper r2)). rewrite upper_idem. reflexivity.
  - exfalso. apply E. fold (upper (upper r1)). rewrite upper_idem. reflexivity.
Qed.
Print Assumptions C124_conductance_entry.

(** ** C125: formulation with conductances *)
Definition R_symbol (y : sym) : Prop := exists r, y = symbol_factory (String "R" r) true true.

Lemma cond_sym_inj : forall a b, R_symbol a -> R_symbol b -> cond_sym a = cond_sym b -> a = b.
Proof.
  intros a b [r ->] [r' ->] E. unfold cond_sym, symbol_factory in E. cbn in E.
  inversion E as [E']. unfold symbol_factory. cbn. do 2 f_equal.
  fold (upper (upper r)) in E'. fold (upper (upper r')) in E'. rewrite !upper_idem in E'. exact E'.
Qed.

Section Conductances.
  Variables (is_symbolic : lelem -> bool) (subs : sdict) (env : sym -> R).

  Lemma subs_g_sound : forall es e n1 n2 r,
    (forall id a b x, In (ER id a b x) es -> is_symbolic (ER id a b x) = true -> R_symbol (subst subs (sym_of (ER id a b x)))) ->
    In (ER e n1 n2 r) es -> is_symbolic (ER e n1 n2 r) = true ->
    sget (subs_g true is_symbolic subs es) (cond_sym (subst subs (sym_of (ER e n1 n2 r)))) = Some (subst subs (sym_of (ER e n1 n2 r))).
  Proof.
    intros es e n1 n2 r HR Hin Hs. unfold subs_g.
    set (y := subst subs (sym_of (ER e n1 n2 r))).
    assert (Ry : R_symbol y) by (apply HR; auto).
    assert (G : forall l d,
      (forall id a b x, In (ER id a b x) l -> is_symbolic (ER id a b x) = true -> R_symbol (subst subs (sym_of (ER id a b x)))) ->
      sget d (cond_sym y) = Some y \/ In (ER e n1 n2 r) l ->
      sget (fold_left (fun d e => match e with
                          | ER _ _ _ _ => if is_symbolic e && true
                                          then let r := subst subs (sym_of e) in supdate d (cond_sym r) r
                                          else d
                          | _ => d end) l d) (cond_sym y) = Some y).
    { induction l as [|a l IH]; intros d HR' Hc; cbn [fold_left].
      - destruct Hc as [Hc|[]]; exact Hc.
      - apply IH; [intros; apply HR'; [right|]; auto|].
        destruct Hc as [Hc|[->|Hc]]; [|left|right; exact Hc].
        + left. destruct a; auto. destruct (is_symbolic (ER id n0 n3 r0)) eqn:Ea; cbn [andb]; auto.
          cbv zeta. rewrite sget_supdate.
          match goal with |- context [sym_eqb ?p ?q] => destruct (sym_eqb_spec p q) as [E|E] end; auto.
          f_equal. apply cond_sym_inj; auto. apply HR'; [left|]; auto.
        + rewrite Hs. cbn [andb]. cbv zeta. fold y. rewrite sget_supdate.
          destruct (sym_eqb_spec (cond_sym y) (cond_sym y)); [reflexivity|congruence]. }
    apply G; auto.
  Qed.
End Conductances.

(** If the symbols of the resistors begin with [R], the system is the same with the
    option on and off, once the conductances are replaced by the inverses of the
    resistances they stand for. *)
Theorem C125_same_system : forall ac s is_symbolic subs env nv es,
  (forall id n1 n2 r, In (ER id n1 n2 r) es -> is_symbolic (ER id n1 n2 r) = true ->
     R_symbol (subst subs (sym_of (ER id n1 n2 r)))) ->
  symbolic_mna_and_N true ac s is_symbolic subs env nv es =
  symbolic_mna_and_N false ac s is_symbolic subs env nv es.
Proof.
  intros ac s isy subs env nv es H. unfold symbolic_mna_and_N.
  assert (P : forall l st, incl l es -> y_pass1 true ac s isy subs env es l st = y_pass1 false ac s isy subs env es l st).
  { induction l as [|e l IH]; intros st INC; cbn [y_pass1]; [reflexivity|].
    assert (E : y_stamp1 true ac s isy subs env es st e = y_stamp1 false ac s isy subs env es st e).
    { destruct st as [m v]. destruct e; try reflexivity. cbn [y_stamp1].
      assert (C : conductance true isy subs env es (ER id n1 n2 r) = conductance false isy subs env es (ER id n1 n2 r)).
      { unfold conductance, value_of. destruct (isy (ER id n1 n2 r)) eqn:Ei; [|reflexivity]. cbn [andb]. cbv zeta.
        rewrite subs_g_sound; auto. apply INC. left. reflexivity. }
      rewrite C. reflexivity. }
    rewrite E. destruct (y_stamp1 false ac s isy subs env es st e); cbn [bindr]; [|reflexivity].
    apply IH. intros x Hx. apply INC. right. exact Hx. }
  rewrite P by apply incl_refl. reflexivity.
Qed.
Print Assumptions C125_same_system.

(** This is the case of resistors named in the usual way without substitutions. *)
Theorem C125_usual_names : forall ac s is_symbolic env nv es,
  (forall id n1 n2 r, In (ER id n1 n2 r) es -> begins "R" id) ->
  symbolic_mna_and_N true ac s is_symbolic [] env nv es =
  symbolic_mna_and_N false ac s is_symbolic [] env nv es.
Proof.
  intros ac s isy env nv es H. apply C125_same_system. intros id n1 n2 r Hin _.
  destruct (H _ _ _ _ Hin) as [t Ht]. exists t. unfold subst. cbn [sget find option_map sym_of].
  unfold symbol_factory. f_equal. rewrite <- Ht. symmetry. apply upper_idem.
Qed.
Print Assumptions C125_usual_names.

Example C125_example : forall env, exists ms Ns,
  symbolic_mna_and_N true false 0 (fun _ => true) [] env 3
    [ER "R1" 1 2 1; ER "R2" 2 0 1; EI "I1" 0 1 1 false] = Ok (ms, Ns) /\
  ms 1%nat 1%nat = 1 / env (mkSym "R1" true true) /\
  ms 2%nat 2%nat = 1 / env (mkSym "R1" true true) + 1 / env (mkSym "R2" true true).
Proof.
  intros env. eexists. eexists. split; [reflexivity|].
  cbv -[Rplus Ropp Rmult Rinv Rminus Rdiv IZR]. split; lra.
Qed.

(** [add_resistor] documents that the first letter of the id is replaced by an R
    (circuit.py 474-475); it is not, and two resistors whose ids differ in the first
    letter only get one conductance: the system is the one of a circuit in which the
    first has the resistance of the second. *)
Theorem C125_refuted : exists nv es ms Ns m N env,
  NoDup (map lid es) /\
  symbolic_mna_and_N true false 0 (fun _ => true) [] env nv es = Ok (ms, Ns) /\
  symbolic_mna_and_N false false 0 (fun _ => true) [] env nv es = Ok (m, N) /\
  m 1%nat 1%nat = 1 /\ m 2%nat 2%nat = 1/2 /\ ms 1%nat 1%nat = 1/2 /\ ms 2%nat 2%nat = 1/2.
Proof.
  exists 3%nat, [ER "R1" 1 0 1; ER "X1" 2 0 2]. do 4 eexists.
  exists (fun y => if String.eqb (y_name y) "R1" then 1 else 2).
  split; [repeat constructor; cbn; intuition discriminate|].
  split; [reflexivity|]. split; [reflexivity|].
  cbv -[Rplus Ropp Rmult Rinv Rminus Rdiv IZR]. repeat split; lra.
Qed.
Print Assumptions C125_refuted.
