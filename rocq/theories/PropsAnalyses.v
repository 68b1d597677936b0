(** C109, C117, C118: from an analysis directive to the call of the analysis. *)
From Coq Require Import Ascii String List Bool Arith ZArith Lia.
From Verif Require Import Base BaseFacts Str Units Subckt Directive PropsSubckt PropsDirective.
Import ListNotations.
Open Scope nat_scope.

(** * C109: .TEMP *)

(** The kinds of analyses that a directive may ask for. *)
Definition analysis_kinds : list str := map lit ["op"; "dc"; "ac"; "tran"; "pss"; "symbolic"; "pz"]%string.

Theorem C109_kinds : forall line, ~ In (directive_type (hd [] (split line))) analysis_kinds ->
  split line <> [] -> parse_single_analysis line = Err NetlistParseError.
Proof.
  intros line N NE. unfold parse_single_analysis. destruct (split line) as [|d toks]; [congruence|]. cbn [hd] in N.
  assert (D : dget streqb specs (directive_type d) = None); [|rewrite D; reflexivity].
  apply (dget_None_notin streqb streqb_spec). exact N.
Qed.
Print Assumptions C109_kinds.

(** The documented .TEMP directive is refused whatever follows. *)
Theorem C109_refuted : forall args, parse_single_analysis (lit ".temp " ++ args) = Err NetlistParseError.
Proof.
  intros args. assert (S1 : split (lit ".temp " ++ args) = lit ".temp" :: split args) by reflexivity.
  apply C109_kinds; rewrite S1; [|discriminate]. vm_compute. intros H. repeat destruct H as [H|H]; try discriminate. exact H.
Qed.
Print Assumptions C109_refuted.
Example C109_example : parse_single_analysis (lit ".temp 27") = Err NetlistParseError /\ isOk (parse_single_analysis (lit ".op")) = true.
Proof. vm_compute. auto. Qed.

(** * C117: the description fits the function that is called *)

(** Parameters of the analysis functions after the circuit: required and optional ones
    (dc_analysis.py 461 and 598, ac.py 146, transient.py 121, symbolic.py 103, pz.py 135;
    for pss, those of shooting.py 40 and bfpss.py 43 that both have, and the method). *)
Definition signatures : list (str * (list str * list str)) :=
  let S (n : string) (r o : list string) := (lit n, (map lit r, map lit o)) in
  [ S "op" [] ["x0"; "guess"; "outfile"; "verbose"];
    S "dc" ["start"; "stop"; "step"; "source"] ["sweep_type"; "guess"; "x0"; "outfile"; "verbose"];
    S "ac" ["start"; "points"; "stop"] ["sweep_type"; "x0"; "mna"; "AC"; "Nac"; "J"; "outfile"; "verbose"];
    S "tran" ["tstart"; "tstep"; "tstop"] ["method"; "use_step_control"; "x0"; "mna"; "N"; "D"; "outfile"; "return_req_dict"; "verbose"];
    S "pss" ["method"; "period"] ["step"; "points"; "autonomous"; "x0"; "outfile"; "vector_norm"; "verbose"];
    S "symbolic" [] ["source"; "ac_enable"; "r0s"; "subs"; "outfile"; "verbose"];
    S "pz" [] ["input_source"; "output_port"; "MNA"; "x0"; "shift"; "outfile"; "verbose"] ]%string.

Definition fits (an : list (str * val)) : Prop :=
  exists ty req opt, dget streqb an (lit "type") = Some (VStr ty) /\ In (ty, (req, opt)) signatures /\
    (forall k, In k req -> dget streqb an k <> None) /\
    (forall k, dget streqb an k <> None -> k = lit "type" \/ In k req \/ In k opt).

Lemma ploop_keys : forall toks i params an params' an', ploop i toks params an = Ok (params', an') ->
  (forall t, In t params -> In t params' \/ dget streqb an' (s_dest t) <> None) /\
  (forall k, dget streqb an k <> None -> dget streqb an' k <> None) /\
  (NoDup (dkeys an) -> NoDup (dkeys an')).
Proof.
  induction toks as [|tok toks IH]; intros i params an params' an' H.
  - cbn in H. injection H as <- <-. auto.
  - destruct (starred tok) eqn:ST; [cbn [ploop] in H; rewrite ST in H; injection H as <- <-; auto|].
    cbn [ploop] in H. rewrite ST in H. destruct (label_value tok) as [lab v].
    destruct (take_first (matches i lab) params) as [[t rest]|] eqn:TF; [|discriminate].
    apply bindr_Ok in H. destruct H as (x & _ & H). destruct (IH _ _ _ _ _ H) as (A & B & D).
    assert (IN : forall u, In u params -> u = t \/ In u rest).
    { clear -TF. revert t rest TF. induction params as [|p ps IH]; intros t rest TF; [discriminate|]. cbn [take_first] in TF.
      destruct (matches i lab p); [injection TF as <- <-; intros u [<-|U]; auto|].
      destruct (take_first (matches i lab) ps) as [[u0 r0]|]; [|discriminate]. injection TF as <- <-.
      intros u [<-|U]; [right; left; reflexivity|]. destruct (IH _ _ eq_refl u U); [auto|right; right; assumption]. }
    split; [|split].
    + intros u U. destruct (IN u U) as [->|U']; [|apply A; exact U']. right. apply B. rewrite (dget_dset streqb streqb_spec).
      destruct (streqb_spec (s_dest t) (s_dest t)); congruence.
    + intros k K. apply B. rewrite (dget_dset streqb streqb_spec). destruct (streqb k (s_dest t)); [discriminate|exact K].
    + intros ND. apply D. apply (dset_NoDup streqb streqb_spec). exact ND.
Qed.

Lemma parse_params_keys : forall tbl an0 toks an, clear tbl -> parse_params tbl an0 toks = Ok an -> NoDup (dkeys an0) ->
  (forall t, In t tbl -> dget streqb an (s_dest t) <> None) /\
  (forall k, ~ In k (map s_dest tbl) -> dget streqb an k = dget streqb an0 k) /\ NoDup (dkeys an).
Proof.
  intros tbl an0 toks an CL H ND. destruct (C45_values tbl an0 toks an CL H) as (_ & _ & O).
  unfold parse_params in H. apply bindr_Ok in H. destruct H as ([params an1] & L & H).
  destruct (existsb s_needed params); [discriminate|]. injection H as <-. destruct (ploop_keys _ _ _ _ _ _ L) as (A & _ & D). specialize (D ND).
  split; [|split].
  - intros t T. destruct (A t T) as [P|P].
    + clear -P. revert P. generalize params, an1. induction params0 as [|p ps IH]; intros an2 P; [destruct P|]. cbn [fold_left].
      destruct P as [->|P]; [|apply IH; exact P].
      assert (K : forall ps an2, dget streqb an2 (s_dest t) <> None ->
        dget streqb (fold_left (fun a t => dset streqb a (s_dest t) (s_default t)) ps an2) (s_dest t) <> None).
      { clear. induction ps as [|p ps IH]; intros an2 H; [exact H|]. cbn [fold_left]. apply IH. rewrite (dget_dset streqb streqb_spec).
        destruct (streqb _ _); [discriminate|exact H]. }
      apply K. rewrite (dget_dset streqb streqb_spec). destruct (streqb_spec (s_dest t) (s_dest t)); congruence.
    + revert P. generalize an1. clear. induction params as [|p ps IH]; intros an2 P; [exact P|]. cbn [fold_left]. apply IH.
      rewrite (dget_dset streqb streqb_spec). destruct (streqb _ _); [discriminate|exact P].
  - intros k K. apply O. intros t T E. apply K. rewrite <- E. apply in_map. exact T.
  - revert D. generalize an1. clear. induction params as [|p ps IH]; intros an2 D; [exact D|]. cbn [fold_left]. apply IH.
    apply (dset_NoDup streqb streqb_spec). exact D.
Qed.

Definition inb (k : str) (l : list str) : bool := if in_dec (list_eq_dec ascii_dec) k l then true else false.
Lemma inb_In : forall k l, inb k l = true <-> In k l.
Proof. intros k l. unfold inb. destruct (in_dec (list_eq_dec ascii_dec) k l); split; auto; discriminate. Qed.
Definition fits_b (ty : str) (keys : list str) : bool :=
  match dget streqb signatures ty with
  | Some (req, opt) => forallb (fun k => inb k keys) req && forallb (fun k => inb k req || inb k opt) keys
  | None => false
  end.
Lemma fits_keys : forall an ty keys, dget streqb an (lit "type") = Some (VStr ty) ->
  (forall k, In k keys -> dget streqb an k <> None) -> (forall k, dget streqb an k <> None -> k = lit "type" \/ In k keys) ->
  fits_b ty keys = true -> fits an.
Proof.
  intros an ty keys T A B F. unfold fits_b in F. destruct (dget streqb signatures ty) as [[req opt]|] eqn:S0; [|discriminate].
  apply andb_true_iff in F. destruct F as [F1 F2]. rewrite forallb_forall in F1, F2. exists ty, req, opt. split; [exact T|]. split.
  - apply (dget_In streqb streqb_spec). exact S0.
  - split.
    + intros k K. apply A. apply inb_In. apply F1. exact K.
    + intros k K. destruct (B k K) as [->|K']; [auto|]. right. apply F2 in K'. apply orb_true_iff in K'. rewrite !inb_In in K'. exact K'.
Qed.

(** Whatever directive is accepted, the description has every parameter that the
    function needs and none that it does not know. *)
Theorem C117_fits : forall line an, parse_single_analysis line = Ok an -> fits an.
Proof.
  intros line an H. unfold parse_single_analysis in H. destruct (split line) as [|d toks]; [discriminate|].
  destruct (dget streqb specs (directive_type d)) as [tbl|] eqn:SP; [|discriminate].
  apply (dget_In streqb streqb_spec) in SP. set (ty := directive_type d) in *. clearbody ty.
  apply bindr_Ok in H. destruct H as (an1 & P & H).
  destruct (parse_params_keys tbl _ toks an1 (C45_tables ty tbl (or_introl SP)) P) as (A & O & ND); [repeat constructor; auto|].
  assert (SUB : forall k, dget streqb an1 k <> None -> k = lit "type" \/ In k (map s_dest tbl)).
  { intros k K. destruct (in_dec (list_eq_dec ascii_dec) k (map s_dest tbl)) as [I1|I1]; [auto|]. left.
    rewrite (O k I1) in K. cbn [dget] in K. destruct (streqb_spec k (lit "type")); [assumption|congruence]. }
  assert (T : inb (lit "type") (map s_dest tbl) = false -> dget streqb an1 (lit "type") = Some (VStr ty)).
  { intros N. rewrite (O (lit "type")); [reflexivity|]. intros K. apply inb_In in K. congruence. }
  assert (A' : forall k, In k (map s_dest tbl) -> dget streqb an1 k <> None).
  { intros k K. apply in_map_iff in K. destruct K as (t & <- & K). apply A. exact K. }
  clear A O P.
  destruct (streqb_spec ty (lit "tran")) as [->|NT].
  - assert (tbl = tran_table) as -> by (cbn in SP; repeat destruct SP as [SP|SP]; try contradiction; congruence).
    specialize (T eq_refl). unfold tran_uic in H. destruct (dget streqb an1 (lit "uic")) as [v|]; [|discriminate].
    assert (KK : forall an2, (forall k, dget streqb an2 k <> None <-> dget streqb (ddel streqb an1 (lit "uic")) k <> None) ->
       dget streqb an2 (lit "type") = dget streqb (ddel streqb an1 (lit "uic")) (lit "type") -> fits an2).
    { intros an2 E E2. apply (fits_keys an2 (lit "tran") (map lit ["tstep"; "tstop"; "tstart"; "x0"; "method"]%string)); [| | |vm_compute; reflexivity].
      - rewrite E2, (dget_ddel streqb streqb_spec) by exact ND. exact T.
      - intros k K. apply E. rewrite (dget_ddel streqb streqb_spec) by exact ND.
        assert (Q : k <> lit "uic" /\ In k (map s_dest tran_table)); [|destruct Q as [Q1 Q2]; destruct (streqb_spec k (lit "uic")); [congruence|apply A'; exact Q2]].
        cbn in K. split; [intros ->; repeat destruct K as [K|K]; try discriminate; exact K|]. cbn. intuition.
      - intros k K. apply E in K. rewrite (dget_ddel streqb streqb_spec) in K by exact ND.
        destruct (streqb_spec k (lit "uic")) as [|NU]; [congruence|]. destruct (SUB k K) as [|IK]; [auto|]. right.
        cbn in IK. cbn. intuition. }
    assert (KX : forall x, fits (dset streqb (ddel streqb an1 (lit "uic")) (lit "x0") x)).
    { intros x. apply KK.
      - intros k. rewrite (dget_dset streqb streqb_spec). destruct (streqb_spec k (lit "x0")) as [->|]; [|tauto]. split; [|discriminate].
        intros _. rewrite (dget_ddel streqb streqb_spec) by exact ND. apply A'. cbn. auto 10.
      - rewrite (dget_dset streqb streqb_spec). reflexivity. }
    destruct v as [| |dd| |]; try discriminate.
    repeat (match type of H with context [if ?b then _ else _] => destruct b end; try (injection H as <-; apply KX)); [|discriminate].
    injection H as <-. apply KK; [tauto|reflexivity].
  - destruct (streqb_spec ty (lit "pz")) as [->|NP].
    + assert (tbl = pz_table) as -> by (cbn in SP; repeat destruct SP as [SP|SP]; try contradiction; congruence).
      assert (E : an = dset streqb an1 (lit "x0") (VStr (lit "op"))) by (symmetry; injection H; auto). subst an. clear H.
      apply (fits_keys _ (lit "pz") (lit "x0" :: map s_dest pz_table)); [| | |vm_compute; reflexivity].
      * rewrite (dget_dset streqb streqb_spec). apply T. reflexivity.
      * intros k K. rewrite (dget_dset streqb streqb_spec). destruct (streqb_spec k (lit "x0")) as [|NK]; [discriminate|].
        destruct K as [K|K]; [congruence|]. apply A'. exact K.
      * intros k. rewrite (dget_dset streqb streqb_spec). destruct (streqb_spec k (lit "x0")) as [->|NK]; [intros _; right; left; reflexivity|].
        intros K. destruct (SUB k K); [auto|right; right; assumption].
    + injection H as <-. apply (fits_keys _ ty (map s_dest tbl)); [|exact A'|exact SUB|].
      * apply T. cbn in SP. repeat destruct SP as [SP|SP]; try contradiction; injection SP as <- <-; vm_compute; reflexivity.
      * cbn in SP. repeat destruct SP as [SP|SP]; try contradiction; injection SP as <- <-; try (exfalso; apply NT; reflexivity); try (exfalso; apply NP; reflexivity); vm_compute; reflexivity.
Qed.
Print Assumptions C117_fits.
Example C117_example : exists an, parse_single_analysis (lit ".tran tstep=1m tstop=1 uic=1") = Ok an /\
  fits an /\ dget streqb an (lit "x0") = Some (VStr (lit "op")) /\ dget streqb an (lit "uic") = None.
Proof.
  destruct (parse_single_analysis (lit ".tran tstep=1m tstop=1 uic=1")) as [an|] eqn:E; [|vm_compute in E; discriminate].
  exists an. split; [reflexivity|]. split; [exact (C117_fits _ _ E)|]. vm_compute in E. injection E as <-. auto.
Qed.
