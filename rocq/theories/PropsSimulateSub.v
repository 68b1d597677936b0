(** From the text of a netlist with subcircuits to the results (C209-C211). *)
From Coq Require Import Ascii String Reals List Bool Arith ZArith Lia Lra.
From Verif Require Import Base BaseFacts Str Units Directive Lines Reader Netlist ModelLines Nodes NodesFacts Circuit CircuitFacts Rsum Mna MnaSpec DcSolve Newton
  NewtonFacts DynFacts Csv Results PropsReader PropsNetlist PropsResults PropsMna PropsDc Session Subckt PropsSubckt Simulate PropsSimulate SimulateSub.
From Verif Require PropsSimulateAc.
Import ListNotations.
Open Scope R_scope.

(** * What a netlist with subcircuits stands for *)

(** The lines of a place, the netlist or a subcircuit: elements, and instances with their
    label, the name of the subcircuit, the connections (port, node) and the lines of the
    subcircuit. *)
Inductive hier :=
| HNil
| HElem (e : pelem) (rest : hier)
| HInst (label sub : str) (conn : list (str * str)) (body rest : hier).

(** The word [port=node]. *)
Definition tie (c : str * str) : str := fst c ++ c_eq :: snd c.
(** A name that can be used in such a word. *)
Definition bare (s : str) : Prop := s <> [] /\ starred s = false /\ ~ In c_eq s.

Section Text.
  Variable models : list (str * mtype).
  (** The declarations: the name, the ports and the lines. *)
  Variable subs : list (str * (list str * list str)).

  (** [X... name=sub port=node ...], the words after the first in any order, maybe a comment. *)
  Definition instance_line (line label sub : str) (conn : list (str * str)) : Prop :=
    begins "x" line /\
    exists c1 c2 comment, split line = label :: map tie c1 ++ tie (lit "name", sub) :: map tie c2 ++ comment /\
      conn = c1 ++ c2 /\ match comment with [] => True | w :: _ => starred w = true end /\
      Forall (fun c => bare (fst c) /\ bare (snd c) /\ fst c <> lit "name") conn /\ NoDup (map fst conn) /\ bare sub.

  Inductive place_of : list str -> hier -> Prop :=
  | pl_nil : place_of [] HNil
  | pl_elem : forall line lines e rest, describes models line e -> place_of lines rest -> place_of (line :: lines) (HElem e rest)
  | pl_inst : forall line lines label sub conn ports code body rest,
      instance_line line label sub conn -> In (sub, (ports, code)) subs -> (forall p, In p ports <-> In p (map fst conn)) ->
      place_of code body -> place_of lines rest -> place_of (line :: lines) (HInst label sub conn body rest).
End Text.

(** How deep the instances are nested. *)
Fixpoint depth (h : hier) : nat :=
  match h with HNil => 0 | HElem _ r => depth r | HInst _ _ _ b r => Nat.max (S (depth b)) (depth r) end.

(** A declaration. *)
Definition declares (lines : list str) (d : str * (list str * list str)) : Prop :=
  exists head comment, lines = head :: snd (snd d) /\ split head = lit ".subckt" :: fst d :: fst (snd d) ++ comment /\
    match comment with [] => True | w :: _ => starred w = true end /\
    Forall (fun p => starred p = false /\ ~ begins "0" p) (fst (snd d)).

(** The circuit: inside an instance the ports are the nodes they are connected to, ground is
    ground, and all other names are those of the instance.  The full names are those of
    C28. *)
Definition inner (p : path) (env : str -> hnode) (label sub : str) (conn : list (str * str)) (n : str) : hnode :=
  match dget streqb conn n with
  | Some m => env m
  | None => if streqb n (lit "0") then env (lit "0") else (p ++ [(label, sub)], n)
  end.
Fixpoint flatten (p : path) (env : str -> hnode) (h : hier) : list pelem :=
  match h with
  | HNil => []
  | HElem e r => ren (fun n => node_name (env n)) (elem_name p) e :: flatten p env r
  | HInst l s c b r => flatten (p ++ [(l, s)]) (inner p env l s c) b ++ flatten p env r
  end.

(** Names without '-', not those of ground for ports. *)
Fixpoint plain_names (h : hier) : Prop :=
  match h with
  | HNil => True
  | HElem e r => pid e <> [] /\ Forall plain (nodes_in e) /\ plain_names r
  | HInst l s c b r => plain l /\ plain s /\ Forall (fun x => plain (fst x) /\ plain (snd x) /\ fst x <> lit "0") c /\ NoDup (map fst c) /\ plain_names b /\ plain_names r
  end.

(** * Lemmas *)
Lemma ren_ext : forall f f' g g' e, (forall n, In n (nodes_in e) -> f n = f' n) -> g (pid e) = g' (pid e) -> ren f g e = ren f' g' e.
Proof. intros f f' g g' e F G. destruct e; cbn [nodes_in pid ren] in *; rewrite ?G, ?F by (cbn; auto 6); reflexivity. Qed.
Lemma ren_ren : forall f f' g g' e, ren f g (ren f' g' e) = ren (fun n => f (f' n)) (fun n => g (g' n)) e.
Proof. destruct e; reflexivity. Qed.
Lemma ren_id : forall e, ren (fun n => n) (fun n => n) e = e.
Proof. destruct e; reflexivity. Qed.
Lemma ren_pid : forall f g e, pid (ren f g e) = g (pid e).
Proof. destruct e; reflexivity. Qed.
Lemma ren_nodes : forall f g e, nodes_in (ren f g e) = map f (nodes_in e).
Proof. destruct e; reflexivity. Qed.

(** ** The model computes [flatten] *)
Fixpoint local (h : hier) : list pelem :=
  match h with
  | HNil => []
  | HElem e r => e :: local r
  | HInst l s c b r => map (ren (local_name (prefix l s) c) (new_id (prefix l s))) (local b) ++ local r
  end.
Lemma local_ids : forall h, plain_names h -> Forall (fun e => pid e <> []) (local h).
Proof.
  induction h as [|e r IH|l s c b IHb r IHr]; cbn [local plain_names]; intros P; [constructor|constructor; [apply P|apply IH, P]|].
  apply Forall_app. split; [|apply IHr, P]. apply Forall_map. eapply Forall_impl; [|apply IHb, P].
  intros e E. cbv beta. rewrite ren_pid. destruct (pid e) eqn:Q; [congruence|discriminate].
Qed.
Lemma inner_env_of : forall p env l s c n, inner p env l s c n = env_of p env l s c n.
Proof. reflexivity. Qed.
Lemma local_flatten : forall h p env add, plain_names h -> renders p env add -> map (ren add (elem_name p)) (local h) = flatten p env h.
Proof.
  induction h as [|e r IH|l s c b IHb r IHr]; intros p env add P RD; cbn [local flatten map]; [reflexivity| |].
  - rewrite (IH p env add) by (try exact RD; apply P). f_equal. apply ren_ext; [|reflexivity].
    intros n N. apply RD. destruct P as (_ & P & _). rewrite Forall_forall in P. auto.
  - rewrite map_app, (IHr p env add) by (try exact RD; apply P). f_equal. rewrite map_map.
    destruct P as (P1 & P2 & P3 & P4 & P5 & P6).
    rewrite <- (IHb (p ++ [(l, s)]) (inner p env l s c) (fun n => add (local_name (prefix l s) c n))).
    + apply map_ext_in. intros e E. rewrite ren_ren. apply ren_ext; [reflexivity|].
      pose proof (local_ids b P5) as Q. rewrite Forall_forall in Q. specialize (Q _ E). destruct (pid e) as [|x y] eqn:Z; [congruence|].
      cbn [new_id]. symmetry. apply elem_name_snoc.
    + exact P5.
    + apply renders_inst; [exact RD|]. cbn. auto.
Qed.
Lemma flatten_top : forall h, plain_names h -> flatten [] top h = local h.
Proof.
  intros h P. rewrite <- (local_flatten h [] top (fun n => n) P renders_top). rewrite <- (map_id (local h)) at 2.
  apply map_ext_in. intros e E. rewrite <- (ren_id e) at 2. apply ren_ext; [reflexivity|]. cbn. destruct (pid e); reflexivity.
Qed.

(** ** The lines are read as they stand *)
Lemma tie_text : forall c, bare (fst c) -> bare (snd c) -> param_text (tie c) = c /\ starred (tie c) = false.
Proof.
  intros [a b] (A1 & A2 & A3) (B1 & B2 & B3). cbn [fst snd] in *. unfold tie, param_text. cbn [fst snd].
  assert (NA : no_eq a) by (apply Forall_forall; intros x X; unfold is_eq; destruct (ascii_dec x c_eq); [subst; contradiction|reflexivity]).
  assert (NB : no_eq b) by (apply Forall_forall; intros x X; unfold is_eq; destruct (ascii_dec x c_eq); [subst; contradiction|reflexivity]).
  rewrite eq_once, eq_span by assumption. cbn [tl]. split; [reflexivity|]. destruct a; [congruence|exact A2].
Qed.
Lemma inst_params_app : forall l d ts, Forall (fun c => bare (fst c) /\ bare (snd c)) l -> NoDup (map fst (d ++ l)) -> inst_params (map tie l ++ ts) d = inst_params ts (d ++ l).
Proof.
  induction l as [|c l IH]; intros d ts B ND; cbn [map app]; [rewrite app_nil_r; reflexivity|]. inversion B as [|? ? (B1 & B2) B']; subst. cbn [inst_params].
  destruct (tie_text c B1 B2) as [T1 T2]. rewrite T2, T1.
  assert (D : dset streqb d (fst c) (snd c) = d ++ [c]).
  { rewrite map_app in ND. cbn [map] in ND. assert (NI : ~ In (fst c) (map fst d)) by (intros Q; apply NoDup_remove_2 in ND; apply ND; apply in_app_iff; auto).
    clear - NI. induction d as [|[a b] d IHd]; cbn [dset app]; [destruct c; reflexivity|].
    destruct (PropsSubckt.streqb_spec (fst c) a) as [E|E]; [exfalso; apply NI; left; symmetry; exact E|]. f_equal. apply IHd. intros Q. apply NI. right. exact Q. }
  rewrite D, IH; [rewrite <- app_assoc; reflexivity|exact B'|rewrite <- app_assoc; exact ND].
Qed.
Lemma params_of : forall sub c1 c2 comment, Forall (fun c => bare (fst c) /\ bare (snd c) /\ fst c <> lit "name") (c1 ++ c2) -> NoDup (map fst (c1 ++ c2)) -> bare sub ->
  match comment with [] => True | w :: _ => starred w = true end ->
  let ps := inst_params (map tie c1 ++ tie (lit "name", sub) :: map tie c2 ++ comment) [] in
  dget streqb ps (lit "name") = Some sub /\ filter (fun p => negb (streqb (fst p) (lit "name"))) ps = c1 ++ c2.
Proof.
  intros sub c1 c2 comment B ND BS CM ps.
  assert (BN : bare (lit "name")) by (split; [discriminate|split; [reflexivity|intros [Q|[Q|[Q|[Q|[]]]]]; discriminate Q]]).
  assert (E : ps = c1 ++ (lit "name", sub) :: c2).
  { unfold ps. change (map tie c1 ++ tie (lit "name", sub) :: map tie c2 ++ comment) with (map tie c1 ++ map tie ((lit "name", sub) :: c2) ++ comment).
    rewrite app_assoc, <- map_app. rewrite inst_params_app.
    - cbn [app]. destruct comment as [|w cm]; [reflexivity|]. cbn [inst_params]. rewrite CM. reflexivity.
    - apply Forall_app in B. destruct B as [B1 B2]. apply Forall_app. split; [eapply Forall_impl; [|exact B1]; intros c (C1 & C2 & _); split; assumption|constructor; [auto|eapply Forall_impl; [|exact B2]; intros c (C1 & C2 & _); split; assumption]].
    - cbn [app]. rewrite map_app in *. cbn [map fst]. apply NoDup_Add with (a := lit "name") (l := map fst c1 ++ map fst c2); [apply Add_app|]. split; [exact ND|].
      rewrite <- map_app. intros Q. apply in_map_iff in Q. destruct Q as (c & Q & C). rewrite Forall_forall in B. destruct (B _ C) as (_ & _ & N). exact (N Q). }
  rewrite E. clear E ps. induction c1 as [|c c1 IH].
  - cbn [app dget filter fst negb]. rewrite (eqb_refl_ streqb PropsSubckt.streqb_spec). cbn [negb]. split; [reflexivity|].
    rewrite Forall_forall in B. clear - B. induction c2 as [|c c2 IH]; [reflexivity|]. cbn [filter].
    destruct (PropsSubckt.streqb_spec (fst c) (lit "name")) as [Q|Q]; [exfalso; destruct (B c) as (_ & _ & N); [left; reflexivity|auto]|]. cbn [negb]. f_equal. apply IH.
    intros x X. apply B. right. exact X.
  - cbn [app] in *. inversion B as [|? ? (_ & _ & N) B']; subst. inversion ND as [|? ? _ ND']; subst. destruct (IH B' ND') as [I1 I2]. destruct c as [a b]. cbn [fst] in *. cbn [dget filter fst].
    destruct (PropsSubckt.streqb_spec (lit "name") a) as [Q|Q]; [congruence|]. destruct (PropsSubckt.streqb_spec a (lit "name")) as [Q'|Q']; [congruence|]. cbn [negb].
    split; [exact I1|f_equal; exact I2].
Qed.
Definition stexts (subs : list (str * (list str * list str))) : list (str * stext) := map (fun d => (fst d, mkText (fst (snd d)) (snd (snd d)))) subs.
Lemma stexts_get : forall subs s ports code, NoDup (map fst subs) -> In (s, (ports, code)) subs -> dget streqb (stexts subs) s = Some (mkText ports code).
Proof.
  intros subs s ports code ND H. apply (In_dget streqb PropsSubckt.streqb_spec).
  - unfold stexts, dkeys. rewrite map_map. exact ND.
  - unfold stexts. apply in_map_iff. exists (s, (ports, code)). auto.
Qed.
Lemma place_lines : forall models user subs, NoDup (map fst subs) -> forall lines h, place_of models subs lines h -> forall fuel acc, (depth h < fuel)%nat \/ (depth h = 0)%nat ->
  main_netlist_parser models (sub_line models user (stexts subs) fuel) lines acc = Ok (acc ++ local h).
Proof.
  intros models user subs ND lines h H. induction H as [|line lines e rest (c & B & SX) H IH|line lines label sub conn ports code body rest (B & c1 & c2 & cm & SP & -> & CM & BA & NK & BS) IN PO H1 IH1 H2 IH2]; intros fuel acc LF.
  - cbn [main_netlist_parser local]. rewrite app_nil_r. reflexivity.
  - cbn [main_netlist_parser local depth] in *. rewrite (C129_documented models _ line acc c _ e B eq_refl SX). cbn [bindr]. rewrite (IH fuel) by exact LF. rewrite <- app_assoc. reflexivity.
  - cbn [main_netlist_parser local depth] in *. destruct fuel as [|fuel]; [lia|].
    assert (PL : parse_line models (sub_line models user (stexts subs) (S fuel)) line acc =
      Ok (map (ren (local_name (prefix label sub) (c1 ++ c2)) (new_id (prefix label sub))) (local body))).
    { destruct B as (r & ->). unfold parse_line, parse_letter. cbv zeta.
      repeat match goal with |- context [ascii_dec ?a ?b] => let v := eval vm_compute in (ascii_dec a b) in change (ascii_dec a b) with v end.
      cbv iota. cbn [orb]. cbn [sub_line]. change (first_is "x" ("x"%char :: r)) with true. cbn [negb]. rewrite SP. cbn [tl].
      destruct (params_of sub c1 c2 cm BA NK BS CM) as [P1 P2].
      assert (NE : exists w ws, map tie c1 ++ tie (lit "name", sub) :: map tie c2 ++ cm = w :: ws) by (destruct (map tie c1); cbn; eauto).
      destruct NE as (w & ws & NE). rewrite NE in *. cbv beta iota zeta. rewrite P1, (stexts_get subs sub ports code ND IN), P2. cbn [st_ports st_code].
      assert (F1 : forallb (fun p => mem (fst p) ports) (c1 ++ c2) = true).
      { apply forallb_forall. intros p P. apply mem_In, PO, in_map. exact P. }
      assert (F2 : forallb (fun n => mem n (map fst (c1 ++ c2))) ports = true) by (apply forallb_forall; intros n N; apply mem_In, PO; exact N).
      rewrite F1, F2. cbn [negb]. rewrite (IH1 fuel []) by lia. reflexivity. }
    rewrite PL. cbn [bindr]. rewrite (IH2 (S fuel)) by lia. rewrite <- app_assoc. reflexivity.
Qed.
Lemma sub_ports_of : forall ports comment, match comment with [] => True | w :: _ => starred w = true end ->
  Forall (fun p => starred p = false /\ ~ begins "0" p) ports -> sub_ports (ports ++ comment) = Ok ports.
Proof.
  intros ports comment CM B. induction ports as [|p ports IH]; cbn [app sub_ports].
  - destruct comment as [|w cm]; [reflexivity|]. cbn [sub_ports]. rewrite CM.
    destruct w as [|x w]; [discriminate CM|]. cbn [starred] in CM. destruct (ascii_dec x c_star) as [E|E]; [|discriminate]. rewrite E. reflexivity.
  - inversion B as [|? ? (B1 & B2) B']; subst. rewrite B1, (IH B'). destruct (first_is "0" p) eqn:Q; [|reflexivity].
    exfalso. apply B2. destruct p as [|x p]; [discriminate Q|]. unfold first_is in Q. destruct (ascii_dec x "0") as [E|E]; [|discriminate]. exists p. rewrite E. reflexivity.
Qed.
Lemma parse_subs_of : forall ls subs, Forall2 declares ls subs -> forall d, NoDup (map fst (d ++ subs)) -> parse_subs ls (stexts d) = Ok (stexts (d ++ subs)).
Proof.
  intros ls subs H. induction H as [|lines [name [ports code]] ls subs (head & cm & -> & SP & CM & B) H IH]; intros d ND; cbn [parse_subs]; [rewrite app_nil_r; reflexivity|].
  cbn [fst snd] in *. unfold parse_sub_declaration. rewrite SP. rewrite (eqb_refl_ streqb PropsSubckt.streqb_spec). cbn [negb]. rewrite (sub_ports_of ports cm CM B). cbn [bindr].
  assert (N : dget streqb (stexts d) name = None).
  { apply (dget_None_notin streqb PropsSubckt.streqb_spec). unfold stexts, dkeys. rewrite map_map. cbn [fst]. rewrite map_app in ND. cbn [map fst] in ND. intros Q.
    apply NoDup_remove_2 in ND. apply ND, in_app_iff. left. exact Q. }
  rewrite N.
  assert (D : dset streqb (stexts d) name (mkText ports code) = stexts (d ++ [(name, (ports, code))])).
  { revert N. clear. induction d as [|[a b] d IH]; intros N; cbn [stexts map dset app fst snd dget] in *; [reflexivity|].
    destruct (PropsSubckt.streqb_spec name a) as [E|E]; [discriminate|]. f_equal. apply IH, N. }
  rewrite D, IH by (rewrite <- app_assoc; exact ND). rewrite <- app_assoc. reflexivity.
Qed.

(** * C209: the text *)

(** A netlist with subcircuits, declarations and instances in the documented syntax, is read
    as the elements of the circuit it stands for, and is refused only if these do not make a
    circuit. *)
Theorem C209_text : forall fs user dep fuel filename title fp bs ps rest models subs h,
  fs filename = Some (title :: fp) -> holds fs (path_dir filename) fp bs ps -> visits fs (path_dir filename) ps rest -> (List.length rest < fuel)%nat ->
  let all := (bs ++ concat rest)%list in
  parse_models (of_kind KModel (texts all)) [] = Ok models ->
  Forall2 declares (sub_lines all) subs -> NoDup (map fst subs) ->
  place_of (map (fun m => (fst m, fst (snd m))) models) subs (main_lines all) h -> plain_names h -> (depth h < dep)%nat ->
  (a_circuit (flatten [] top h) -> exists t es, load_all fs user dep fuel filename = Ok (flatten [] top h, t, es)) /\
  (~ a_circuit (flatten [] top h) -> load_all fs user dep fuel filename = Err SystemExit).
Proof.
  intros fs user dep fuel filename title fp bs ps rest models subs h F H V LF all PM DC ND PO PN DF.
  destruct (C113_groups fs filename title fp bs ps rest fuel F H V LF) as (s & R & _ & _ & MO & _ & LI & SU). fold all in MO, LI, SU.
  unfold load_all. rewrite R. cbn [bindr]. rewrite MO, PM, LI, SU. cbn [bindr].
  change (@nil (str * stext)) with (stexts []). rewrite (parse_subs_of _ subs DC []) by exact ND. cbn [bindr app]. cbv zeta.
  rewrite (place_lines _ user subs ND _ h PO dep [] (or_introl DF)). cbn [bindr app]. rewrite <- (flatten_top h PN).
  assert (T0 : tinv empty_ntab) by (exists false, 0%nat; apply ninv_empty).
  destruct (place_all_total (flatten [] top h) empty_ntab T0) as (t & es & PA & _). rewrite PA. cbn [bindr].
  pose proof (check_placed (flatten [] top h) t es PA) as CK. destruct (fst (check_circuit (mkCirc (map as_celem es) t []))).
  - split; [intros _; eauto|]. intros N. exfalso. apply N, CK. reflexivity.
  - split; [intros A; apply CK in A; discriminate|reflexivity].
Qed.
Print Assumptions C209_text.

(** An instance of a subcircuit that is not declared, or with other ports than the declared
    ones, is reported, wherever it stands in the netlist. *)
Lemma main_then : forall models other a b acc, main_netlist_parser models other (a ++ b) acc = bindr (main_netlist_parser models other a acc) (main_netlist_parser models other b).
Proof.
  intros models other a. induction a as [|x a IH]; intros b acc; [reflexivity|]. cbn [app main_netlist_parser]. destruct (parse_line models other x acc); [cbn [bindr]; apply IH|reflexivity].
Qed.
Theorem C209_errors : forall fs user dep fuel filename title fp bs ps rest models subs before h line after label sub conn,
  fs filename = Some (title :: fp) -> holds fs (path_dir filename) fp bs ps -> visits fs (path_dir filename) ps rest -> (List.length rest < fuel)%nat ->
  let all := (bs ++ concat rest)%list in
  parse_models (of_kind KModel (texts all)) [] = Ok models ->
  Forall2 declares (sub_lines all) subs -> NoDup (map fst subs) ->
  main_lines all = before ++ line :: after ->
  place_of (map (fun m => (fst m, fst (snd m))) models) subs before h -> (depth h < dep)%nat ->
  instance_line line label sub conn ->
  (forall ports code, In (sub, (ports, code)) subs -> ~ (forall p, In p ports <-> In p (map fst conn))) ->
  load_all fs user dep fuel filename = Err NetlistParseError.
Proof.
  intros fs user dep fuel filename title fp bs ps rest models subs before h line after label sub conn F H V LF all PM DC ND ML PO DF (B & c1 & c2 & cm & SP & EC & CM & BA & NK & BS) BAD.
  destruct (C113_groups fs filename title fp bs ps rest fuel F H V LF) as (s & R & _ & _ & MO & _ & LI & SU). fold all in MO, LI, SU.
  unfold load_all. rewrite R. cbn [bindr]. rewrite MO, PM, LI, SU. cbn [bindr].
  change (@nil (str * stext)) with (stexts []). rewrite (parse_subs_of _ subs DC []) by exact ND. cbn [bindr app]. cbv zeta.
  rewrite ML, main_then, (place_lines _ user subs ND _ h PO dep [] (or_introl DF)). cbn [bindr main_netlist_parser]. destruct dep as [|dep]; [lia|].
  set (kinds := map (fun m => (fst m, fst (snd m))) models) in *.
  assert (PL : forall acc, parse_line kinds (sub_line kinds user (stexts subs) (S dep)) line acc = Err NetlistParseError); [|rewrite PL; reflexivity].
  intros acc. subst conn. destruct B as (r & ->). unfold parse_line, parse_letter. cbv zeta.
  repeat match goal with |- context [ascii_dec ?a ?b] => let v := eval vm_compute in (ascii_dec a b) in change (ascii_dec a b) with v end.
  cbv iota. cbn [orb]. cbn [sub_line]. change (first_is "x" ("x"%char :: r)) with true. cbn [negb]. rewrite SP.
  destruct (params_of sub c1 c2 cm BA NK BS CM) as [P1 P2].
  assert (NE : exists w ws, map tie c1 ++ tie (lit "name", sub) :: map tie c2 ++ cm = w :: ws) by (destruct (map tie c1); cbn; eauto).
  destruct NE as (w & ws & NE). rewrite NE in *. cbv beta iota zeta. rewrite P1, P2. destruct (dget streqb (stexts subs) sub) as [x|] eqn:D; [|reflexivity].
  apply (dget_In streqb PropsSubckt.streqb_spec) in D. unfold stexts in D. apply in_map_iff in D. destruct D as ([sub' [ports code]] & E & D). cbn [fst snd] in E. injection E as -> <-. cbn [st_ports st_code].
  destruct (forallb (fun p => mem (fst p) ports) (c1 ++ c2)) eqn:F1; cbn [negb]; [|reflexivity].
  destruct (forallb (fun n => mem n (map fst (c1 ++ c2))) ports) eqn:F2; cbn [negb]; [|reflexivity].
  exfalso. apply (BAD ports code D). rewrite forallb_forall in F1, F2. intros p. split; intros Q.
  - apply mem_In, F2, Q.
  - apply in_map_iff in Q. destruct Q as (x & <- & Q). apply mem_In, F1, Q.
Qed.
Print Assumptions C209_errors.

(** ** The names of instances are words in lower case *)
Definition good (s : str) : Prop := low s /\ PropsResults.plain s.
Lemma good_app : forall a b, good (a ++ b) <-> good a /\ good b.
Proof. intros a b. unfold good, low, PropsResults.plain. rewrite !Forall_app. tauto. Qed.
Lemma good_cons : forall c s, good (c :: s) <-> good [c] /\ good s.
Proof. intros c s. apply (good_app [c] s). Qed.
Lemma good_dash : good [dash].
Proof. split; repeat constructor. Qed.
Lemma good_split : forall s, low s -> Forall good (split s).
Proof.
  intros s L. pose proof (low_split s L) as A. pose proof (PropsSimulateAc.plain_split s) as B. rewrite Forall_forall in *. intros x X. split; auto.
Qed.
Lemma good_prefix : forall l s, good l -> good s -> good (prefix l s).
Proof. intros l s L S'. unfold prefix. apply good_app. split; [exact L|]. apply good_cons. split; [exact good_dash|]. apply good_app. split; [exact S'|exact good_dash]. Qed.
Lemma good_new_id : forall p id, good p -> good id -> good (new_id p id).
Proof. intros p [|c r] P D; [exact D|]. apply good_cons in D. cbn [new_id]. apply good_cons. split; [apply D|]. apply good_cons. split; [exact good_dash|]. apply good_app. split; [exact P|apply D]. Qed.
Lemma good_span : forall f s, good s -> good (fst (span f s)) /\ good (snd (span f s)).
Proof.
  intros f s. induction s as [|c s IH]; intros G; cbn [span]; [split; exact G|]. destruct (f c); [|split; [split; constructor|exact G]].
  apply good_cons in G. destruct G as [G1 G2]. destruct (IH G2) as [A B]. destruct (span f s) as [x y]. cbn [fst snd] in *. split; [apply good_cons; auto|exact B].
Qed.
Lemma good_param : forall t, good t -> good (snd (param_text t)).
Proof.
  intros t G. unfold param_text. destruct (is_valid_value_param_string t); [|split; constructor]. pose proof (good_span (fun c => negb (is_eq c)) t G) as [_ B].
  destruct (span (fun c => negb (is_eq c)) t) as [x y]. cbn [snd] in *. destruct y as [|c y]; [exact B|]. apply good_cons in B. apply B.
Qed.
Lemma good_dset : forall (d : list (str * str)) k v, Forall (fun c => good (snd c)) d -> good v -> Forall (fun c => good (snd c)) (dset streqb d k v).
Proof.
  induction d as [|[a b] d IH]; intros k v D G; cbn [dset]; [constructor; [exact G|constructor]|]. inversion D as [|? ? D1 D2]; subst.
  destruct (streqb k a); constructor; auto.
Qed.
Lemma good_params : forall ts d, Forall good ts -> Forall (fun c => good (snd c)) d -> Forall (fun c => good (snd c)) (inst_params ts d).
Proof.
  induction ts as [|t ts IH]; intros d T D; cbn [inst_params]; [exact D|]. destruct (starred t); [exact D|]. apply IH; [exact (Forall_inv_tail T)|].
  apply good_dset; [exact D|]. apply good_param, (Forall_inv T).
Qed.
Lemma good_word_names : forall e, PropsSimulateAc.word_names e <-> (slower (pid e) = pid e /\ PropsResults.plain (pid e)) /\ Forall (fun n => slower n = n /\ PropsResults.plain n) (nodes_in e).
Proof. intros e. unfold PropsSimulateAc.word_names, lower_case. rewrite !Forall_forall. split; [intros ((A & B) & C & D)|intros ((A & B) & C)]; repeat split; auto; intros n N; apply (C n N). Qed.
Lemma low_iff : forall s, slower s = s <-> low s.
Proof.
  intros s. split; [|apply low_eq]. induction s as [|c s IH]; intros H; [constructor|]. cbn [slower map] in H. injection H as H1 H2. constructor; [exact H1|apply IH, H2].
Qed.
Lemma word_ren : forall f g e, (forall n, good n -> good (f n)) -> (forall i, good i -> good (g i)) -> PropsSimulateAc.word_names e -> PropsSimulateAc.word_names (ren f g e).
Proof.
  intros f g e F G W. apply good_word_names in W. destruct W as [[W1 W2] W3]. apply good_word_names. rewrite ren_pid, ren_nodes.
  rewrite low_iff in *. split; [apply G; split; assumption|]. apply Forall_map. eapply Forall_impl; [|exact W3]. intros n (N1 & N2). rewrite low_iff in *. apply F. split; assumption.
Qed.

(** The function on words in lower case only. *)
Definition lowb (s : str) : bool := forallb (fun c => if ascii_dec (lower_ascii c) c then true else false) s.
Lemma lowb_spec : forall s, lowb s = true <-> low s.
Proof.
  intros s. unfold lowb, low. rewrite forallb_forall, Forall_forall. split; intros H c C; specialize (H c C); cbv beta in *; destruct (ascii_dec (lower_ascii c) c); congruence.
Qed.
Definition lows (other : str -> res (list pelem)) (x : str) : res (list pelem) := if lowb x then other x else Err NetlistParseError.
Lemma main_ext : forall models o1 o2 lines acc, (forall x, In x lines -> o1 x = o2 x) -> main_netlist_parser models o1 lines acc = main_netlist_parser models o2 lines acc.
Proof.
  intros models o1 o2 lines. induction lines as [|x lines IH]; intros acc H; [reflexivity|]. cbn [main_netlist_parser].
  assert (P : parse_line models o1 x acc = parse_line models o2 x acc) by (destruct x as [|c x]; [reflexivity|]; unfold parse_line, parse_letter; rewrite (H (c :: x)) by (left; reflexivity); reflexivity).
  rewrite P. destruct (parse_line models o2 x acc); [|reflexivity]. cbn [bindr]. apply IH. intros y Y. apply H. right. exact Y.
Qed.
Lemma main_lows : forall models o lines acc, Forall low lines -> main_netlist_parser models (lows o) lines acc = main_netlist_parser models o lines acc.
Proof.
  intros models o lines acc L. apply main_ext. intros x X. unfold lows. rewrite Forall_forall in L. rewrite (proj2 (lowb_spec x) (L x X)). reflexivity.
Qed.
Lemma word_parts : forall models other, (forall x l, other x = Ok l -> Forall PropsSimulateAc.word_names l) ->
  forall lines acc parts, Forall low lines -> Forall PropsSimulateAc.word_names acc -> main_netlist_parser models other lines acc = Ok parts -> Forall PropsSimulateAc.word_names parts.
Proof.
  intros models other OT lines acc parts L A H.
  assert (S1 : forall x l, other x = Ok l -> Forall lower_case l) by (intros x l Q; eapply Forall_impl; [|exact (OT x l Q)]; intros e E; apply E).
  assert (S2 : forall x l, other x = Ok l -> Forall PropsSimulateAc.plain_names l) by (intros x l Q; eapply Forall_impl; [|exact (OT x l Q)]; intros e E; apply E).
  assert (A1 : Forall lower_case acc) by (eapply Forall_impl; [|exact A]; intros e E; apply E).
  assert (A2 : Forall PropsSimulateAc.plain_names acc) by (eapply Forall_impl; [|exact A]; intros e E; apply E).
  pose proof (lower_case_parts models other S1 lines acc parts L A1 H) as P1. pose proof (PropsSimulateAc.plain_parts models other S2 lines acc parts A2 H) as P2.
  rewrite Forall_forall in *. intros e E. split; [apply P1, E|apply P2, E].
Qed.
Lemma sub_line_words : forall models user subs, (forall x l, user x = Ok l -> Forall PropsSimulateAc.word_names l) ->
  (forall n s, dget streqb subs n = Some s -> Forall low (st_code s)) ->
  forall fuel line l, low line -> sub_line models user subs fuel line = Ok l -> Forall PropsSimulateAc.word_names l.
Proof.
  intros models user subs U SL fuel. induction fuel as [|fuel IH]; intros line l L H; [discriminate H|]. cbn [sub_line] in H.
  destruct (first_is "x" line); cbn [negb] in H; [|exact (U _ _ H)]. pose proof (good_split line L) as W.
  destruct (split line) as [|label [|w ws]]; [discriminate|discriminate|]. cbv zeta in H. inversion W as [|? ? W1 W2]; subst.
  pose proof (good_params (w :: ws) [] W2 (Forall_nil _)) as GP. remember (inst_params (w :: ws) []) as ps eqn:PS. clear PS.
  destruct (dget streqb ps (lit "name")) as [name|] eqn:DN; [|discriminate]. destruct (dget streqb subs name) as [s|] eqn:DS; [|discriminate].
  match type of H with (if negb ?b then _ else _) = _ => destruct b end; cbn [negb] in H; [|discriminate].
  match type of H with (if negb ?b then _ else _) = _ => destruct b end; cbn [negb] in H; [|discriminate].
  rewrite <- main_lows in H by (exact (SL _ _ DS)).
  match type of H with bindr ?m _ = _ => destruct m as [l'|] eqn:M; [|discriminate] end. cbn [bindr] in H. injection H as <-.
  assert (GN : good name) by (apply (dget_In streqb PropsSubckt.streqb_spec) in DN; rewrite Forall_forall in GP; exact (GP _ DN)).
  apply Forall_map. eapply Forall_impl; [|eapply word_parts; [|exact (SL _ _ DS)|constructor|exact M]].
  - intros e E. apply word_ren; [| |exact E].
    + intros n N. unfold local_name. destruct (dget streqb (filter_dict _) n) as [m|] eqn:DM; [|apply good_app; split; [apply good_prefix; assumption|exact N]].
      apply (dget_In streqb PropsSubckt.streqb_spec) in DM. unfold filter_dict in DM.
      assert (GD : Forall (fun c : str * str => good (snd c)) (dset streqb (filter (fun p : list ascii * str => negb (streqb (fst p) (lit "name"))) ps) gnd gnd)).
      { apply good_dset; [|split; repeat constructor]. rewrite Forall_forall in *. intros c C. apply filter_In in C. apply GP, C. }
      rewrite Forall_forall in GD. exact (GD _ DM).
    + intros i. apply good_new_id, good_prefix; assumption.
  - intros x l0 Q. unfold lows in Q. destruct (lowb x) eqn:LB; [|discriminate]. apply (IH x l0); [apply lowb_spec, LB|exact Q].
Qed.
Definition low_state (s : rstate) : Prop := Forall (fun l => low (fst l)) (r_cur s) /\ Forall (Forall (fun l => low (fst l))) (r_subs s).
Lemma low_sub_take : forall fs wd s line s' b, low line -> low_state s -> take_line fs wd s line = Ok (s', b) -> low_state s'.
Proof.
  intros fs wd s line s' b L F H. pose proof F as [F1 F2]. unfold take_line in H. cbv zeta in H.
  repeat match type of H with (if ?c then _ else _) = _ => destruct c end; try discriminate H; try (injection H as <- _; exact F).
  - injection H as <- _. split; [|exact F2]. cbn [open_sub r_cur]. apply Forall_app. split; [exact F1|]. repeat constructor. exact L.
  - injection H as <- _. split; [constructor|]. cbn [close_sub r_subs]. apply Forall_app. split; [exact F2|]. constructor; [exact F1|constructor].
  - destruct (parse_include fs wd line); [|discriminate H]. cbn [bindr] in H. injection H as <- _. exact F.
  - injection H as <- _. split; [|exact F2]. cbn [add_cur r_cur]. apply Forall_app. split; [exact F1|]. repeat constructor. exact L.
Qed.
Lemma low_sub_file : forall fs wd fuel fp s s', low_state s -> read_file fs fuel wd s fp = Ok s' -> low_state s'.
Proof.
  intros fs wd fuel. induction fuel as [|fuel IH]; intros fp s s' F H.
  - destruct fp; [injection H as <-; exact F|discriminate H].
  - destruct fp as [|l fp]; [injection H as <-; exact F|]. cbn [read_file] in H. cbv zeta in H.
    destruct (r_n (at_line s (S (r_n s))) =? 1)%nat; [eapply IH; [|exact H]; exact F|].
    pose proof (low_slower (strip l)) as K. destruct (slower (strip l)) as [|c line]; [eapply IH; [|exact H]; exact F|].
    destruct (join_lines fp (c :: line)) as [line' fp2] eqn:J. pose proof (low_join fp _ K) as K2. rewrite J in K2. cbn [fst] in K2.
    destruct (take_line fs wd (at_line s (S (r_n s))) line') as [[s1 stop]|] eqn:T; [|discriminate H]. cbn [bindr] in H.
    pose proof (low_sub_take _ _ (at_line s (S (r_n s))) _ _ _ K2 F T) as F1. destruct stop; [injection H as <-; exact F1|]. eapply IH; [exact F1|exact H].
Qed.
Lemma low_sub_read : forall fs fuel f s, read_netlist fs fuel f = Ok s -> Forall (Forall low) (map (map fst) (r_subs s)).
Proof.
  intros fs fuel f s H. unfold read_netlist in H. destruct (fs f) as [fp|]; [|discriminate H].
  assert (G : forall n wd s0 fp0 s1, low_state s0 -> read_files fs n wd s0 fp0 = Ok s1 -> low_state s1).
  { clear. intros n. induction n as [|n IH]; intros wd s0 fp0 s1 F H; [discriminate H|]. cbn [read_files] in H.
    destruct (read_file fs (List.length fp0) wd s0 fp0) as [s2|] eqn:R; [|discriminate H]. cbn [bindr] in H.
    pose proof (low_sub_file _ _ _ _ _ _ F R) as F2. destruct (r_within s2); [discriminate H|].
    destruct (r_files s2) as [|p ps]; [injection H as <-; exact F2|]. destruct (fs p) as [fp1|]; [|discriminate H].
    eapply IH; [|exact H]. exact F2. }
  assert (L : low_state s) by (eapply G; [|exact H]; split; constructor).
  apply Forall_map. eapply Forall_impl; [|apply L]. intros l F. apply Forall_map. exact F.
Qed.
Lemma parse_subs_low : forall ls d subs, Forall (Forall low) ls -> (forall n s, dget streqb d n = Some s -> Forall low (st_code s)) -> parse_subs ls d = Ok subs ->
  forall n s, dget streqb subs n = Some s -> Forall low (st_code s).
Proof.
  intros ls. induction ls as [|lines ls IH]; intros d subs L D H; cbn [parse_subs] in H; [injection H as <-; exact D|].
  destruct (parse_sub_declaration lines) as [[name s0]|] eqn:P; [|discriminate]. cbn [bindr] in H. destruct (dget streqb d name); [discriminate|].
  assert (C : Forall low (st_code s0)).
  { unfold parse_sub_declaration in P. destruct lines as [|l code]; [discriminate|]. destruct (split l) as [|w ws]; [discriminate|]. destruct (negb (streqb w (lit ".subckt"))); [discriminate|].
    destruct ws as [|nm ws]; [discriminate|]. destruct (sub_ports ws); [|discriminate]. injection P as <- <-. exact (Forall_inv_tail (Forall_inv L)). }
  eapply IH; [exact (Forall_inv_tail L)| |exact H]. intros n s Q. rewrite (dget_dset streqb PropsSubckt.streqb_spec) in Q. destruct (streqb n name); [injection Q as <-; exact C|exact (D _ _ Q)].
Qed.

(** What is said of netlists without subcircuits (C192-C208) is said of these: it holds for
    whatever the lines of the instances stand for, if these elements have words in lower
    case as names, and they do. *)
Theorem C209_load : forall fs user dep fuel filename x,
  (forall line l, user line = Ok l -> Forall PropsSimulateAc.word_names l) ->
  load_all fs user dep fuel filename = Ok x ->
  exists other, (forall line l, other line = Ok l -> Forall PropsSimulateAc.word_names l) /\ load fs other fuel filename = Ok x.
Proof.
  intros fs user dep fuel filename x U H. unfold load_all in H. unfold load. destruct (read_netlist fs fuel filename) as [s|] eqn:R; [|discriminate]. cbn [bindr] in *.
  destruct (parse_models (map fst (r_models s)) []) as [models|]; [|discriminate]. cbn [bindr] in *.
  destruct (parse_subs (map (map fst) (r_subs s)) []) as [subs|] eqn:PS; [|discriminate]. cbn [bindr] in *. cbv zeta in H.
  pose proof (low_sub_read _ _ _ _ R) as LS. pose proof (low_read _ _ _ _ R) as LL.
  exists (lows (sub_line (map (fun m => (fst m, fst (snd m))) models) user subs dep)). split.
  - intros line l Q. unfold lows in Q. destruct (lowb line) eqn:LB; [|discriminate]. apply lowb_spec in LB.
    eapply sub_line_words; [exact U| |exact LB|exact Q]. intros n s' D. eapply (parse_subs_low _ [] subs LS); [|exact PS|exact D]. intros n' s'' E. discriminate E.
  - rewrite main_lows; [exact H|]. apply Forall_map. exact LL.
Qed.
Print Assumptions C209_load.

(** ** An example: two legs of two resistors each, one below the other. *)
Definition legs : list str := map lit
  ["two legs"; ".subckt pair p q"; "X2 name=leg b=m a=p"; "X3 a=m b=q name=leg * the lower one"; ".ends"; ".SUBCKT leg a b"; "R1 a k 1k"; "R2 k b 2k"; ".ends";
   "X1 name=pair p=IN q=0"; "V1 in 0 type=vdc vdc=1"; ".op"]%string.
Definition legs_subs : list (str * (list str * list str)) :=
  [(lit "pair", ([lit "p"; lit "q"], [lit "x2 name=leg b=m a=p"; lit "x3 a=m b=q name=leg * the lower one"]));
   (lit "leg", ([lit "a"; lit "b"], [lit "r1 a k 1k"; lit "r2 k b 2k"]))].
Definition leg_body : hier := HElem (PR (lit "r1") (lit "a") (lit "k") (1, 3)%Z) (HElem (PR (lit "r2") (lit "k") (lit "b") (2, 3)%Z) HNil).
Definition pair_body : hier :=
  HInst (lit "x2") (lit "leg") [(lit "b", lit "m"); (lit "a", lit "p")] leg_body (HInst (lit "x3") (lit "leg") [(lit "a", lit "m"); (lit "b", lit "q")] leg_body HNil).
Definition legs_hier : hier :=
  HInst (lit "x1") (lit "pair") [(lit "p", lit "in"); (lit "q", lit "0")] pair_body (HElem (PV (lit "v1") (lit "in") (lit "0") (Some (1, 0)%Z) None None) HNil).
Definition legs_parts : list pelem :=
  [PR (lit "r-x1-pair--x2-leg-1") (lit "in") (lit "x1-pair-x2-leg-k") (1, 3)%Z; PR (lit "r-x1-pair--x2-leg-2") (lit "x1-pair-x2-leg-k") (lit "x1-pair-m") (2, 3)%Z;
   PR (lit "r-x1-pair--x3-leg-1") (lit "x1-pair-m") (lit "x1-pair-x3-leg-k") (1, 3)%Z; PR (lit "r-x1-pair--x3-leg-2") (lit "x1-pair-x3-leg-k") (lit "0") (2, 3)%Z;
   PV (lit "v1") (lit "in") (lit "0") (Some (1, 0)%Z) None None].

Ltac bare_word := split; [discriminate|split; [reflexivity|]]; intros Q; cbn in Q; repeat (destruct Q as [Q|Q]; [discriminate Q|]); exact Q.
Example C209_example :
  (exists t es, load_all (fun _ => Some legs) (fun _ => Err NetlistParseError) 3 1 (lit "f") = Ok (legs_parts, t, es)) /\
  legs_parts = flatten [] top legs_hier /\
  place_of [] legs_subs [lit "x1 name=pair p=in q=0"; lit "v1 in 0 type=vdc vdc=1"] legs_hier /\ plain_names legs_hier /\ (depth legs_hier < 3)%nat.
Proof.
  split; [|split; [vm_compute; reflexivity|split; [|split; [|cbn; lia]]]].
  - unfold load_all.
    match goal with |- context [read_netlist ?a ?b ?c] => let r := eval vm_compute in (read_netlist a b c) in change (read_netlist a b c) with r end. cbn [bindr r_models r_lines r_subs map parse_models fst snd].
    match goal with |- context [parse_subs ?a ?b] => let r := eval vm_compute in (parse_subs a b) in change (parse_subs a b) with r end. cbn [bindr]. cbv zeta.
    match goal with |- context [main_netlist_parser ?a ?b ?c ?d] => let r := eval vm_compute in (main_netlist_parser a b c d) in change (main_netlist_parser a b c d) with r end. cbn [bindr].
    eexists _, _. cbv -[dR]. reflexivity.
  - assert (LB : place_of [] legs_subs [lit "r1 a k 1k"; lit "r2 k b 2k"] leg_body).
    { apply pl_elem; [exists "r"%char; split; [eexists; reflexivity|apply sx_R; [vm_compute; reflexivity|discriminate]]|].
      apply pl_elem; [exists "r"%char; split; [eexists; reflexivity|apply sx_R; [vm_compute; reflexivity|discriminate]]|apply pl_nil]. }
    assert (PB : place_of [] legs_subs [lit "x2 name=leg b=m a=p"; lit "x3 a=m b=q name=leg * the lower one"] pair_body).
    { eapply pl_inst; [|right; left; reflexivity| |exact LB|].
      - split; [eexists; reflexivity|]. exists [], [(lit "b", lit "m"); (lit "a", lit "p")], []. split; [vm_compute; reflexivity|]. split; [reflexivity|]. split; [exact Logic.I|].
        split; [|split; [|bare_word]].
        + repeat (constructor; [split; [cbn [fst]; bare_word|split; [cbn [snd]; bare_word|discriminate]]|]). constructor.
        + repeat (constructor; [intros Q; cbn in Q; repeat (destruct Q as [Q|Q]; [discriminate Q|]); exact Q|]). constructor.
      - intros q. cbn. tauto.
      - eapply pl_inst; [|right; left; reflexivity| |exact LB|apply pl_nil].
        + split; [eexists; reflexivity|]. exists [(lit "a", lit "m"); (lit "b", lit "q")], [], [lit "*"; lit "the"; lit "lower"; lit "one"]. split; [vm_compute; reflexivity|]. split; [reflexivity|]. split; [reflexivity|].
          split; [|split; [|bare_word]].
          * repeat (constructor; [split; [cbn [fst]; bare_word|split; [cbn [snd]; bare_word|discriminate]]|]). constructor.
          * repeat (constructor; [intros Q; cbn in Q; repeat (destruct Q as [Q|Q]; [discriminate Q|]); exact Q|]). constructor.
        + intros q. cbn. tauto. }
    eapply pl_inst; [|left; reflexivity| |exact PB|].
    + split; [eexists; reflexivity|]. exists [], [(lit "p", lit "in"); (lit "q", lit "0")], []. split; [vm_compute; reflexivity|]. split; [reflexivity|]. split; [exact Logic.I|].
      split; [|split; [|bare_word]].
      * repeat (constructor; [split; [cbn [fst]; bare_word|split; [cbn [snd]; bare_word|discriminate]]|]). constructor.
      * repeat (constructor; [intros Q; cbn in Q; repeat (destruct Q as [Q|Q]; [discriminate Q|]); exact Q|]). constructor.
    + intros q. cbn. tauto.
    + apply pl_elem; [|apply pl_nil]. exists "v"%char. split; [eexists; reflexivity|]. apply (sx_V [] (lit "v1") (lit "in") (lit "0") (lit "1") (1, 0)%Z). split; [repeat constructor; discriminate|vm_compute; reflexivity].
  - assert (PW : forall s : str, existsb (fun c => if ascii_dec dash c then true else false) s = false -> plain s).
    { intros s E Q. assert (T : existsb (fun c => if ascii_dec dash c then true else false) s = true) by (apply existsb_exists; exists dash; split; [exact Q|reflexivity]). congruence. }
    cbn [legs_hier plain_names pair_body leg_body pid nodes_in].
    repeat first [exact Logic.I | discriminate | apply PW; vm_compute; reflexivity | split | apply Forall_nil | apply Forall_cons
      | (constructor; [intros Q; cbn in Q; repeat (destruct Q as [Q|Q]; [discriminate Q|]); exact Q|]) | constructor].
Qed.
