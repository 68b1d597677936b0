(** Subcircuits that contain themselves (C215). *)
From Coq Require Import Ascii String List Bool Arith ZArith Lia.
From Verif Require Import Base BaseFacts Str Units Directive Lines Reader Netlist ModelLines Nodes Circuit Session Subckt Simulate PropsReader PropsNetlist PropsSubckt PropsSimulate
  SimulateSub PropsSimulateSub.
Import ListNotations.
Open Scope nat_scope.

(** Each of the subcircuits contains, after element lines, an instance of one of them. *)
Definition contains_itself (models : list (str * mtype)) (subs : list (str * (list str * list str))) (among : str -> Prop) : Prop :=
  forall s, among s -> exists ports code before h line after label s' conn ports' code',
    In (s, (ports, code)) subs /\ code = before ++ line :: after /\ place_of models subs before h /\ depth h = 0 /\
    instance_line line label s' conn /\ In (s', (ports', code')) subs /\ (forall p, In p ports' <-> In p (map fst conn)) /\ among s'.

Lemma instance_body : forall models user subs line label sub conn ports code, NoDup (map fst subs) -> instance_line line label sub conn ->
  In (sub, (ports, code)) subs -> (forall p, In p ports <-> In p (map fst conn)) -> forall fuel acc,
  parse_line models (sub_line models user (stexts subs) (S fuel)) line acc =
  bindr (main_netlist_parser models (sub_line models user (stexts subs) fuel) code []) (fun l => Ok (map (ren (local_name (prefix label sub) conn) (new_id (prefix label sub))) l)).
Proof.
  intros models user subs line label sub conn ports code ND (B & c1 & c2 & cm & SP & -> & CM & BA & NK & BS) IN PO fuel acc.
  destruct B as (r & ->). unfold parse_line, parse_letter. cbv zeta.
  repeat match goal with |- context [ascii_dec ?a ?b] => let v := eval vm_compute in (ascii_dec a b) in change (ascii_dec a b) with v end.
  cbv iota. cbn [orb]. cbn [sub_line]. change (first_is "x" ("x"%char :: r)) with true. cbn [negb]. rewrite SP. cbn [tl].
  destruct (params_of sub c1 c2 cm BA NK BS CM) as [P1 P2].
  assert (NE : exists w ws, map tie c1 ++ tie (lit "name", sub) :: map tie c2 ++ cm = w :: ws) by (destruct (map tie c1); cbn; eauto).
  destruct NE as (w & ws & NE). rewrite NE in *. cbv beta iota zeta. rewrite P1, (stexts_get subs sub ports code ND IN), P2. cbn [st_ports st_code].
  assert (F1 : forallb (fun p => mem (fst p) ports) (c1 ++ c2) = true) by (apply forallb_forall; intros p P; apply mem_In, PO, in_map; exact P).
  assert (F2 : forallb (fun n => mem n (map fst (c1 ++ c2))) ports = true) by (apply forallb_forall; intros n N; apply mem_In, PO; exact N).
  rewrite F1, F2. reflexivity.
Qed.

Lemma never_ends : forall models user subs among, NoDup (map fst subs) -> contains_itself models subs among ->
  forall fuel line label sub conn ports code acc, instance_line line label sub conn -> In (sub, (ports, code)) subs -> (forall p, In p ports <-> In p (map fst conn)) -> among sub ->
  parse_line models (sub_line models user (stexts subs) fuel) line acc = Err OutOfFuel.
Proof.
  intros models user subs among ND CI fuel. induction fuel as [|fuel IH]; intros line label sub conn ports code acc IL IN PO AM.
  - destruct IL as ((r & ->) & _). unfold parse_line, parse_letter. cbv zeta.
    repeat match goal with |- context [ascii_dec ?a ?b] => let v := eval vm_compute in (ascii_dec a b) in change (ascii_dec a b) with v end. reflexivity.
  - rewrite (instance_body models user subs line label sub conn ports code ND IL IN PO).
    destruct (CI sub AM) as (ports1 & code1 & before & h & line1 & after & label1 & s' & conn1 & ports' & code' & IN1 & EC & PB & DZ & IL1 & IN' & PO1 & AM').
    assert (E : code1 = code).
    { pose proof (stexts_get subs sub ports code ND IN) as G1. pose proof (stexts_get subs sub ports1 code1 ND IN1) as G2. congruence. }
    subst code1. rewrite <- E, main_then, (place_lines models user subs ND before h PB fuel [] (or_intror DZ)). cbn [bindr main_netlist_parser].
    rewrite (IH line1 label1 s' conn1 ports' code' _ IL1 IN' PO1 AM'). reflexivity.
Qed.

(** ** C215: no depth of the recursion is enough *)
Theorem C215_cycle : forall fs user fuel filename title fp bs ps rest models subs among before h line after label sub conn ports code,
  fs filename = Some (title :: fp) -> holds fs (path_dir filename) fp bs ps -> visits fs (path_dir filename) ps rest -> (List.length rest < fuel)%nat ->
  let all := (bs ++ concat rest)%list in
  let kinds := map (fun m => (fst m, fst (snd m))) models in
  parse_models (of_kind KModel (texts all)) [] = Ok models ->
  Forall2 declares (sub_lines all) subs -> NoDup (map fst subs) -> contains_itself kinds subs among ->
  main_lines all = before ++ line :: after -> place_of kinds subs before h -> depth h = 0 ->
  instance_line line label sub conn -> In (sub, (ports, code)) subs -> (forall p, In p ports <-> In p (map fst conn)) -> among sub ->
  forall dep, load_all fs user dep fuel filename = Err OutOfFuel.
Proof.
  intros fs user fuel filename title fp bs ps rest models subs among before h line after label sub conn ports code F H V LF all kinds PM DC ND CI ML PO DZ IL IN PC AM dep.
  destruct (C113_groups fs filename title fp bs ps rest fuel F H V LF) as (s & R & _ & _ & MO & _ & LI & SU). fold all in MO, LI, SU.
  unfold load_all. rewrite R. cbn [bindr]. rewrite MO, PM, LI, SU. cbn [bindr].
  change (@nil (str * stext)) with (stexts []). rewrite (parse_subs_of _ subs DC []) by exact ND. cbn [bindr app]. cbv zeta. fold kinds.
  rewrite ML, main_then, (place_lines kinds user subs ND before h PO dep [] (or_intror DZ)). cbn [bindr main_netlist_parser].
  rewrite (never_ends kinds user subs among ND CI dep line label sub conn ports code _ IL IN PC AM). reflexivity.
Qed.
Print Assumptions C215_cycle.

(** A subcircuit that contains itself, and its use: not an error of the netlist, but an
    endless recursion. *)
Definition selfish : list str := map lit ["selfish"; "V1 a 0 type=vdc vdc=1"; "X1 name=box p=a"; ".subckt box p"; "R1 p 0 1k"; "X2 name=box p=p"; ".ends"; ".op"]%string.
Theorem C215_recursive_refuted : exists file, forall user dep, load_all (fun _ => Some file) user dep 1 (lit "f") = Err OutOfFuel.
Proof.
  exists selfish. intros user dep.
  assert (SUBS : exists s, read_netlist (fun _ => Some selfish) 1 (lit "f") = Ok s /\ map fst (r_models s) = [] /\
    map (map fst) (r_subs s) = [map lit [".subckt box p"; "r1 p 0 1k"; "x2 name=box p=p"]%string] /\ map fst (r_lines s) = map lit ["v1 a 0 type=vdc vdc=1"; "x1 name=box p=a"]%string).
  { eexists. split; [vm_compute; reflexivity|]. split; [reflexivity|]. split; reflexivity. }
  destruct SUBS as (s & R & MO & SU & LI). unfold load_all. rewrite R. cbn [bindr]. rewrite MO, SU, LI. cbn [bindr parse_models].
  change (parse_subs [map lit [".subckt box p"; "r1 p 0 1k"; "x2 name=box p=p"]%string] []) with (Ok (stexts [(lit "box", ([lit "p"], map lit ["r1 p 0 1k"; "x2 name=box p=p"]%string))])).
  cbn [bindr]. cbv zeta. set (subs := [(lit "box", ([lit "p"], map lit ["r1 p 0 1k"; "x2 name=box p=p"]%string))]).
  assert (ND : NoDup (map fst subs)) by (repeat constructor; intros []).
  assert (BR : forall w, In w (map lit ["p"; "a"; "box"]%string) -> bare w).
  { intros w W. cbn in W. repeat (destruct W as [<-|W]; [split; [discriminate|split; [reflexivity|cbn; intuition discriminate]]|]). destruct W. }
  assert (IL : forall l v, In v (map lit ["p"; "a"]%string) -> split (lit l ++ lit " name=box p=" ++ v) = [lit l; lit "name=box"; lit "p=" ++ v] -> (exists r, lit l = "x"%char :: r) ->
     instance_line (lit l ++ lit " name=box p=" ++ v) (lit l) (lit "box") [(lit "p", v)]).
  { intros l v IV SP (r & E). split; [exists (r ++ lit " name=box p=" ++ v); rewrite E; reflexivity|]. exists [], [(lit "p", v)], []. split; [exact SP|]. split; [reflexivity|]. split; [exact Logic.I|].
    split; [|split; [repeat constructor; intros []|apply BR; cbn; auto]]. constructor; [|constructor]. cbn [fst snd]. split; [apply BR; cbn; auto|]. split; [|discriminate].
    apply BR. cbn in *. tauto. }
  pose proof (IL "x1"%string (lit "a") (or_intror (or_introl eq_refl)) eq_refl (ex_intro _ _ eq_refl)) as I1.
  pose proof (IL "x2"%string (lit "p") (or_introl eq_refl) eq_refl (ex_intro _ _ eq_refl)) as I2.
  assert (CI : contains_itself [] subs (fun s => s = lit "box")).
  { intros s' ->. exists [lit "p"], (map lit ["r1 p 0 1k"; "x2 name=box p=p"]%string), [lit "r1 p 0 1k"], (HElem (PR (lit "r1") (lit "p") (lit "0") (1, 3)%Z) HNil), (lit "x2 name=box p=p"), [], (lit "x2"), (lit "box"), [(lit "p", lit "p")], [lit "p"], (map lit ["r1 p 0 1k"; "x2 name=box p=p"]%string).
    split; [left; reflexivity|]. split; [reflexivity|]. split; [|split; [reflexivity|split; [exact I2|split; [left; reflexivity|split; [intros q; reflexivity|reflexivity]]]]].
    apply pl_elem; [exists "r"%char; split; [eexists; reflexivity|apply sx_R; [vm_compute; reflexivity|discriminate]]|apply pl_nil]. }
  cbn [map]. change (lit "v1 a 0 type=vdc vdc=1" :: [lit "x1 name=box p=a"]) with ([lit "v1 a 0 type=vdc vdc=1"] ++ [lit "x1 name=box p=a"]). rewrite main_then.
  assert (V : forall f, main_netlist_parser [] f [lit "v1 a 0 type=vdc vdc=1"] [] = Ok [PV (lit "v1") (lit "a") (lit "0") (Some (1, 0)%Z) None None]) by (intros f; vm_compute; reflexivity).
  rewrite V. cbn [bindr main_netlist_parser].
  rewrite (never_ends [] user subs (fun s => s = lit "box") ND CI dep (lit "x1 name=box p=a") (lit "x1") (lit "box") [(lit "p", lit "a")] [lit "p"] _ _ I1 (or_introl eq_refl)); [reflexivity|reflexivity|reflexivity].
Qed.
Print Assumptions C215_recursive_refuted.
