(** C113-C116: what the netlist reader collects. *)
From Coq Require Import Ascii String List Bool Arith Lia.
From Verif Require Import Base BaseFacts Str Lines Reader PropsSubckt PropsParse.
Import ListNotations.
Open Scope nat_scope.

(** * Specification *)

(** A line without the surrounding blanks, in lower case. *)
Definition clean (l : str) : str := slower (strip l).
Definition blank (l : str) : Prop := strip l = [].

(** A line together with its continuation lines (C27 says what words it has). *)
Definition joined (l : str) (conts : list str) : str := (clean l ++ flat_map (fun c => c_space :: tl (clean c)) conts)%list.

(** [logical fp L]: the lines of the file [fp] make up the logical lines [L]. *)
Inductive logical : list str -> list str -> Prop :=
| logical_eof : logical [] []
| logical_blank : forall l fp L, blank l -> logical fp L -> logical (l :: fp) L
| logical_line : forall l conts fp L, ~ blank l -> Forall (fun c => exists body, continuation body c) conts -> starts_new fp ->
    logical fp L -> logical (l :: conts ++ fp) (joined l conts :: L).

(** Kinds of logical lines. *)
Inductive kind := KComment | KElem | KSub | KEnds | KInc | KEnd | KPost | KModel | KDir.
Definition kind_eq_dec (a b : kind) : {a = b} + {a <> b}.
Proof. decide equality. Defined.
Definition keywords : list (str * kind) :=
  [ (lit ".subckt", KSub); (lit ".ends", KEnds); (lit ".include", KInc); (lit ".end", KEnd); (lit ".plot", KPost);
    (lit ".four", KPost); (lit ".fft", KPost); (lit ".model", KModel) ].
Definition kind_of (l : str) : kind :=
  match l with
  | "*"%char :: _ => KComment
  | "."%char :: _ => match dget streqb keywords (hd [] (split l)) with Some k => k | None => KDir end
  | _ => KElem
  end.
Definition of_kind (k : kind) (L : list str) : list str := filter (fun l => if kind_eq_dec (kind_of l) k then true else false) L.

(** The netlist as a sequence of lines and subcircuit declarations. *)
Inductive block := BLine (l : str) | BSub (head : str) (body : list str) (tail : str).
Definition block_lines (b : block) : list str := match b with BLine l => [l] | BSub h body t => h :: body ++ [t] end%list.
Definition texts (bs : list block) : list str := flat_map block_lines bs.
Definition inner (l : str) : Prop := kind_of l <> KSub /\ kind_of l <> KEnds /\ kind_of l <> KEnd.
Definition wf_block (b : block) : Prop :=
  match b with BLine l => inner l | BSub h body t => kind_of h = KSub /\ Forall inner body /\ kind_of t = KEnds end.

(** The element lines of the main circuit, and the subcircuits: the declaration and the
    element lines in it. *)
Definition main_lines (bs : list block) : list str := of_kind KElem (flat_map (fun b => match b with BLine l => [l] | BSub _ _ _ => [] end) bs).
Definition sub_lines (bs : list block) : list (list str) :=
  flat_map (fun b => match b with BLine _ => [] | BSub h body _ => [h :: of_kind KElem body] end) bs.

(** An include directive and the file it refers to. *)
Definition names_file (fs : str -> option (list str)) (wd l p : str) : Prop :=
  exists k path rest, split l = k :: path :: rest /\ match rest with [] => True | c :: _ => exists r, c = "*"%char :: r end /\
    p = path_join wd path /\ fs p <> None.

(** The file [fp] holds the blocks [bs], up to the end or an .END, and includes [ps]. *)
Definition holds (fs : str -> option (list str)) (wd : str) (fp : list str) (bs : list block) (ps : list str) : Prop :=
  exists rest, logical fp (texts bs ++ rest) /\ match rest with [] => True | e :: _ => kind_of e = KEnd end /\
    Forall wf_block bs /\ Forall2 (names_file fs wd) (of_kind KInc (texts bs)) ps.

(** * Proofs *)

Lemma lower_cont : forall c, lower_ascii c = c_cont -> c = c_cont.
Proof. intros c. destruct c as [[] [] [] [] [] [] [] []]; intros EQ; vm_compute in EQ; try discriminate; reflexivity. Qed.

Lemma join_stop : forall fp line, starts_new fp ->
  join_lines fp line = (line, fp) \/ exists l fp', fp = l :: fp' /\ blank l /\ join_lines fp line = (line, fp').
Proof.
  intros [|l fp] line SN; simpl; [auto|]. simpl in SN. unfold blank. destruct (strip l) as [|c s] eqn:E; simpl.
  - right. exists l, fp. auto.
  - left. destruct (ascii_dec (lower_ascii c) c_cont) as [EQ|]; [|reflexivity]. exfalso. apply SN. apply lower_cont. exact EQ.
Qed.

Lemma join_logical : forall conts fp line, Forall (fun c => exists body, continuation body c) conts -> starts_new fp ->
  let line' := (line ++ flat_map (fun c => c_space :: tl (clean c)) conts)%list in
  join_lines (conts ++ fp) line = (line', fp) \/
  exists l fp', fp = l :: fp' /\ blank l /\ join_lines (conts ++ fp) line = (line', fp').
Proof.
  intros conts fp line F SN. revert line. induction F as [|c conts (body & C) F IH]; intros line.
  - simpl. rewrite app_nil_r. apply join_stop. exact SN.
  - simpl app. cbn [join_lines flat_map]. destruct (cont_strip body c C) as (b' & E & _). unfold clean at 1 3. rewrite E. cbn [tl].
    destruct (ascii_dec c_cont c_cont) as [_|]; [|congruence].
    specialize (IH (line ++ c_space :: b')%list). cbn zeta in IH. rewrite <- app_assoc in IH. exact IH.
Qed.

(** Running over logical lines with given line numbers. *)
Section Run.
  Variable fs : str -> option (list str).
  Variable wd : str.

  Fixpoint run_lines (s : rstate) (ls : list numbered) : res rstate :=
    match ls with
    | [] => Ok s
    | (l, n) :: ls' => bindr (take_line fs wd (at_line s n) l) (fun '(s', stop) => if stop then Ok s' else run_lines s' ls')
    end.

  Lemma at_line_id : forall s, at_line s (r_n s) = s.
  Proof. intros []. reflexivity. Qed.

  Lemma take_line_n : forall s line s' b, take_line fs wd s line = Ok (s', b) -> r_n s' = r_n s.
  Proof.
    intros s line s' b. unfold take_line.
    repeat (match goal with |- context [if ?x then _ else _] => destruct x end; try discriminate; try (intros H; injection H as <- <-; reflexivity)).
    destruct (parse_include fs wd line); cbn [bindr]; [|discriminate]. intros H. injection H as <- <-. reflexivity.
  Qed.

  Definition upto (a b : res rstate) : Prop :=
    match a, b with Ok s, Ok s' => at_line s 0 = at_line s' 0 | Err e, Err e' => e = e' | _, _ => False end.
  Lemma upto_refl : forall a, upto a a.
  Proof. intros []; reflexivity. Qed.
  Lemma upto_trans : forall a b c, upto a b -> upto b c -> upto a c.
  Proof. intros [] [] [] A B; simpl in *; try tauto; congruence. Qed.

  Lemma run_at_line : forall ls s m, upto (run_lines (at_line s m) ls) (run_lines s ls).
  Proof. intros [|[l n] ls] s m; [reflexivity|]. apply upto_refl. Qed.

  Lemma logical_after_blank : forall l fp L, blank l -> logical (l :: fp) L -> logical fp L.
  Proof. intros l fp L B H. inversion H; subst; [assumption|contradiction]. Qed.

  Lemma read_logical : forall k fp L, (List.length fp <= k)%nat -> logical fp L -> forall fuel s, (List.length fp <= fuel)%nat -> (1 <= r_n s)%nat ->
    exists ns, List.length ns = List.length L /\ upto (read_file fs fuel wd s fp) (run_lines s (combine L ns)).
  Proof.
    induction k as [|k IH]; intros fp L K LG fuel s LE N.
    { destruct fp; [|simpl in K; lia]. inversion LG; subst. exists []. split; [reflexivity|]. destruct fuel; reflexivity. }
    inversion LG as [|l fp1 L1 B LG1|l conts fp1 L1 NB F SN LG1]; subst.
    - exists []. split; [reflexivity|]. destruct fuel; reflexivity.
    - destruct fuel as [|fuel]; [simpl in LE; lia|]. cbn [read_file]. simpl in LE, K.
      replace (r_n (at_line s (S (r_n s))) =? 1) with false by (symmetry; apply Nat.eqb_neq; simpl; lia).
      unfold blank in B. rewrite B. cbn [slower map].
      destruct (IH fp1 L ltac:(lia) LG1 fuel (at_line s (S (r_n s))) ltac:(lia) ltac:(simpl; lia)) as (ns & E1 & E2).
      exists ns. split; [exact E1|]. eapply upto_trans; [exact E2|]. apply run_at_line.
    - destruct fuel as [|fuel]; [simpl in LE; lia|]. cbn [read_file]. cbn [List.length] in LE, K. rewrite app_length in LE, K.
      replace (r_n (at_line s (S (r_n s))) =? 1) with false by (symmetry; apply Nat.eqb_neq; simpl; lia).
      fold (clean l). destruct (clean l) as [|c cl] eqn:CL.
      { exfalso. apply NB. unfold clean, slower in CL. apply map_eq_nil in CL. exact CL. }
      rewrite <- CL.
      assert (J : joined l conts = (clean l ++ flat_map (fun c => c_space :: tl (clean c)) conts)%list) by reflexivity.
      assert (X : exists fp2, join_lines (conts ++ fp1) (clean l) = (joined l conts, fp2) /\ logical fp2 L1 /\ (List.length fp2 <= List.length fp1)%nat).
      { destruct (join_logical conts fp1 (clean l) F SN) as [E|(b & fp' & E0 & B & E)]; cbn zeta in E.
        - exists fp1. auto.
        - exists fp'. subst fp1. split; [exact E|]. split; [exact (logical_after_blank _ _ _ B LG1)|simpl; lia]. }
      destruct X as (fp2 & E & LG2 & LN). rewrite E.
      destruct (take_line fs wd (at_line s (S (r_n s))) (joined l conts)) as [[s' stop]|e] eqn:T; cbn [bindr].
      + pose proof (take_line_n _ _ _ _ T) as TN. simpl in TN. destruct stop.
        * exists (S (r_n s) :: repeat 0 (List.length L1)). split; [simpl; rewrite repeat_length; reflexivity|].
          cbn [combine run_lines]. rewrite T. reflexivity.
        * destruct (IH fp2 L1 ltac:(lia) LG2 fuel s' ltac:(lia) ltac:(lia)) as (ns & E1 & E2). exists (S (r_n s) :: ns).
          split; [simpl; lia|]. cbn [combine run_lines]. rewrite T. exact E2.
      + exists (S (r_n s) :: repeat 0 (List.length L1)). split; [simpl; rewrite repeat_length; reflexivity|].
        cbn [combine run_lines]. rewrite T. reflexivity.
  Qed.

  (** What [take_line] does, by kind. *)
  Lemma take_line_kind : forall s l,
    take_line fs wd s l =
    match kind_of l with
    | KComment => Ok (s, false)
    | KElem => if r_within s then Ok (add_cur s (l, r_n s), false) else Ok (add_line s (l, r_n s), false)
    | KSub => if r_within s then Err NetlistParseError else Ok (open_sub s (l, r_n s), false)
    | KEnds => if r_within s then Ok (close_sub s, false) else Err NetlistParseError
    | KInc => bindr (parse_include fs wd l) (fun p => Ok (add_file s p, false))
    | KEnd => Ok (s, true)
    | KPost => Ok (add_post s (l, r_n s), false)
    | KModel => Ok (add_model s (l, r_n s), false)
    | KDir => Ok (add_dir s (l, r_n s), false)
    end.
  Proof.
    intros s l. unfold take_line. destruct l as [|c l]; [reflexivity|]. cbn [first_is].
    destruct (ascii_dec c c_comment) as [->|NC]; [reflexivity|].
    destruct (ascii_dec c c_point) as [->|NP].
    - unfold kind_of, c_point. generalize (hd [] (split ("."%char :: l))). intros key. unfold keywords. cbn [dget].
      repeat (match goal with |- context [streqb key ?x] => destruct (streqb key x) end; [reflexivity|]). reflexivity.
    - assert (E : kind_of (c :: l) = KElem); [|rewrite E; reflexivity].
      unfold kind_of. destruct c as [[] [] [] [] [] [] [] []]; try reflexivity; exfalso; (apply NC; reflexivity) || (apply NP; reflexivity).
  Qed.

  Record grew (s s' : rstate) (d m p l c : list str) (sb : list (list str)) (f : list str) : Prop := {
    g_title : r_title s' = r_title s;
    g_dirs : map fst (r_dirs s') = (map fst (r_dirs s) ++ d)%list;
    g_models : map fst (r_models s') = (map fst (r_models s) ++ m)%list;
    g_post : map fst (r_post s') = (map fst (r_post s) ++ p)%list;
    g_lines : map fst (r_lines s') = (map fst (r_lines s) ++ l)%list;
    g_cur : map fst (r_cur s') = (map fst (r_cur s) ++ c)%list;
    g_subs : map (map fst) (r_subs s') = (map (map fst) (r_subs s) ++ sb)%list;
    g_files : r_files s' = (r_files s ++ f)%list }.

  Lemma grew_trans : forall s1 s2 s3 d m p l c sb f d' m' p' l' c' sb' f',
    grew s1 s2 d m p l c sb f -> grew s2 s3 d' m' p' l' c' sb' f' ->
    grew s1 s3 (d ++ d') (m ++ m') (p ++ p') (l ++ l') (c ++ c') (sb ++ sb') (f ++ f').
  Proof.
    intros s1 s2 s3 d m p l c sb f d' m' p' l' c' sb' f' [] []. split; rewrite ?app_assoc; congruence.
  Qed.

  Lemma of_kind_cons : forall k l L, of_kind k (l :: L) = ((if kind_eq_dec (kind_of l) k then [l] else []) ++ of_kind k L)%list.
  Proof. intros k l L. unfold of_kind. cbn [filter]. destruct (kind_eq_dec (kind_of l) k); reflexivity. Qed.
  Lemma of_kind_app : forall k L L', of_kind k (L ++ L') = (of_kind k L ++ of_kind k L')%list.
  Proof. intros. apply filter_app. Qed.

  Lemma include_ok : forall l p, names_file fs wd l p -> parse_include fs wd l = Ok p.
  Proof.
    intros l p (k & path & rest & E & C & -> & X). unfold parse_include. rewrite E.
    destruct rest as [|c rest].
    - destruct (fs (path_join wd path)); [reflexivity|congruence].
    - destruct C as (r & ->). cbn [first_is]. destruct (ascii_dec "*" c_comment) as [_|N]; [|exfalso; apply N; reflexivity].
      destruct (fs (path_join wd path)); [reflexivity|congruence].
  Qed.

  Ltac grow := split; simpl; rewrite ?map_app, ?app_nil_r; reflexivity.

  (** Lines other than .subckt, .ends and .end. *)
  Lemma run_inner : forall body ns ps tail s, List.length ns = List.length body -> Forall inner body ->
    Forall2 (names_file fs wd) (of_kind KInc body) ps ->
    exists s', run_lines s (combine body ns ++ tail) = run_lines s' tail /\ r_within s' = r_within s /\
      grew s s' (of_kind KDir body) (of_kind KModel body) (of_kind KPost body)
        (if r_within s then [] else of_kind KElem body) (if r_within s then of_kind KElem body else []) [] ps.
  Proof.
    induction body as [|l body IH]; intros [|n ns] ps tail s LN F F2; try discriminate.
    - inversion F2; subst. exists s. split; [reflexivity|]. split; [reflexivity|]. destruct (r_within s); grow.
    - inversion F as [|? ? (I1 & I2 & I3) F']; subst. rewrite of_kind_cons in F2. simpl in LN.
      cbn [combine app run_lines]. rewrite take_line_kind.
      assert (GO : forall s1 d m p e f ps', r_within s1 = r_within s ->
         grew s s1 d m p (if r_within s then [] else e) (if r_within s then e else []) [] f -> ps = (f ++ ps')%list ->
         Forall2 (names_file fs wd) (of_kind KInc body) ps' ->
         d = (if kind_eq_dec (kind_of l) KDir then [l] else []) -> m = (if kind_eq_dec (kind_of l) KModel then [l] else []) ->
         p = (if kind_eq_dec (kind_of l) KPost then [l] else []) -> e = (if kind_eq_dec (kind_of l) KElem then [l] else []) ->
         exists s', run_lines s1 (combine body ns ++ tail) = run_lines s' tail /\ r_within s' = r_within s /\
           grew s s' (of_kind KDir (l :: body)) (of_kind KModel (l :: body)) (of_kind KPost (l :: body))
            (if r_within s then [] else of_kind KElem (l :: body)) (if r_within s then of_kind KElem (l :: body) else []) [] ps).
      { intros s1 d m p e f ps' W G -> F2' -> -> -> ->. destruct (IH ns ps' tail s1 ltac:(lia) F' F2') as (s' & R1 & R2 & R3).
        exists s'. split; [exact R1|]. split; [congruence|]. rewrite W in R3. pose proof (grew_trans _ _ _ _ _ _ _ _ _ _ _ _ _ _ _ _ _ G R3) as G3.
        rewrite !of_kind_cons. destruct (r_within s); exact G3. }
      destruct (kind_of l) eqn:KL; try congruence; cbn [bindr];
        try (destruct (kind_eq_dec _ KInc) as [X|_]; [discriminate|]; cbn [app] in F2).
      + refine (GO (at_line s n) [] [] [] [] [] ps eq_refl _ eq_refl F2 eq_refl eq_refl eq_refl eq_refl). destruct (r_within s); grow.
      + simpl r_within. simpl r_n. destruct (r_within s) eqn:W.
        * refine (GO _ [] [] [] [l] [] ps _ _ eq_refl F2 eq_refl eq_refl eq_refl eq_refl); [simpl; assumption|]. grow.
        * refine (GO _ [] [] [] [l] [] ps _ _ eq_refl F2 eq_refl eq_refl eq_refl eq_refl); [simpl; assumption|]. grow.
      + destruct (kind_eq_dec KInc KInc) as [_|]; [|congruence]. cbn [app] in F2. inversion F2 as [|? p0 ? ps0 NF F2']; subst.
        rewrite (include_ok _ _ NF). cbn [bindr].
        refine (GO _ [] [] [] [] [p0] ps0 _ _ eq_refl F2' eq_refl eq_refl eq_refl eq_refl); [reflexivity|]. destruct (r_within s); grow.
      + refine (GO _ [] [] [l] [] [] ps _ _ eq_refl F2 eq_refl eq_refl eq_refl eq_refl); [reflexivity|]. destruct (r_within s); grow.
      + refine (GO _ [] [l] [] [] [] ps _ _ eq_refl F2 eq_refl eq_refl eq_refl eq_refl); [reflexivity|]. destruct (r_within s); grow.
      + refine (GO _ [l] [] [] [] [] ps _ _ eq_refl F2 eq_refl eq_refl eq_refl eq_refl); [reflexivity|]. destruct (r_within s); grow.
  Qed.

  Lemma combine_app : forall A B (a a' : list A) (b : list B), (List.length a <= List.length b)%nat ->
    combine (a ++ a') b = (combine a (firstn (List.length a) b) ++ combine a' (skipn (List.length a) b))%list.
  Proof. induction a as [|x a IH]; intros a' [|y b] L; simpl in *; try reflexivity; [lia|]. f_equal. apply IH. lia. Qed.

  Lemma run_blocks : forall bs ns ps tail s, List.length ns = List.length (texts bs) -> Forall wf_block bs ->
    Forall2 (names_file fs wd) (of_kind KInc (texts bs)) ps -> r_within s = false -> r_cur s = [] ->
    exists s', run_lines s (combine (texts bs) ns ++ tail) = run_lines s' tail /\ r_within s' = false /\ r_cur s' = [] /\
      grew s s' (of_kind KDir (texts bs)) (of_kind KModel (texts bs)) (of_kind KPost (texts bs)) (main_lines bs) [] (sub_lines bs) ps.
  Proof.
    induction bs as [|b bs IH]; intros ns ps tail s LN F F2 W C.
    { inversion F2; subst. destruct ns; [|discriminate]. exists s. split; [reflexivity|]. split; [exact W|]. split; [exact C|]. grow. }
    inversion F as [|? ? WB F']; subst. cbn [texts flat_map] in LN, F2. fold (texts bs) in LN, F2. rewrite app_length in LN.
    rewrite of_kind_app in F2. apply Forall2_app_inv_l in F2. destruct F2 as (ps1 & ps2 & P1 & P2 & ->).
    cbn [texts flat_map]. fold (texts bs). rewrite combine_app by lia. rewrite <- app_assoc.
    set (ns1 := firstn (List.length (block_lines b)) ns). set (ns2 := skipn (List.length (block_lines b)) ns).
    assert (L1 : List.length ns1 = List.length (block_lines b)) by (unfold ns1; rewrite firstn_length; lia).
    assert (L2 : List.length ns2 = List.length (texts bs)) by (unfold ns2; rewrite skipn_length; lia).
    assert (B : exists s1, run_lines s (combine (block_lines b) ns1 ++ combine (texts bs) ns2 ++ tail) = run_lines s1 (combine (texts bs) ns2 ++ tail) /\
       r_within s1 = false /\ r_cur s1 = [] /\
       grew s s1 (of_kind KDir (block_lines b)) (of_kind KModel (block_lines b)) (of_kind KPost (block_lines b))
         (main_lines [b]) [] (sub_lines [b]) ps1).
    { destruct b as [l|h body t].
      - cbn [block_lines] in *. destruct (run_inner [l] ns1 ps1 (combine (texts bs) ns2 ++ tail) s L1 (Forall_cons l (WB : inner l) (Forall_nil inner)) P1) as (s1 & R1 & R2 & R3).
        rewrite W in R2, R3. exists s1. split; [exact R1|]. split; [exact R2|]. split; [|exact R3].
        pose proof (g_cur _ _ _ _ _ _ _ _ _ R3) as G. rewrite C in G. simpl in G. apply map_eq_nil in G. exact G.
      - cbn [block_lines] in *. destruct WB as (H1 & H2 & H3). destruct ns1 as [|n ns1']; [discriminate|]. cbn [List.length] in L1. injection L1 as L1.
        rewrite app_length in L1. cbn [List.length] in L1. cbn [combine app run_lines]. rewrite take_line_kind, H1. simpl r_within. rewrite W. cbn [bindr].
        set (s0 := open_sub (at_line s n) (h, r_n (at_line s n))).
        rewrite combine_app by lia. rewrite <- app_assoc.
        rewrite of_kind_cons, H1 in P1. cbn [app] in P1. destruct (kind_eq_dec KSub KInc) as [X|_]; [discriminate|]. cbn [app] in P1.
        rewrite of_kind_app in P1. rewrite of_kind_cons in P1. rewrite H3 in P1. destruct (kind_eq_dec KEnds KInc) as [X|_]; [discriminate|]. cbn [of_kind filter app] in P1. rewrite app_nil_r in P1.
        destruct (run_inner body (firstn (List.length body) ns1') ps1
          (combine [t] (skipn (List.length body) ns1') ++ combine (texts bs) ns2 ++ tail) s0) as (s1 & R1 & R2 & R3);
          [rewrite firstn_length; lia|exact H2|exact P1|].
        rewrite R1. destruct (skipn (List.length body) ns1') as [|nt nt'] eqn:SK.
        { exfalso. pose proof (skipn_length (List.length body) ns1') as Q. rewrite SK in Q. simpl in Q. lia. }
        cbn [combine app run_lines]. rewrite take_line_kind, H3. simpl r_within. rewrite R2. simpl r_within. cbn [bindr].
        exists (close_sub (at_line s1 nt)). split; [reflexivity|]. split; [reflexivity|]. split; [reflexivity|].
        simpl r_within in R3. destruct R3. rewrite !of_kind_cons, !of_kind_app, !of_kind_cons, H1, H3.
        repeat match goal with |- context [kind_eq_dec ?a ?b] => destruct (kind_eq_dec a b); [discriminate|] end.
        cbn [of_kind filter app]. rewrite !app_nil_r. unfold s0 in *. simpl in *. split; simpl; rewrite ?map_app, ?app_nil_r; auto.
        + rewrite g_lines0. apply app_nil_r.
        + rewrite C. reflexivity.
        + cbn [map]. rewrite g_cur0, C. change (sub_lines [BSub h body t]) with ([h :: of_kind KElem body]). f_equal. rewrite app_nil_r in g_subs0. exact g_subs0. }
    destruct B as (s1 & R1 & W1 & C1 & G1). rewrite R1.
    destruct (IH ns2 ps2 tail s1 L2 F' P2 W1 C1) as (s2 & R2 & W2 & C2 & G2).
    exists s2. split; [exact R2|]. split; [exact W2|]. split; [exact C2|].
    pose proof (grew_trans _ _ _ _ _ _ _ _ _ _ _ _ _ _ _ _ _ G1 G2) as G. rewrite <- !of_kind_app in G.
    assert (M : main_lines (b :: bs) = (main_lines [b] ++ main_lines bs)%list).
    { unfold main_lines. cbn [flat_map]. rewrite app_nil_r, of_kind_app. reflexivity. }
    assert (M2 : sub_lines (b :: bs) = (sub_lines [b] ++ sub_lines bs)%list).
    { unfold sub_lines. cbn [flat_map]. rewrite app_nil_r. reflexivity. }
    rewrite M, M2. exact G.
  Qed.
End Run.

(** * C113 *)

(** One file read in state [s]. *)
Lemma read_file_groups : forall fs wd fp bs ps s, holds fs wd fp bs ps -> (1 <= r_n s)%nat -> r_within s = false -> r_cur s = [] ->
  exists s', read_file fs (List.length fp) wd s fp = Ok s' /\ r_within s' = false /\ r_cur s' = [] /\
    grew s s' (of_kind KDir (texts bs)) (of_kind KModel (texts bs)) (of_kind KPost (texts bs)) (main_lines bs) [] (sub_lines bs) ps.
Proof.
  intros fs wd fp bs ps s (rest & LG & EN & F & F2) N W C.
  destruct (read_logical fs wd (List.length fp) fp _ (le_n _) LG (List.length fp) s (le_n _) N) as (ns & LN & U).
  rewrite app_length in LN. rewrite combine_app in U by lia.
  destruct (run_blocks fs wd bs (firstn (List.length (texts bs)) ns) ps (combine rest (skipn (List.length (texts bs)) ns)) s) as (s' & R & W' & C' & G);
    [rewrite firstn_length; lia|exact F|exact F2|exact W|exact C|]. rewrite R in U.
  assert (X : exists m, run_lines fs wd s' (combine rest (skipn (List.length (texts bs)) ns)) = Ok (at_line s' m)).
  { destruct rest as [|e rest]; [exists (r_n s'); simpl; rewrite at_line_id; reflexivity|].
    destruct (skipn (List.length (texts bs)) ns) as [|n ns'] eqn:SK; [exists (r_n s'); simpl; rewrite at_line_id; reflexivity|].
    exists n. cbn [combine run_lines]. rewrite take_line_kind, EN. reflexivity. }
  destruct X as (m & X). rewrite X in U. destruct (read_file fs (List.length fp) wd s fp) as [s2|e]; [|contradiction].
  simpl in U. exists s2. split; [reflexivity|]. destruct s2, s', s. simpl in *. injection U as -> -> -> -> -> -> -> -> ->.
  split; [assumption|]. split; [assumption|]. destruct G; simpl in *. split; simpl; assumption.
Qed.


(** The included files in the order in which they are read: each file is read after
    those queued before it. *)
Inductive visits (fs : str -> option (list str)) (wd : str) : list str -> list (list block) -> Prop :=
| visits_done : visits fs wd [] []
| visits_next : forall p queue fp bs ps rest, fs p = Some fp -> holds fs wd fp bs ps -> visits fs wd (queue ++ ps) rest ->
    visits fs wd (p :: queue) (bs :: rest).

Lemma read_file_n : forall fs wd fuel s fp s', read_file fs fuel wd s fp = Ok s' -> (1 <= r_n s)%nat -> (1 <= r_n s')%nat.
Proof.
  intros fs wd. induction fuel as [|fuel IH]; intros s [|l fp] s' R N; cbn [read_file] in R; try discriminate; try (injection R as <-; assumption).
  destruct (r_n (at_line s (S (r_n s))) =? 1) eqn:E1; [apply Nat.eqb_eq in E1; simpl in E1; lia|].
  destruct (slower (strip l)) as [|c0 cl]; [apply (IH _ _ _ R); simpl; lia|].
  destruct (join_lines fp (c0 :: cl)) as [line fp2]. apply bindr_Ok in R. destruct R as ([s1 stop] & T & R).
  pose proof (take_line_n _ _ _ _ _ _ T) as TN. simpl in TN. destruct stop; [injection R as <-; lia|]. apply (IH _ _ _ R). lia.
Qed.

Lemma read_docs : forall fs wd fuel s fp bs ps rest, holds fs wd fp bs ps -> visits fs wd (r_files s ++ ps) rest ->
  (List.length rest < fuel)%nat -> (1 <= r_n s)%nat -> r_within s = false -> r_cur s = [] ->
  exists s', read_files fs fuel wd s fp = Ok s' /\ r_title s' = r_title s /\
    map fst (r_dirs s') = (map fst (r_dirs s) ++ of_kind KDir (texts (bs ++ concat rest)))%list /\
    map fst (r_models s') = (map fst (r_models s) ++ of_kind KModel (texts (bs ++ concat rest)))%list /\
    map fst (r_post s') = (map fst (r_post s) ++ of_kind KPost (texts (bs ++ concat rest)))%list /\
    map fst (r_lines s') = (map fst (r_lines s) ++ main_lines (bs ++ concat rest))%list /\
    map (map fst) (r_subs s') = (map (map fst) (r_subs s) ++ sub_lines (bs ++ concat rest))%list.
Proof.
  intros fs wd fuel s fp bs ps rest HB V. remember (r_files s ++ ps)%list as q eqn:EQ. revert fuel s fp bs ps HB EQ.
  induction V as [|p queue fp' bs' ps' rest E H V IH]; intros fuel s fp bs ps HB EQ LF N W C.
  - destruct fuel as [|fuel]; [simpl in LF; lia|]. cbn [read_files].
    destruct (read_file_groups fs wd fp bs ps s HB N W C) as (s' & R & W' & C' & []). rewrite R. cbn [bindr]. rewrite W'.
    rewrite <- EQ in g_files0. rewrite g_files0. exists s'. cbn [concat]. rewrite !app_nil_r. auto 10.
  - destruct fuel as [|fuel]; [simpl in LF; lia|]. cbn [read_files].
    destruct (read_file_groups fs wd fp bs ps s HB N W C) as (s1 & R & W' & C' & []). rewrite R. cbn [bindr]. rewrite W'.
    rewrite <- EQ in g_files0. rewrite g_files0, E. cbn [List.length] in LF.
    destruct (IH fuel (with_files s1 queue) fp' bs' ps' H eq_refl ltac:(lia) (read_file_n _ _ _ _ _ _ R N) W' C')
      as (s' & R' & T' & D' & M' & P' & L' & S').
    exists s'. split; [exact R'|]. simpl in T', D', M', P', L', S'. cbn [concat].
    assert (TX : forall a b, texts (a ++ b) = (texts a ++ texts b)%list) by (intros; apply flat_map_app).
    assert (TM : forall a b, main_lines (a ++ b) = (main_lines a ++ main_lines b)%list) by (intros; unfold main_lines; rewrite flat_map_app; apply of_kind_app).
    assert (TS : forall a b, sub_lines (a ++ b) = (sub_lines a ++ sub_lines b)%list) by (intros; apply flat_map_app).
    rewrite !TX, !TM, !TS, !of_kind_app in *. rewrite !app_assoc in *. repeat split; congruence.
Qed.

(** Every line of the netlist and of the included files goes to the group it belongs
    to, in order: the first line is the title; nothing else is collected. *)
Theorem C113_groups : forall fs filename title fp bs ps rest fuel,
  fs filename = Some (title :: fp) -> holds fs (path_dir filename) fp bs ps -> visits fs (path_dir filename) ps rest ->
  (List.length rest < fuel)%nat ->
  let all := (bs ++ concat rest)%list in
  exists s, read_netlist fs fuel filename = Ok s /\ r_title s = clean title /\
    map fst (r_dirs s) = of_kind KDir (texts all) /\ map fst (r_models s) = of_kind KModel (texts all) /\
    map fst (r_post s) = of_kind KPost (texts all) /\ map fst (r_lines s) = main_lines all /\
    map (map fst) (r_subs s) = sub_lines all.
Proof.
  intros fs filename title fp bs ps rest fuel E H V LF all. unfold read_netlist. rewrite E.
  destruct fuel as [|fuel]; [lia|].
  destruct (read_docs fs (path_dir filename) (S fuel) (with_title (at_line r_init 1) (clean title)) fp bs ps rest H V LF (le_n 1) eq_refl eq_refl)
    as (s & R & X). exists s. split; [|exact X]. cbn [read_files] in *. exact R.
Qed.
Print Assumptions C113_groups.

(** A subcircuit inside another, a stray .ENDS and a missing .ENDS are reported, in the
    first file or in any other, after any good beginning. *)
Theorem C113_errors : forall fs wd fp bs ps L s, (1 <= r_n s)%nat -> r_within s = false -> r_cur s = [] ->
  logical fp (texts bs ++ L) -> Forall wf_block bs -> Forall2 (names_file fs wd) (of_kind KInc (texts bs)) ps ->
  (exists l rest, L = l :: rest /\ kind_of l = KEnds) \/
  (exists h body ps' rest, L = h :: body ++ rest /\ kind_of h = KSub /\ Forall inner body /\
     Forall2 (names_file fs wd) (of_kind KInc body) ps' /\
     match rest with [] => True | l :: _ => kind_of l = KSub \/ kind_of l = KEnd end) ->
  forall fuel, (0 < fuel)%nat -> read_files fs fuel wd s fp = Err NetlistParseError.
Proof.
  intros fs wd fp bs ps L s N W C LG F F2 K [|fuel] LF; [lia|]. cbn [read_files].
  destruct (read_logical fs wd (List.length fp) fp _ (le_n _) LG (List.length fp) s (le_n _) N) as (ns & LN & U).
  rewrite app_length in LN. rewrite combine_app in U by lia.
  destruct (run_blocks fs wd bs (firstn (List.length (texts bs)) ns) ps (combine L (skipn (List.length (texts bs)) ns)) s) as (s' & R & W' & C' & G);
    [rewrite firstn_length; lia|exact F|exact F2|exact W|exact C|]. rewrite R in U. clear R G.
  assert (LS : List.length (skipn (List.length (texts bs)) ns) = List.length L) by (rewrite skipn_length; lia).
  revert U LS. generalize (skipn (List.length (texts bs)) ns). intros ms U LM.
  assert (X : run_lines fs wd s' (combine L ms) = Err NetlistParseError \/
              exists s2, run_lines fs wd s' (combine L ms) = Ok s2 /\ r_within s2 = true).
  { destruct K as [(l & rest & -> & K)|(h & body & ps' & rest & -> & K & FB & F2' & EN)].
    - destruct ms as [|m ms]; [discriminate|]. cbn [combine run_lines]. rewrite take_line_kind, K. simpl r_within. rewrite W'. left. reflexivity.
    - destruct ms as [|m ms]; [discriminate|]. cbn [combine run_lines]. rewrite take_line_kind, K. simpl r_within. rewrite W'. cbn [bindr].
      cbn [List.length] in LM. rewrite app_length in LM. rewrite combine_app by lia.
      destruct (run_inner fs wd body (firstn (List.length body) ms) ps' (combine rest (skipn (List.length body) ms))
        (open_sub (at_line s' m) (h, r_n (at_line s' m)))) as (s2 & R2 & W2 & _); [rewrite firstn_length; lia|exact FB|exact F2'|].
      rewrite R2. simpl in W2. destruct rest as [|l rest].
      + right. exists s2. split; [reflexivity|exact W2].
      + pose proof (skipn_length (List.length body) ms) as Q. destruct (skipn (List.length body) ms) as [|k ks]; [simpl in Q, LM; lia|].
        cbn [combine run_lines]. rewrite take_line_kind. destruct EN as [->| ->]; simpl r_within; rewrite ?W2.
        * left. reflexivity.
        * right. exists (at_line s2 k). split; [reflexivity|exact W2]. }
  destruct (read_file fs (List.length fp) wd s fp) as [s1|e]; destruct X as [X|(s2 & X & W2)]; rewrite X in U; simpl in U; try contradiction.
  - cbn [bindr]. assert (E : r_within s1 = true); [|rewrite E; reflexivity]. rewrite <- W2.
    change (r_within s1) with (r_within (at_line s1 0)). rewrite U. reflexivity.
  - subst e. reflexivity.
Qed.
Print Assumptions C113_errors.

(** A netlist with a subcircuit, a continuation line, a comment and an included file. *)
Definition ex_fs (p : str) : option (list str) :=
  if streqb p (lit "lib/main.cir") then
    Some [lit "My Title"; lit "* comment"; lit ".SUBCKT amp a b"; lit "R1 a b"; lit "+ 10k"; lit ".ENDS"; [];
          lit "X1 in 0 name=amp"; lit ".include models.lib * the models"; lit ".op"; lit ".plot op v(in)"; lit ".end"; lit "ignored"]
  else if streqb p (lit "lib/models.lib") then Some [lit ".model ekv m1 type=n"; lit "V1 in 0 type=vdc vdc=1"]
  else None.

Example C113_example :
  exists s, read_netlist ex_fs 3 (lit "lib/main.cir") = Ok s /\ r_title s = lit "my title" /\
    r_dirs s = [(lit ".op", 8)] /\ r_post s = [(lit ".plot op v(in)", 9)] /\
    map fst (r_models s) = [lit ".model ekv m1 type=n"] /\
    map fst (r_lines s) = [lit "x1 in 0 name=amp"; lit "v1 in 0 type=vdc vdc=1"] /\
    map (map fst) (r_subs s) = [[lit ".subckt amp a b"; lit "r1 a b  10k"]].
Proof. eexists. vm_compute. auto 10. Qed.
Example C113_premises :
  let bs := [BLine (lit "* comment"); BSub (lit ".subckt amp a b") [lit "r1 a b  10k"] (lit ".ends"); BLine (lit "x1 in 0 name=amp");
             BLine (lit ".include models.lib * the models"); BLine (lit ".op"); BLine (lit ".plot op v(in)")] in
  exists fp, ex_fs (lit "lib/main.cir") = Some (lit "My Title" :: fp) /\ holds ex_fs (lit "lib") fp bs [lit "lib/models.lib"] /\
    visits ex_fs (lit "lib") [lit "lib/models.lib"] [[BLine (lit ".model ekv m1 type=n"); BLine (lit "v1 in 0 type=vdc vdc=1")]].
Proof.
  assert (LL : forall l conts fp L, (if list_eq_dec ascii_dec (strip l) [] then false else true) = true -> Forall (fun c => exists body, continuation body c) conts ->
     starts_new fp -> forall x, x = joined l conts -> logical fp L -> logical (l :: conts ++ fp) (x :: L)).
  { intros l conts fp L H F SN x -> LG. apply logical_line; auto. unfold blank. destruct (list_eq_dec ascii_dec (strip l) []); [discriminate|assumption]. }
  assert (L1 : forall l fp L, (if list_eq_dec ascii_dec (strip l) [] then false else true) = true -> 
     starts_new fp -> forall x, x = joined l [] -> logical fp L -> logical (l :: fp) (x :: L)).
  { intros l fp L H SN x X LG. apply (LL l [] fp L); auto. }
  assert (IN : forall l, match kind_of l with KSub | KEnds | KEnd => false | _ => true end = true -> inner l).
  { intros l H. unfold inner. destruct (kind_of l); try discriminate H; repeat split; discriminate. }
  eexists. split; [reflexivity|]. split.
  - exists [lit ".end"; lit "ignored"]. split; [|split; [reflexivity|]].
    + apply L1; [reflexivity|vm_compute; discriminate|reflexivity|].
      apply L1; [reflexivity|vm_compute; discriminate|reflexivity|].
      apply (LL (lit "R1 a b") [lit "+ 10k"]); [reflexivity|constructor; [exists (lit " 10k"), []; split; [constructor|reflexivity]|constructor]|vm_compute; discriminate|reflexivity|].
      apply L1; [reflexivity|vm_compute; exact Logic.I|reflexivity|].
      apply logical_blank; [reflexivity|].
      repeat (apply L1; [reflexivity|vm_compute; discriminate || exact Logic.I|reflexivity|]). apply logical_eof.
    + split.
      * repeat (apply Forall_cons; [first [apply IN; reflexivity
          | split; [reflexivity|]; split; [repeat (apply Forall_cons; [apply IN; reflexivity|]); apply Forall_nil|reflexivity]]|]). apply Forall_nil.
      * constructor; [|constructor]. exists (lit ".include"), (lit "models.lib"), [lit "*"; lit "the"; lit "models"].
        split; [reflexivity|]. split; [exists []; reflexivity|]. split; [reflexivity|]. vm_compute. discriminate.
  - eapply visits_next with (ps := []); [reflexivity| |simpl; constructor].
    exists []. split; [|split; [exact Logic.I|]].
    + repeat (apply L1; [reflexivity|vm_compute; discriminate || exact Logic.I|reflexivity|]). apply logical_eof.
    + split; [|constructor]. repeat (apply Forall_cons; [apply IN; reflexivity|]). apply Forall_nil.
Qed.

(** * C114: line numbers *)

(** Every line collected with its number. *)
Definition entries (s : rstate) : list numbered :=
  (r_dirs s ++ r_models s ++ r_post s ++ r_lines s ++ r_cur s ++ concat (r_subs s))%list.
Definition right_number (file : list str) (e : numbered) : Prop :=
  exists l, nth_error file (pred (snd e)) = Some l /\ clean l = fst e.

Lemma in_entries : forall s e, In e (entries s) <->
  In e (r_dirs s) \/ In e (r_models s) \/ In e (r_post s) \/ In e (r_lines s) \/ In e (r_cur s) \/ In e (concat (r_subs s)).
Proof. intros. unfold entries. rewrite !in_app_iff. tauto. Qed.

Lemma take_line_entries : forall fs wd s l s' b, take_line fs wd s l = Ok (s', b) ->
  forall e, In e (entries s') -> In e (entries s) \/ e = (l, r_n s).
Proof.
  intros fs wd s l s' b H e. rewrite take_line_kind in H. rewrite !in_entries.
  destruct (kind_of l).
  - injection H as <- <-. tauto.
  - destruct (r_within s); injection H as <- <-; simpl; rewrite in_app_iff; simpl; intuition.
  - destruct (r_within s); [discriminate|]. injection H as <- <-; simpl; rewrite in_app_iff; simpl; intuition.
  - destruct (r_within s); [|discriminate]. injection H as <- <-; simpl; rewrite concat_app, in_app_iff; simpl; rewrite app_nil_r; tauto.
  - destruct (parse_include fs wd l); [|discriminate]. injection H as <- <-. simpl. tauto.
  - injection H as <- <-. tauto.
  - injection H as <- <-; simpl; rewrite in_app_iff; simpl; intuition.
  - injection H as <- <-; simpl; rewrite in_app_iff; simpl; intuition.
  - injection H as <- <-; simpl; rewrite in_app_iff; simpl; intuition.
Qed.

(** In a netlist of one file without blank lines and without continuation lines, the
    number kept with a line is that of the line in the file. *)
Theorem C114_numbers : forall fs filename title fp s fuel,
  fs filename = Some (title :: fp) ->
  (forall l, In l fp -> exists c r, strip l = c :: r /\ c <> c_cont /\ kind_of (clean l) <> KInc) ->
  read_netlist fs fuel filename = Ok s -> forall e, In e (entries s) -> right_number (title :: fp) e.
Proof.
  intros fs filename title fp s fuel E PL R. unfold read_netlist in R. rewrite E in R. destruct fuel as [|fuel]; [discriminate|].
  cbn [read_files] in R. apply bindr_Ok in R. destruct R as (s1 & R1 & R).
  assert (X : (forall e, In e (entries s1) -> right_number (title :: fp) e) /\ r_files s1 = []).
  { set (wd := path_dir filename) in *.
    assert (G : forall k done rest s0 s2, (title :: fp) = (done ++ rest)%list -> r_n s0 = List.length done -> (forall l, In l rest -> In l fp \/ r_n s0 = 0) ->
       (List.length rest <= k)%nat -> read_file fs k wd s0 rest = Ok s2 ->
       (forall e, In e (entries s0) -> right_number (title :: fp) e) -> r_files s0 = [] ->
       (forall e, In e (entries s2) -> right_number (title :: fp) e) /\ r_files s2 = []).
    { induction k as [|k IH]; intros done [|l rest] s0 s2 EQ NN IN LE RD IE IF; cbn [read_file] in RD; try (injection RD as <-; auto); [simpl in LE; lia|].
      simpl in LE. destruct done as [|d0 done].
      - simpl in NN. rewrite NN in RD. cbn [Nat.eqb] in RD. simpl in RD. injection EQ as -> ->.
        refine (IH [l] rest _ s2 eq_refl _ _ _ RD _ _); simpl; auto; lia.
      - simpl in NN. replace (r_n (at_line s0 (S (r_n s0))) =? 1) with false in RD by (symmetry; apply Nat.eqb_neq; simpl; lia).
        destruct (IN l (or_introl eq_refl)) as [IL|]; [|lia].
        destruct (PL l IL) as (c & r & ST & NC & NI).
        fold (clean l) in RD. destruct (clean l) as [|c0 cl] eqn:CL; [unfold clean in CL; rewrite ST in CL; discriminate|]. rewrite <- CL in RD.
        assert (SN : starts_new rest).
        { destruct rest as [|l2 rest]; [exact Logic.I|]. destruct (IN l2 ltac:(simpl; auto)) as [IL2|]; [|lia].
          destruct (PL l2 IL2) as (c2 & r2 & ST2 & NC2 & _). simpl. rewrite ST2. exact NC2. }
        assert (J : join_lines rest (clean l) = (clean l, rest)).
        { destruct (join_stop rest (clean l) SN) as [J|(l2 & rest2 & E2 & B & _)]; [exact J|]. exfalso. subst rest.
          destruct (IN l2 ltac:(simpl; auto)) as [IL2|]; [|lia]. destruct (PL l2 IL2) as (c2 & r2 & ST2 & _). unfold blank in B. congruence. }
        rewrite J in RD. apply bindr_Ok in RD. destruct RD as ([s3 stop] & T & RD).
        assert (I3 : forall e, In e (entries s3) -> right_number (title :: fp) e).
        { intros e IN3. destruct (take_line_entries _ _ _ _ _ _ T e IN3) as [Y| ->]; [apply IE; exact Y|].
          exists l. split; [|reflexivity]. simpl snd. simpl pred. rewrite NN, EQ. rewrite nth_error_app2 by (simpl; lia).
          replace (S (List.length done) - List.length (d0 :: done)) with 0 by (simpl; lia). reflexivity. }
        assert (F3 : r_files s3 = []).
        { rewrite take_line_kind in T. destruct (kind_of (clean l)) eqn:KL; try (injection T as <- <-; exact IF);
            try (destruct (r_within (at_line s0 (S (r_n s0)))); try discriminate; injection T as <- <-; exact IF).
          exfalso. congruence. }
        destruct stop; [injection RD as <-; auto|].
        pose proof (take_line_n _ _ _ _ _ _ T) as TN. simpl in TN.
        refine (IH ((d0 :: done) ++ [l])%list rest s3 s2 _ _ _ _ RD I3 F3).
        + rewrite <- app_assoc. exact EQ.
        + rewrite app_length. simpl. lia.
        + intros l2 IL2. destruct (IN l2 (or_intror IL2)) as [|]; [auto|lia].
        + lia. }
    refine (G _ [] (title :: fp) r_init s1 eq_refl eq_refl _ (le_n _) R1 _ eq_refl); [intros; right; reflexivity|intros e []]. }
  destruct X as [X1 X2]. rewrite X2 in R. destruct (r_within s1); [discriminate|]. injection R as <-. exact X1.
Qed.
Print Assumptions C114_numbers.

(** Otherwise the number is wrong: continuation lines and the blank line after a line
    are not counted. *)
Theorem C114_refuted : exists file s, read_netlist (fun _ => Some file) 1 (lit "f") = Ok s /\
  (forall l, In l file -> strip l <> []) /\
  exists e, In e (r_lines s) /\ ~ right_number file e /\ nth_error file 3 = Some (fst e) /\ snd e = 3.
Proof.
  exists [lit "title"; lit "r1 1 2"; lit "+1k"; lit "r2 2 0 1k"]. eexists. split; [reflexivity|]. split.
  - intros l H. repeat (destruct H as [<-|H]; [vm_compute; discriminate|]). destruct H.
  - exists (lit "r2 2 0 1k", 3). split; [vm_compute; auto|]. split; [|split; reflexivity].
    intros (l & E & C). vm_compute in E. injection E as <-. vm_compute in C. discriminate.
Qed.
Print Assumptions C114_refuted.
Theorem C114_blank_refuted : exists file s, read_netlist (fun _ => Some file) 1 (lit "f") = Ok s /\
  (forall l, In l file -> match strip l with c :: _ => c <> c_cont | [] => True end) /\
  exists e, In e (r_lines s) /\ ~ right_number file e.
Proof.
  exists [lit "title"; lit "r1 1 2 1k"; []; lit "r2 2 0 1k"]. eexists. split; [reflexivity|]. split.
  - intros l H. repeat (destruct H as [<-|H]; [vm_compute; try exact Logic.I; discriminate|]). destruct H.
  - exists (lit "r2 2 0 1k", 3). split; [vm_compute; auto|].
    intros (l & E & C). vm_compute in E. injection E as <-. vm_compute in C. discriminate.
Qed.
Print Assumptions C114_blank_refuted.
Example C114_example : exists s, read_netlist (fun _ => Some [lit "title"; lit "R1 1 2 1k"; lit "* c"; lit "R2 2 0 1K"; lit ".op"]) 1 (lit "f") = Ok s /\
  r_lines s = [(lit "r1 1 2 1k", 2); (lit "r2 2 0 1k", 4)] /\ r_dirs s = [(lit ".op", 5)].
Proof. eexists. vm_compute. auto. Qed.

(** * C115: .INCLUDE *)

Lemma split_nows : forall s w, Forall (fun c => is_ws c = false) s -> split_aux w s = match (w ++ s)%list with [] => [] | x => [x] end.
Proof.
  induction s as [|c s IH]; intros w F; simpl; [rewrite app_nil_r; destruct w; reflexivity|].
  inversion F as [|? ? H F']; subst. rewrite H, IH by exact F'. rewrite <- app_assoc. reflexivity.
Qed.
Lemma strip_nows : forall s c r, s = c :: r -> is_ws c = false -> (exists x, last s c = x /\ is_ws x = false) -> strip s = s.
Proof.
  intros s c r -> H (x & L & X). unfold strip. cbn [lstrip]. rewrite H.
  assert (E : rev (c :: r) = x :: tl (rev (c :: r))).
  { subst x. destruct (@exists_last _ (c :: r)) as (l' & y & ->); [discriminate|]. rewrite last_last, rev_app_distr. reflexivity. }
  rewrite E. cbn [lstrip]. rewrite X, <- E. apply rev_involutive.
Qed.

(** The name is put in lower case before the file is looked for. *)
Theorem C115_case_refuted : exists fs filename file path, fs filename = Some file /\
  In (lit ".include " ++ path)%list file /\ fs (path_join (path_dir filename) path) <> None /\
  forall fuel, (0 < fuel)%nat -> read_netlist fs fuel filename = Err IOError.
Proof.
  exists (fun p => if streqb p (lit "dir/main.cir") then Some [lit "title"; lit ".include Models.lib"]
                   else if streqb p (lit "dir/Models.lib") then Some [lit ".model ekv m1 type=n"] else None),
    (lit "dir/main.cir"), [lit "title"; lit ".include Models.lib"], (lit "Models.lib").
  split; [reflexivity|]. split; [vm_compute; auto|]. split; [vm_compute; discriminate|].
  intros [|fuel] H; [lia|]. reflexivity.
Qed.
Print Assumptions C115_case_refuted.

(** The name, relative to the directory of the netlist, of a file that exists and has no
    capital letters. *)
Theorem C115_opens : forall fs wd path p, Forall (fun c => is_ws c = false) path -> path <> [] -> slower path = path ->
  p = path_join wd path -> fs p <> None ->
  logical [(lit ".INCLUDE " ++ path)%list] [(lit ".include " ++ path)%list] /\
  kind_of (lit ".include " ++ path) = KInc /\ names_file fs wd (lit ".include " ++ path) p.
Proof.
  intros fs wd path p F NE LW -> X.
  assert (SP : split (lit ".include " ++ path) = [lit ".include"; path]).
  { unfold split. change (lit ".include " ++ path)%list with (lit ".include" ++ " "%char :: path)%list. rewrite split_aux_app_ws by reflexivity.
    change (split_aux [] (lit ".include")) with [lit ".include"]. cbn [app]. f_equal. unfold split. rewrite split_nows by exact F. simpl. destruct path; [congruence|reflexivity]. }
  split; [|split].
  - assert (CL : clean (lit ".INCLUDE " ++ path) = (lit ".include " ++ path)%list).
    { unfold clean. rewrite (strip_nows _ "."%char (lit "INCLUDE " ++ path)); [unfold slower; rewrite map_app; fold (slower path); rewrite LW; reflexivity|reflexivity|reflexivity|].
      destruct (@exists_last _ path NE) as (l' & y & ->). exists y. split.
      - rewrite app_assoc. apply last_last.
      - apply Forall_app in F. destruct F as [_ F]. inversion F; subst. assumption. }
    pose proof (logical_line (lit ".INCLUDE " ++ path) [] [] []) as LL. unfold joined in LL. cbn [flat_map] in LL. rewrite !app_nil_r, CL in LL.
    apply LL; [|constructor|exact Logic.I|constructor]. unfold blank. intros B. unfold clean in CL. rewrite B in CL. discriminate.
  - unfold kind_of. change (lit ".include " ++ path)%list with ("."%char :: (lit "include " ++ path))%list at 1. cbn iota.
    change ("."%char :: (lit "include " ++ path))%list with (lit ".include " ++ path)%list. rewrite SP. reflexivity.
  - exists (lit ".include"), path, []. auto.
Qed.
Print Assumptions C115_opens.
Example C115_example : path_join (path_dir (lit "/home/Me/main.cir")) (lit "models.lib") = lit "/home/Me/models.lib" /\
  path_join (path_dir (lit "main.cir")) (lit "models.lib") = lit "models.lib" /\
  path_join (path_dir (lit "/home/Me/main.cir")) (lit "/lib/models.lib") = lit "/lib/models.lib".
Proof. vm_compute. auto. Qed.

(** * C116: the netlist on the standard input *)

(** The same lines in the same groups, whatever the line numbers. *)
Definition same_groups (s s' : rstate) : Prop :=
  r_title s = r_title s' /\ map fst (r_dirs s) = map fst (r_dirs s') /\ map fst (r_models s) = map fst (r_models s') /\
  map fst (r_post s) = map fst (r_post s') /\ map fst (r_lines s) = map fst (r_lines s') /\ map (map fst) (r_subs s) = map (map fst) (r_subs s').
Definition eqv (s s' : rstate) : Prop :=
  same_groups s s' /\ map fst (r_cur s) = map fst (r_cur s') /\ r_within s = r_within s' /\ r_files s = r_files s'.
Definition req (a b : res rstate) : Prop := match a, b with Ok s, Ok s' => eqv s s' | Err e, Err e' => e = e' | _, _ => False end.

Lemma eqv_refl : forall s, eqv s s.
Proof. intros s. repeat split. Qed.
Lemma req_refl : forall a, req a a.
Proof. intros []; simpl; auto using eqv_refl. Qed.
Lemma req_trans : forall a b c, req a b -> req b c -> req a c.
Proof.
  intros [] [] []; simpl; try tauto; try congruence. unfold eqv, same_groups. intros A B.
  decompose [and] A. decompose [and] B. repeat split; congruence.
Qed.
Lemma req_sym : forall a b, req a b -> req b a.
Proof. intros [] []; simpl; try tauto; try congruence. unfold eqv, same_groups. intros A. decompose [and] A. repeat split; congruence. Qed.
Lemma upto_req : forall a b, upto a b -> req a b.
Proof.
  intros [s|] [s'|]; simpl; try tauto. intros U. destruct s, s'. unfold at_line in U. simpl in U. injection U as -> -> -> -> -> -> -> -> ->.
  repeat split.
Qed.
Lemma eqv_at_line : forall s s' n n', eqv s s' -> eqv (at_line s n) (at_line s' n').
Proof. intros s s' n n' H. exact H. Qed.

Lemma take_eqv : forall fs wd s s' l, eqv s s' ->
  match take_line fs wd s l, take_line fs wd s' l with
  | Ok (a, b), Ok (a', b') => eqv a a' /\ b = b' | Err e, Err e' => e = e' | _, _ => False end.
Proof.
  intros fs wd s s' l E. rewrite !take_line_kind. destruct E as ((E1 & E2 & E3 & E4 & E5 & E6) & E7 & E8 & E9). rewrite <- E8.
  destruct (kind_of l); try destruct (r_within s) eqn:WS; try (destruct (parse_include fs wd l)); cbn [bindr];
    try reflexivity; (split; [|reflexivity]); repeat split; simpl; rewrite ?map_app; cbn [map fst]; try congruence; first [exact (f_equal2 (@app _) E2 eq_refl)|exact (f_equal2 (@app _) E3 eq_refl)|exact (f_equal2 (@app _) E4 eq_refl)|exact (f_equal2 (@app _) E5 eq_refl)|exact (f_equal2 (@app _) E7 eq_refl)|exact (f_equal2 (@app _) E6 (f_equal (fun x => [x]) E7))].
Qed.

Lemma run_eqv : forall fs wd L ns ns' s s', List.length ns = List.length L -> List.length ns' = List.length L -> eqv s s' ->
  req (run_lines fs wd s (combine L ns)) (run_lines fs wd s' (combine L ns')).
Proof.
  intros fs wd. induction L as [|l L IH]; intros [|n ns] [|n' ns'] s s' L1 L2 E; try discriminate; [exact E|].
  cbn [combine run_lines]. pose proof (take_eqv fs wd (at_line s n) (at_line s' n') l (eqv_at_line _ _ _ _ E)) as T.
  destruct (take_line fs wd (at_line s n) l) as [[a b]|e], (take_line fs wd (at_line s' n') l) as [[a' b']|e']; try contradiction; cbn [bindr].
  - destruct T as [T <-]. destruct b; [exact T|]. apply IH; [simpl in L1; lia|simpl in L2; lia|exact T].
  - exact T.
Qed.

(** Every file has its logical lines. *)
Lemma logical_total : forall k fp, (List.length fp <= k)%nat -> exists L, logical fp L.
Proof.
  induction k as [|k IH]; intros [|l fp] K; [exists []; constructor|simpl in K; lia|exists []; constructor|]. simpl in K.
  destruct (strip l) as [|c r] eqn:ST.
  - destruct (IH fp ltac:(lia)) as (L & H). exists L. apply logical_blank; assumption.
  - assert (X : exists conts fp', fp = (conts ++ fp')%list /\ Forall (fun c => exists body, continuation body c) conts /\ starts_new fp').
    { clear. induction fp as [|x fp (conts & fp' & E & F & SN)]; [exists [], []; simpl; auto|].
      destruct (strip x) as [|c r] eqn:ST; [exists [], (x :: fp); simpl; rewrite ST; auto|].
      destruct (ascii_dec c c_cont) as [->|NC]; [|exists [], (x :: fp); simpl; rewrite ST; auto].
      exists (x :: conts), fp'. split; [simpl; congruence|]. split; [|exact SN]. constructor; [|exact F].
      unfold strip in ST. destruct (rstrip_decomp (lstrip x)) as (w2 & _ & E2). rewrite ST in E2.
      destruct (lstrip_decomp x) as (w1 & F1 & E1). exists (r ++ w2)%list, w1. split; [exact F1|]. rewrite E1, E2. reflexivity. }
    destruct X as (conts & fp' & -> & F & SN). rewrite app_length in K. destruct (IH fp' ltac:(lia)) as (L & H).
    exists (joined l conts :: L). apply logical_line; auto. unfold blank. congruence.
Qed.

Definition no_plus (l : str) : Prop := match strip l with c :: _ => c <> c_cont | [] => True end.

Lemma logical_stdin : forall fp L, Forall no_plus fp -> logical fp L -> logical (stdin_lines fp) L.
Proof.
  intros fp L F H. induction H as [|l fp L B LG IH|l conts fp L NB FC SN LG IH].
  - constructor.
  - inversion F; subst. simpl. apply logical_blank; [exact B|]. apply logical_blank; [reflexivity|]. auto.
  - inversion F as [|? ? N F']; subst. destruct conts as [|c conts].
    + simpl. change (l :: [] :: stdin_lines fp)%list with (l :: [] ++ ([] :: stdin_lines fp))%list.
      apply logical_line; [exact NB|constructor|exact Logic.I|]. apply logical_blank; [reflexivity|]. apply IH. exact F'.
    + exfalso. inversion F' as [|? ? NP _]; subst. inversion FC as [|? ? (body & C) _]; subst.
      destruct (cont_strip body c C) as (b' & E & _). unfold no_plus in NP. destruct (strip c) as [|c0 s]; [discriminate|].
      cbn [slower map] in E. injection E as E _. apply NP. apply lower_cont. exact E.
Qed.

Lemma read_file_eqv : forall fs wd fp s s', (1 <= r_n s)%nat -> (1 <= r_n s')%nat -> eqv s s' ->
  req (read_file fs (List.length fp) wd s fp) (read_file fs (List.length fp) wd s' fp).
Proof.
  intros fs wd fp s s' N N' E. destruct (logical_total (List.length fp) fp (le_n _)) as (L & LG).
  destruct (read_logical fs wd _ fp L (le_n _) LG (List.length fp) s (le_n _) N) as (ns & L1 & U1).
  destruct (read_logical fs wd _ fp L (le_n _) LG (List.length fp) s' (le_n _) N') as (ns' & L2 & U2).
  eapply req_trans; [apply upto_req; exact U1|]. eapply req_trans; [apply run_eqv; [exact L1|exact L2|exact E]|]. apply req_sym, upto_req. exact U2.
Qed.

Lemma read_files_eqv : forall fs wd fuel fp s s', (1 <= r_n s)%nat -> (1 <= r_n s')%nat -> eqv s s' ->
  req (read_files fs fuel wd s fp) (read_files fs fuel wd s' fp).
Proof.
  intros fs wd. induction fuel as [|fuel IH]; intros fp s s' N N' E; [reflexivity|]. cbn [read_files].
  pose proof (read_file_eqv fs wd fp s s' N N' E) as Q.
  destruct (read_file fs (List.length fp) wd s fp) as [a|e] eqn:A, (read_file fs (List.length fp) wd s' fp) as [a'|e'] eqn:A'; try contradiction; cbn [bindr]; [|exact Q].
  pose proof Q as (_ & _ & W & FL). rewrite <- W, <- FL. destruct (r_within a); [reflexivity|]. destruct (r_files a) as [|p ps]; [exact Q|].
  destruct (fs p) as [fp'|]; [|reflexivity]. apply IH; [exact (read_file_n _ _ _ _ _ _ A N)|exact (read_file_n _ _ _ _ _ _ A' N')|].
  destruct Q as (Q1 & Q2 & Q3 & Q4). repeat split; try apply Q1; simpl; auto.
Qed.

(** Without continuation lines the standard input gives the same as a file. *)
Theorem C116_no_continuation : forall fs filename f fp fuel, fs filename = Some fp -> path_dir f = path_dir filename -> Forall no_plus fp ->
  match read_netlist fs fuel filename, read_stdin fs fuel (Some f) fp with
  | Ok s, Ok s' => same_groups s s'
  | Err e, Err e' => e = e'
  | _, _ => False
  end.
Proof.
  intros fs filename f fp fuel E D F. unfold read_netlist, read_stdin. rewrite E, D. set (wd := path_dir filename).
  assert (Q : req (read_files fs fuel wd r_init fp) (read_files fs fuel wd r_init (stdin_lines fp))).
  { destruct fp as [|t fp]; [apply req_refl|]. destruct fuel as [|fuel]; [reflexivity|]. cbn [read_files].
    assert (Q : req (read_file fs (List.length (t :: fp)) wd r_init (t :: fp)) (read_file fs (List.length (stdin_lines (t :: fp))) wd r_init (stdin_lines (t :: fp)))).
    { inversion F as [|? ? _ F']; subst. destruct (logical_total (List.length fp) fp (le_n _)) as (L & LG).
      pose proof (logical_stdin fp L F' LG) as LG'.
      change (stdin_lines (t :: fp)) with (t :: [] :: stdin_lines fp)%list. cbn [List.length read_file]. simpl r_n. cbn [Nat.eqb].
      cbn [strip lstrip rev slower map].
      set (s0 := with_title (at_line r_init 1) (slower (strip t))).
      destruct (read_logical fs wd _ fp L (le_n _) LG (List.length fp) s0 (le_n _) (le_n _)) as (ns & L1 & U1).
      destruct (read_logical fs wd _ _ L (le_n _) LG' (List.length (stdin_lines fp)) (at_line s0 2) (le_n _) ltac:(simpl; lia)) as (ns' & L2 & U2).
      eapply req_trans; [apply upto_req; exact U1|]. eapply req_trans; [apply (run_eqv _ _ _ _ ns' s0 (at_line s0 2)); [exact L1|exact L2|exact (eqv_refl s0)]|].
      apply req_sym, upto_req. exact U2. }
    assert (N : forall fp' s, fp' <> [] -> read_file fs (List.length fp') wd r_init fp' = Ok s -> (1 <= r_n s)%nat).
    { intros [|x fp'] s NE R; [congruence|]. cbn [List.length read_file] in R. simpl r_n in R. cbn [Nat.eqb] in R. apply (read_file_n _ _ _ _ _ _ R). simpl. lia. }
    destruct (read_file fs (List.length (t :: fp)) wd r_init (t :: fp)) as [a|e] eqn:A,
      (read_file fs (List.length (stdin_lines (t :: fp))) wd r_init (stdin_lines (t :: fp))) as [a'|e'] eqn:A'; try contradiction; cbn [bindr]; [|exact Q].
    pose proof Q as (_ & _ & W & FL). rewrite <- W, <- FL. destruct (r_within a); [reflexivity|]. destruct (r_files a) as [|p ps]; [exact Q|].
    destruct (fs p) as [fp'|]; [|reflexivity]. apply read_files_eqv; [exact (N (t :: fp) a ltac:(discriminate) A)|exact (N (stdin_lines (t :: fp)) a' ltac:(discriminate) A')|].
    destruct Q as (Q1 & Q2 & Q3 & Q4). repeat split; try apply Q1; simpl; auto. }
  destruct (read_files fs fuel wd r_init fp), (read_files fs fuel wd r_init (stdin_lines fp)); try exact Q. apply Q.
Qed.
Print Assumptions C116_no_continuation.

(** With them it does not: the continuation is taken for a line of its own. *)
Theorem C116_refuted : exists file, (forall f, path_dir f = [] -> forall fs, exists s s',
    read_files fs 1 [] r_init file = Ok s /\ read_stdin fs 1 (Some f) file = Ok s' /\
    map fst (r_lines s) = [lit "r1 1 0 1k"] /\ map fst (r_lines s') = [lit "r1 1 0"; lit "+1k"]).
Proof.
  exists [lit "title"; lit "R1 1 0"; lit "+1k"]. intros f D fs. eexists. eexists. unfold read_stdin. rewrite D.
  split; [reflexivity|]. split; [reflexivity|]. split; reflexivity.
Qed.
Print Assumptions C116_refuted.
(** And without a file name there is no reading at all. *)
Theorem C116_none_refuted : forall fs fuel file, read_stdin fs fuel None file = Err TypeError.
Proof. reflexivity. Qed.
Example C116_example : exists s s', let file := [lit "title"; lit "R1 1 0 1k"; []; lit ".OP"] in
  read_netlist (fun _ => Some file) 1 (lit "f") = Ok s /\ read_stdin (fun _ => None) 1 (Some (lit "-")) file = Ok s' /\
  map fst (r_lines s') = [lit "r1 1 0 1k"] /\ map fst (r_dirs s') = [lit ".op"] /\ r_lines s <> r_lines s'.
Proof. eexists. eexists. split; [vm_compute; reflexivity|]. split; [vm_compute; reflexivity|]. vm_compute. repeat split; congruence. Qed.
