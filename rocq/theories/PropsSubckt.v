(** Property theorems about subcircuits (C28, C29). *)
From Coq Require Import Ascii String List Bool Arith Lia.
From Verif Require Import Base BaseFacts Str Subckt.
Import ListNotations.

(** * Specification: hierarchical names *)

(** A node of the hierarchy: the instances (label, subcircuit) from the top down
    to the place where the node is local, and its name there. *)
Definition path := list (str * str).
Definition hnode := (path * str)%type.
Record helem := mkH { h_path : path; h_id : str; h_nodes : list hnode; h_refs : list str }.

(** [inst path env code out]: the elements of [code], placed at [path], when its
    names denote the nodes given by [env]. *)
Inductive inst (subs : list (str * subckt)) : path -> (str -> hnode) -> list item -> list helem -> Prop :=
| in_nil : forall p env, inst subs p env [] []
| in_elem : forall p env id nodes refs code out, inst subs p env code out ->
    inst subs p env (Elem id nodes refs :: code) (mkH p id (map env nodes) refs :: out)
| in_inst : forall p env label sub params s env' code o1 o2,
    In (sub, s) subs ->
    (* ports are the caller's nodes, ground is ground, the rest is local *)
    (forall port n, In (port, n) params -> env' port = env n) ->
    env' gnd = env gnd ->
    (forall n, n <> gnd -> ~ In n (map fst params) -> env' n = (p ++ [(label, sub)], n)) ->
    (forall port, In port (sk_ports s) <-> In port (map fst params)) ->
    inst subs (p ++ [(label, sub)]) env' (sk_code s) o1 ->
    inst subs p env code o2 ->
    inst subs p env (Inst label sub params :: code) (o1 ++ o2).

Definition top (n : str) : hnode := ([], n).

(** The flat names. *)
Definition node_name (h : hnode) : str := concat (map (fun ls => prefix (fst ls) (snd ls)) (fst h)) ++ snd h.
Definition elem_name (p : path) (id : str) : str :=
  match id with
  | [] => []
  | c :: r => c :: concat (map (fun ls => dash :: prefix (fst ls) (snd ls)) p) ++ r
  end.
Definition flatten (h : helem) : flat := mkFlat (elem_name (h_path h) (h_id h)) (map node_name (h_nodes h)) (h_refs h).

(** Names without '-'. *)
Definition plain (s : str) : Prop := ~ In dash s.
Definition plain_path (p : path) : Prop := Forall (fun ls => plain (fst ls) /\ plain (snd ls)) p.
Definition plain_item (it : item) : Prop :=
  match it with
  | Elem id nodes _ => plain id /\ id <> [] /\ Forall plain nodes
  | Inst label sub params => plain label /\ plain sub /\ Forall (fun c => plain (fst c) /\ plain (snd c) /\ fst c <> gnd) params /\
      NoDup (map fst params)
  end.
Definition plain_subs (subs : list (str * subckt)) : Prop :=
  NoDup (map fst subs) /\ Forall (fun ns => Forall plain_item (sk_code (snd ns))) subs.

(** * Lemmas *)
Lemma streqb_spec : forall a b, reflect (a = b) (streqb a b).
Proof. intros a b. unfold streqb. destruct (list_eq_dec ascii_dec a b); constructor; auto. Qed.

Lemma mem_In : forall x l, mem x l = true <-> In x l.
Proof.
  intros x l. unfold mem. rewrite existsb_exists. split.
  - intros (y & H & E). destruct (streqb_spec x y); [subst; auto|discriminate].
  - intros H. exists x. split; auto. destruct (streqb_spec x x); congruence.
Qed.

Lemma local_name_spec : forall pre conn n, NoDup (map fst conn) -> (forall c, In c conn -> fst c <> gnd) ->
  (n = gnd -> local_name pre conn n = gnd) /\
  (forall m, In (n, m) conn -> local_name pre conn n = m) /\
  (n <> gnd -> ~ In n (map fst conn) -> local_name pre conn n = pre ++ n).
Proof.
  intros pre conn n ND G. unfold local_name, filter_dict. rewrite (dget_dset streqb streqb_spec).
  destruct (streqb_spec n gnd) as [->|NE].
  - repeat split; auto.
    + intros m H. exfalso. apply (G _ H). reflexivity.
    + congruence.
  - split; [congruence|]. split.
    + intros m H. rewrite (In_dget streqb streqb_spec conn n m); auto.
    + intros _ H. replace (dget streqb conn n) with (@None str); [reflexivity|].
      symmetry. apply (dget_None_notin streqb streqb_spec). exact H.
Qed.

Lemma bindr_Ok : forall A B (a : res A) (f : A -> res B) r, bindr a f = Ok r -> exists x, a = Ok x /\ f x = Ok r.
Proof. intros A B [x|e] f r H; [exists x; auto|discriminate]. Qed.

Lemma rename_all_spec : forall pre l r, rename_all pre l = Ok r ->
  Forall2 (fun e e' => f_nodes e' = f_nodes e /\ f_refs e' = f_refs e /\
                       exists c s, f_id e = c :: s /\ f_id e' = c :: dash :: pre ++ s) l r.
Proof.
  induction l as [|e l IH]; intros r H; simpl in H; [injection H as <-; constructor|].
  unfold rename_id in H. destruct (f_id e) as [|c s] eqn:I; [discriminate|]. simpl in H.
  destruct (rename_all pre l) as [r'|]; [|discriminate]. simpl in H. injection H as <-.
  constructor; auto. simpl. repeat split; auto. exists c, s. auto.
Qed.

(** ** The expansion computes the flat names of the specification *)
Section Expand.
  Variable subs : list (str * subckt).
  Hypothesis PS : plain_subs subs.

  (** [add] renders [env] on plain names and on prefixed local names. *)
  Definition renders (p : path) (env : str -> hnode) (add : str -> str) : Prop :=
    (forall n, plain n -> add n = node_name (env n)) /\
    (forall s, ~ plain s -> add s = node_name (p, s)).

  Lemma renders_top : renders [] top (fun n => n).
  Proof. split; intros; reflexivity. Qed.

  Definition env_of (p : path) (env : str -> hnode) (label sub : str) (params : list (str * str)) (n : str) : hnode :=
    match dget streqb params n with
    | Some m => env m
    | None => if streqb n gnd then env gnd else (p ++ [(label, sub)], n)
    end.

  Lemma node_name_snoc : forall p label sub n,
    node_name (p ++ [(label, sub)], n) = node_name (p, prefix label sub ++ n).
  Proof.
    intros. unfold node_name. simpl fst. simpl snd. rewrite map_app, concat_app. simpl.
    rewrite app_nil_r, <- app_assoc. reflexivity.
  Qed.

  Lemma prefix_not_plain : forall label sub n, ~ plain (prefix label sub ++ n).
  Proof.
    intros label sub n H. apply H. unfold prefix. rewrite in_app_iff. left. rewrite in_app_iff. right. left. reflexivity.
  Qed.

  Lemma renders_inst : forall p env add label sub params,
    renders p env add -> plain_item (Inst label sub params) ->
    renders (p ++ [(label, sub)]) (env_of p env label sub params)
            (fun n => add (local_name (prefix label sub) params n)).
  Proof.
    intros p env add label sub params [R1 R2] (PL & PSb & PC & ND). rewrite Forall_forall in PC.
    assert (NG : forall c, In c params -> fst c <> gnd) by (intros c H; apply PC in H; tauto).
    split.
    - intros n PN. unfold env_of.
      destruct (local_name_spec (prefix label sub) params n ND NG) as (L1 & L2 & L3).
      destruct (dget streqb params n) as [m|] eqn:D.
      + apply (dget_In streqb streqb_spec) in D. rewrite (L2 m D). apply R1. apply PC in D. simpl in D. tauto.
      + apply (dget_None_notin streqb streqb_spec) in D. destruct (streqb_spec n gnd) as [->|NE].
        * rewrite L1 by reflexivity. apply R1. intros [H|[]]. discriminate.
        * rewrite L3 by auto. rewrite node_name_snoc. apply R2. apply prefix_not_plain.
    - intros s NP. destruct (local_name_spec (prefix label sub) params s ND NG) as (_ & _ & L3).
      rewrite L3.
      + rewrite node_name_snoc. apply R2. apply prefix_not_plain.
      + intros ->. apply NP. intros [H|[]]. discriminate.
      + intros H. apply in_map_iff in H. destruct H as (c & <- & H). apply PC in H. tauto.
  Qed.

  Lemma elem_name_snoc : forall p label sub c r,
    elem_name (p ++ [(label, sub)]) (c :: r) = elem_name p (c :: (dash :: prefix label sub) ++ r).
  Proof. intros. unfold elem_name. rewrite map_app, concat_app. simpl. rewrite app_nil_r, <- app_assoc. reflexivity. Qed.

  (** The ids come out of the recursion with the prefixes added below [p]. *)
  Definition below (q : path) (h : helem) : flat :=
    mkFlat (elem_name q (h_id h)) (map node_name (h_nodes h)) (h_refs h).

  Lemma expand_spec : forall fuel p env add code out,
    renders p env add -> Forall plain_item code ->
    expand fuel subs add code = Ok out ->
    exists hs, inst subs p env code hs /\
      Forall2 (fun h f => exists q, h_path h = p ++ q /\ f = below q h /\ h_id h <> []) hs out.
  Proof.
    induction fuel as [|fuel IH]; intros p env add code out RD PI H; [discriminate|].
    cbn [expand] in H. revert out H. induction code as [|it code IHc]; intros out H.
    - injection H as <-. exists []. split; constructor.
    - inversion PI as [|? ? PIt PIc]; subst. specialize (IHc PIc).
      apply bindr_Ok in H. destruct H as (l1 & H1 & H).
      apply bindr_Ok in H. destruct H as (l2 & H2 & H).
      injection H as <-. destruct (IHc l2 H2) as (hs2 & I2 & F2). clear IHc H2.
      destruct it as [id nodes refs|label sub params].
      + injection H1 as <-. exists (mkH p id (map env nodes) refs :: hs2). split; [constructor; auto|].
        simpl app. constructor; auto. exists []. rewrite app_nil_r. destruct PIt as (P1 & P2 & P3).
        repeat split; auto. unfold below. simpl. f_equal.
        * destruct id; [congruence|reflexivity].
        * rewrite map_map. apply map_ext_in. intros n Hn. rewrite Forall_forall in P3. apply RD. auto.
      + destruct (dget streqb subs sub) as [s|] eqn:D; [|discriminate].
        destruct (forallb (fun q => mem (fst q) (sk_ports s)) params) eqn:C1; [|discriminate].
        destruct (forallb (fun q => mem q (map fst params)) (sk_ports s)) eqn:C2; [|discriminate].
        cbn [negb] in H1.
        apply bindr_Ok in H1. destruct H1 as (l0 & H0 & H1).
        apply (dget_In streqb streqb_spec) in D.
        destruct (IH (p ++ [(label, sub)]) (env_of p env label sub params)
          (fun n => add (local_name (prefix label sub) params n)) (sk_code s) l0) as (hs1 & I1 & F1); auto.
        { apply renders_inst; auto. }
        { destruct PS as [_ PF]. rewrite Forall_forall in PF. apply (PF _ D). }
        exists (hs1 ++ hs2). split.
        * destruct PIt as (P1 & P2 & P3 & P4). rewrite Forall_forall in P3.
          apply (in_inst subs p env label sub params s (env_of p env label sub params)); auto.
          -- intros port n Hpn. unfold env_of. rewrite (In_dget streqb streqb_spec params port n); auto.
          -- unfold env_of. replace (dget streqb params gnd) with (@None str); [reflexivity|].
             symmetry. apply (dget_None_notin streqb streqb_spec). intros Hg. apply in_map_iff in Hg.
             destruct Hg as (c & Ec & Hc). apply P3 in Hc. tauto.
          -- intros n N1 N2. unfold env_of. apply (dget_None_notin streqb streqb_spec) in N2. rewrite N2.
             destruct (streqb_spec n gnd); [contradiction|reflexivity].
          -- intros port. rewrite forallb_forall in C1, C2. split; intros Hp.
             ++ apply mem_In. apply C2. exact Hp.
             ++ apply in_map_iff in Hp. destruct Hp as (c & <- & Hc). apply mem_In. apply (C1 _ Hc).
        * apply Forall2_app; auto. apply rename_all_spec in H1. clear -F1 H1.
          revert l1 H1. induction F1 as [|h f hs fs E F IHF]; intros l1 H1; inversion H1; subst; [constructor|].
          constructor; auto. destruct E as (q & E1 & -> & E3). destruct H2 as (N1 & N2 & c & r & J1 & J2).
          exists ((label, sub) :: q). rewrite E1, <- app_assoc. repeat split; auto.
          destruct y as [yi yn yr]. simpl in *. subst yn yr yi. unfold below. f_equal.
          destruct (h_id h) as [|c0 r0]; [congruence|]. simpl in J1. injection J1 as <- <-.
          simpl. f_equal. f_equal. unfold prefix. rewrite <- !app_assoc. reflexivity.
  Qed.
End Expand.

(** ** The flat names determine the hierarchical ones *)

(** Words separated by dashes. *)
Fixpoint dashed (ws : list str) : str :=
  match ws with
  | [] => []
  | [w] => w
  | w :: ws' => w ++ dash :: dashed ws'
  end.

Lemma plain_split : forall a b s t, plain a -> plain b -> a ++ dash :: s = b ++ dash :: t -> a = b /\ s = t.
Proof.
  induction a as [|x a IH]; intros [|y b] s t PA PB E; simpl in E.
  - injection E as ->. auto.
  - injection E as <- _. exfalso. apply PB. left. reflexivity.
  - injection E as -> _. exfalso. apply PA. left. reflexivity.
  - injection E as <- E. destruct (IH b s t) as [-> ->]; auto.
    + intros H. apply PA. right. exact H.
    + intros H. apply PB. right. exact H.
Qed.

Lemma dashed_cons : forall w x ws, dashed (w :: x :: ws) = w ++ dash :: dashed (x :: ws).
Proof. reflexivity. Qed.

Lemma dashed_inj : forall ws vs, ws <> [] -> vs <> [] -> Forall plain ws -> Forall plain vs ->
  dashed ws = dashed vs -> ws = vs.
Proof.
  induction ws as [|w ws IH]; intros [|v vs] N1 N2 P1 P2 E; try congruence.
  inversion P1; subst. inversion P2; subst.
  destruct ws as [|w2 ws]; destruct vs as [|v2 vs].
  - simpl in E. congruence.
  - exfalso. rewrite dashed_cons in E. simpl in E. apply H1. rewrite E. apply in_app_iff. right. left. reflexivity.
  - exfalso. rewrite dashed_cons in E. simpl in E. apply H3. rewrite <- E. apply in_app_iff. right. left. reflexivity.
  - rewrite !dashed_cons in E. apply plain_split in E; auto. destruct E as [-> E]. f_equal.
    apply IH; auto; discriminate.
Qed.

Fixpoint node_words (p : path) (n : str) : list str :=
  match p with [] => [n] | (l, s) :: p' => l :: s :: node_words p' n end.
Lemma node_words_ne : forall p n, exists w ws, node_words p n = w :: ws.
Proof. destruct p as [|[l s] p]; simpl; eauto. Qed.

Lemma node_name_dashed : forall p n, node_name (p, n) = dashed (node_words p n).
Proof.
  induction p as [|[l s] p IH]; intros n; [reflexivity|].
  change (node_name ((l, s) :: p, n)) with (((l ++ dash :: s ++ [dash]) ++ concat (map (fun ls => prefix (fst ls) (snd ls)) p)) ++ n).
  cbn [node_words]. destruct (node_words_ne p n) as (w & ws & E). rewrite E, !dashed_cons, <- E, <- IH.
  unfold node_name. simpl fst. simpl snd. repeat (rewrite <- ?app_assoc; simpl). reflexivity.
Qed.

Lemma node_words_inj : forall p q n m, node_words p n = node_words q m -> p = q /\ n = m.
Proof.
  induction p as [|[l s] p IH]; intros [|[l' s'] q] n m E; simpl in E.
  - injection E as ->. auto.
  - discriminate.
  - discriminate.
  - injection E as -> -> E. destruct (IH _ _ _ E) as [-> ->]. auto.
Qed.

Lemma node_words_plain : forall p n, plain_path p -> plain n -> Forall plain (node_words p n).
Proof. induction p as [|[l s] p IH]; intros n P N; simpl; [auto|]. inversion P; subst. simpl in H1. destruct H1. auto. Qed.

Fixpoint elem_words (p : path) (r : str) : list str :=
  match p with [] => [r] | (l, s) :: p' => [] :: l :: s :: elem_words p' r end.

Lemma elem_words_name : forall p c r, p <> [] ->
  elem_name p (c :: r) = [c] ++ dashed (elem_words p r).
Proof.
  intros p c r _. unfold elem_name. simpl app. f_equal.
  induction p as [|[l s] p IH]; [reflexivity|].
  cbn [map concat elem_words]. rewrite !dashed_cons.
  assert (NE : exists w ws, elem_words p r = w :: ws) by (destruct p as [|[? ?] ?]; simpl; eauto).
  destruct NE as (w & ws & E). rewrite E, dashed_cons, <- E, <- IH. unfold prefix. simpl fst. simpl snd.
  simpl app. repeat (rewrite <- ?app_assoc; simpl). reflexivity.
Qed.

Lemma elem_words_plain : forall p r, plain_path p -> plain r -> Forall plain (elem_words p r).
Proof.
  induction p as [|[l s] p IH]; intros r P N; simpl; [auto|]. inversion P; subst. destruct H1.
  apply Forall_cons; [intros []|]. apply Forall_cons; [assumption|]. apply Forall_cons; auto.
Qed.
Lemma elem_words_inj : forall p q r t, elem_words p r = elem_words q t -> p = q /\ r = t.
Proof.
  induction p as [|[l s] p IH]; intros [|[l' s'] q] r t E; simpl in E.
  - injection E as ->. auto.
  - discriminate.
  - discriminate.
  - injection E as -> -> E. destruct (IH _ _ _ E) as [-> ->]. auto.
Qed.

(** * C28 *)

(** With plain names, the circuit that is built is the flattening of the
    hierarchy ... *)
Theorem C28_expansion_guarded : forall fuel subs code out,
  plain_subs subs -> Forall plain_item code ->
  expand fuel subs (fun n => n) code = Ok out ->
  exists hs, inst subs [] top code hs /\ out = map flatten hs.
Proof.
  intros fuel subs code out PS PI H.
  destruct (expand_spec subs PS fuel [] top (fun n => n) code out renders_top PI H) as (hs & I & F).
  exists hs. split; [exact I|]. clear -F. induction F as [|h f hs fs E F IH]; [reflexivity|].
  simpl. rewrite <- IH. f_equal. destruct E as (q & E1 & -> & _). simpl in E1. unfold flatten, below. rewrite E1. reflexivity.
Qed.
Print Assumptions C28_expansion_guarded.

(** ... and two nodes, or two elements, get the same flat name only if they are
    the same in the hierarchy. *)
Theorem C28_names_injective_guarded : forall p q n m,
  plain_path p -> plain_path q -> plain n -> plain m ->
  (node_name (p, n) = node_name (q, m) -> p = q /\ n = m) /\
  (n <> [] -> m <> [] -> elem_name p n = elem_name q m -> p = q /\ n = m).
Proof.
  intros p q n m P Q N M. split.
  - rewrite !node_name_dashed. intros E. apply node_words_inj.
    apply dashed_inj; auto using node_words_plain.
    + destruct (node_words_ne p n) as (? & ? & ->). discriminate.
    + destruct (node_words_ne q m) as (? & ? & ->). discriminate.
  - intros N1 M1 E. destruct n as [|c r]; [congruence|]. destruct m as [|d t]; [congruence|].
    assert (PR : plain r) by (intros H; apply N; right; exact H).
    assert (PT : plain t) by (intros H; apply M; right; exact H).
    assert (EN : forall p c r, elem_name p (c :: r) = c :: dashed (elem_words p r)).
    { intros p0 c0 r0. destruct p0 as [|x p0]; [reflexivity|]. apply (elem_words_name (x :: p0) c0 r0). discriminate. }
    rewrite !EN in E. injection E as <- E.
    assert (W : elem_words p r = elem_words q t).
    { apply dashed_inj; auto using elem_words_plain.
      - destruct p as [|[? ?] ?]; simpl; discriminate.
      - destruct q as [|[? ?] ?]; simpl; discriminate. }
    apply elem_words_inj in W. destruct W as [-> ->]. auto.
Qed.
Print Assumptions C28_names_injective_guarded.

(** With dashes in the names, a node of the caller is taken for an internal node
    of an instance, and nodes of two instances are joined. *)
Definition buf : subckt := mkSub [lit "in"; lit "out"]
  [Elem (lit "r1") [lit "in"; lit "mid"] []; Elem (lit "r2") [lit "mid"; lit "out"] []].

Theorem C28_caller_node_refuted : exists out,
  expand 2 [(lit "buf", buf)] (fun n => n)
    [Inst (lit "x1") (lit "buf") [(lit "in", lit "a"); (lit "out", lit "b")];
     Elem (lit "r9") [lit "x1-buf-mid"; lit "0"] []] = Ok out /\
  map f_nodes out = [[lit "a"; lit "x1-buf-mid"]; [lit "x1-buf-mid"; lit "b"]; [lit "x1-buf-mid"; lit "0"]].
Proof. eexists. vm_compute. split; reflexivity. Qed.
Print Assumptions C28_caller_node_refuted.

Theorem C28_two_instances_refuted : exists out,
  expand 2 [(lit "a-b", mkSub [lit "p"] [Elem (lit "r1") [lit "p"; lit "m"] []]);
            (lit "b", mkSub [lit "p"] [Elem (lit "r1") [lit "p"; lit "m"] []])] (fun n => n)
    [Inst (lit "x1") (lit "a-b") [(lit "p", lit "u")]; Inst (lit "x1-a") (lit "b") [(lit "p", lit "v")]] = Ok out /\
  map f_nodes out = [[lit "u"; lit "x1-a-b-m"]; [lit "v"; lit "x1-a-b-m"]] /\
  map f_id out = [lit "r-x1-a-b-1"; lit "r-x1-a-b-1"].
Proof. eexists. vm_compute. repeat split; reflexivity. Qed.
Print Assumptions C28_two_instances_refuted.

(** Two levels: the flat names of the inner instance. *)
Example C28_example : exists out,
  expand 3 [(lit "buf", buf);
            (lit "two", mkSub [lit "i"; lit "o"]
               [Inst (lit "xa") (lit "buf") [(lit "in", lit "i"); (lit "out", lit "m")];
                Inst (lit "xb") (lit "buf") [(lit "in", lit "m"); (lit "out", lit "o")]])]
    (fun n => n) [Inst (lit "x1") (lit "two") [(lit "i", lit "n1"); (lit "o", lit "0")]] = Ok out /\
  map f_nodes out =
    [[lit "n1"; lit "x1-two-xa-buf-mid"]; [lit "x1-two-xa-buf-mid"; lit "x1-two-m"];
     [lit "x1-two-m"; lit "x1-two-xb-buf-mid"]; [lit "x1-two-xb-buf-mid"; lit "0"]] /\
  map f_id out = [lit "r-x1-two--xa-buf-1"; lit "r-x1-two--xa-buf-2"; lit "r-x1-two--xb-buf-1"; lit "r-x1-two--xb-buf-2"].
Proof. eexists. vm_compute. repeat split; reflexivity. Qed.

(** * C29 *)

(** References keep their local name, and no element of an instance has a name
    without dash: a reference between elements of an instance never finds its
    target. *)
Theorem C29_references_refuted : forall subs p env code hs h,
  inst subs p env code hs -> p <> [] -> In h hs ->
  forall h', In h' hs -> forall r, In r (f_refs (flatten h)) -> plain r -> r <> [] ->
  h_id h' <> [] -> f_id (flatten h') <> r.
Proof.
  intros subs p env code hs h I NP H h' H' r R PR NR NI E.
  assert (PP : forall p env code hs, inst subs p env code hs -> forall h, In h hs -> exists q, h_path h = p ++ q).
  { clear. induction 1; intros h Hh.
    - destruct Hh.
    - destruct Hh as [<-|Hh]; [exists []; simpl; rewrite app_nil_r; reflexivity|auto].
    - apply in_app_iff in Hh. destruct Hh as [Hh|Hh]; auto.
      destruct (IHinst1 _ Hh) as (q & ->). exists ((label, sub) :: q). rewrite <- app_assoc. reflexivity. }
  destruct (PP _ _ _ _ I _ H') as (q & E1).
  apply PR. rewrite <- E. simpl. unfold elem_name. destruct (h_id h') as [|c s]; [congruence|].
  rewrite E1. destruct p as [|[l s0] p]; [congruence|]. simpl. auto.
Qed.
Print Assumptions C29_references_refuted.

(** A concrete instance: the current mirror of an instance looks for [vs]; a
    source of that name at the top is sensed instead. *)
Theorem C29_wrong_source_refuted : exists out,
  expand 2 [(lit "mir", mkSub [lit "i"; lit "o"]
      [Elem (lit "vs") [lit "i"; lit "0"] []; Elem (lit "f1") [lit "o"; lit "0"] [lit "vs"]])] (fun n => n)
    [Inst (lit "x1") (lit "mir") [(lit "i", lit "a"); (lit "o", lit "b")]; Elem (lit "vs") [lit "c"; lit "0"] []] = Ok out /\
  map f_id out = [lit "v-x1-mir-s"; lit "f-x1-mir-1"; lit "vs"] /\
  map f_refs out = [[]; [lit "vs"]; []].
Proof. eexists. vm_compute. repeat split; reflexivity. Qed.
Print Assumptions C29_wrong_source_refuted.
