(** Property theorems about the analysis queue (C43, C44, C110). *)
From Coq Require Import Ascii String List Bool Arith Lia.
From Verif Require Import Base BaseFacts Str Subckt PropsSubckt RunQueue.
Import ListNotations.
Open Scope nat_scope.

Section Run.
  Variables C P X : Type.
  Variable known : str -> bool.
  Variable exec : C -> str -> P -> option X -> res X.
  Variable icmod : C -> X -> res X.

  Notation an := (an P X).
  Notation call := (call C P X).
  Notation state := (state C P X).
  Notation loop := (loop C P X known exec icmod).
  Notation run := (run C P X known exec icmod).
  Notation main := (main C P X known exec icmod).
  Notation a_type := (a_type P X).
  Notation a_par := (a_par P X).
  Notation a_x0 := (a_x0 P X).
  Notation queue_ := (queue_ C P X).
  Notation x0s := (x0s C P X).
  Notation log := (log C P X).
  Notation handle := (handle P X).

  (** What identifies an analysis, whatever its starting point becomes. *)
  Definition aid (a : an) : str * P := (a_type a, a_par a).
  Definition cid (k : call) : str * P := (snd (fst (fst k)), snd (fst k)).
  Definition ccirc (k : call) : C := fst (fst (fst k)).
  Definition cx0 (k : call) : option X := snd k.
  (** The result of a call. *)
  Definition outcome (k : call) : res X := exec (ccirc k) (fst (cid k)) (snd (cid k)) (cx0 k).

  Lemma resolve_aid : forall xs a, aid (resolve_one P X xs a) = aid a.
  Proof.
    intros xs a. unfold resolve_one. destruct (a_x0 a) as [[|s|x]|]; auto. destruct (dget streqb xs s); reflexivity.
  Qed.
  Lemma handle_aids : forall xs l l2, handle xs l = Ok l2 -> map aid l2 = map aid l /\ List.length l2 = List.length l.
  Proof.
    intros xs l l2 H. unfold RunQueue.handle in H. destruct l as [|a l]; [inversion H; auto|].
    destruct (unresolved P X _); [discriminate|].
    assert (E : l2 = map (resolve_one P X xs) (a :: l)) by congruence. subst l2. clear H. split.
    - rewrite map_map. apply map_ext. intros x. apply resolve_aid.
    - apply map_length.
  Qed.

  (** ** The loop *)

  (** The result of the last call of type [t]. *)
  Fixpoint last_result (t : str) (done : list call) (d : option X) : option X :=
    match done with
    | [] => d
    | k :: done' => last_result t done' (if streqb t (fst (cid k)) then match outcome k with Ok r => Some r | Err _ => d end else d)
    end.

  Lemma last_result_app : forall t a b d, last_result t (a ++ b) d = last_result t b (last_result t a d).
  Proof. intros t a. induction a as [|k a IH]; intros b d; simpl; auto. Qed.

  Lemma loop_spec : forall fuel c l xs lg rs r rest xs' lg', List.length l <= fuel -> loop c l xs lg rs fuel = (r, rest, xs', lg') ->
    exists done mid, lg' = lg ++ done /\ Forall (fun k => ccirc k = c) done /\ map aid l = map cid done ++ mid ++ map aid rest /\
      match r with
      | Ok rs' => mid = [] /\ rest = [] /\ (forall k, In k done -> exists x, outcome k = Ok x) /\
                  (forall t, dget streqb rs' t = last_result t done (dget streqb rs t))
      | Err _ => List.length mid <= 1
      end.
  Proof.
    induction fuel as [|f IH]; intros c l xs lg rs r rest xs' lg' L H.
    - destruct l; [|simpl in L; lia]. simpl in H. inversion H; subst. exists [], []. rewrite app_nil_r.
      repeat split; auto. intros k [].
    - destruct l as [|a l]; cbn [RunQueue.loop] in H.
      { inversion H; subst. exists [], []. rewrite app_nil_r. repeat split; auto. intros k []. }
      cbn [List.length] in L. destruct (negb (known (a_type a))) eqn:K.
      { inversion H; subst. exists [], [aid a]. rewrite app_nil_r. repeat split; auto. }
      set (k := (c, a_type a, a_par a, starting P X a) : call) in *.
      assert (OK : outcome k = exec c (a_type a) (a_par a) (starting P X a)) by reflexivity.
      destruct (exec c (a_type a) (a_par a) (starting P X a)) as [y|e] eqn:E.
      2:{ inversion H; subst. exists [k], []. repeat split; auto. }
      assert (REST : forall l2 xs2, map aid l2 = map aid l -> List.length l2 = List.length l ->
        loop c l2 xs2 (lg ++ [k]) (dset streqb rs (a_type a) y) f = (r, rest, xs', lg') ->
        exists done mid, lg' = lg ++ done /\ Forall (fun k => ccirc k = c) done /\ map aid (a :: l) = map cid done ++ mid ++ map aid rest /\
          match r with
          | Ok rs' => mid = [] /\ rest = [] /\ (forall k, In k done -> exists x, outcome k = Ok x) /\
                      (forall t, dget streqb rs' t = last_result t done (dget streqb rs t))
          | Err _ => List.length mid <= 1
          end).
      { intros l2 xs2 A2 L2 H2. assert (LE : List.length l2 <= f) by lia. destruct (IH _ _ _ _ _ _ _ _ _ LE H2) as (done & mid & E1 & E2 & E3 & E4).
        exists (k :: done), mid. split; [rewrite E1, <- app_assoc; reflexivity|]. split; [constructor; auto|]. split.
        - cbn [map]. rewrite <- A2, E3. reflexivity.
        - destruct r as [rs'|]; [|exact E4]. destruct E4 as (M & R' & O & D). repeat split; auto.
          + intros k' [<-|Hk]; [exists y; exact OK|apply O; exact Hk].
          + intros t. rewrite D. cbn [last_result]. f_equal. change (fst (cid k)) with (a_type a).
            rewrite (dget_dset streqb streqb_spec). rewrite OK. destruct (streqb t (a_type a)); reflexivity. }
      destruct (streqb (a_type a) op); [|exact (REST l xs eq_refl eq_refl H)].
      destruct (icmod c y) as [ri|e].
      2:{ inversion H; subst. exists [k], []. repeat split; auto. }
      destruct (handle _ l) as [l2|e] eqn:HD.
      2:{ inversion H; subst. exists [k], []. repeat split; auto. }
      destruct (handle_aids _ _ _ HD) as [A2 L2]. exact (REST l2 _ A2 L2 H).
  Qed.

  (** * C43 *)

  (** Without a list: the queued analyses are executed on the circuit given, in
      order, each once; the queue is empty afterwards; and the result for a type is
      that of the last analysis of the type. *)
  Theorem C43_queue_runs_once : forall c s rs s', run c None s = (Ok rs, s') ->
    queue_ s' = [] /\ exists done, log s' = log s ++ done /\ Forall (fun k => ccirc k = c) done /\
      map cid done = map aid (queue_ s) /\ (forall k, In k done -> exists x, outcome k = Ok x) /\
      forall t, dget streqb rs t = last_result t done None.
  Proof.
    intros c s rs s' H. unfold RunQueue.run in H.
    destruct (loop c (queue_ s) (x0s s) (log s) [] (List.length (queue_ s))) as [[[r q] xs] lg] eqn:E.
    inversion H; subst. destruct (loop_spec _ _ _ _ _ _ _ _ _ _ (le_n _) E) as (done & mid & E1 & E2 & E3 & M & R' & O & D).
    subst. cbn [RunQueue.queue_ RunQueue.log]. split; [reflexivity|]. exists done. repeat split; auto.
    rewrite E3. cbn [map]. rewrite !app_nil_r. reflexivity.
  Qed.

  (** If an analysis fails, it is dropped and the ones after it stay queued. *)
  Theorem C43_failure : forall c s e s', run c None s = (Err e, s') ->
    exists done mid, log s' = log s ++ done /\ Forall (fun k => ccirc k = c) done /\ List.length mid <= 1 /\
      map aid (queue_ s) = map cid done ++ mid ++ map aid (queue_ s').
  Proof.
    intros c s e s' H. unfold RunQueue.run in H.
    destruct (loop c (queue_ s) (x0s s) (log s) [] (List.length (queue_ s))) as [[[r q] xs] lg] eqn:E.
    inversion H; subst. destruct (loop_spec _ _ _ _ _ _ _ _ _ _ (le_n _) E) as (done & mid & E1 & E2 & E3 & M).
    exists done, mid. auto.
  Qed.

  (** With a list the queue is untouched. *)
  Theorem C43_list : forall c a l s r s', run c (Some (a :: l)) s = (r, s') ->
    queue_ s' = queue_ s /\ forall rs, r = Ok rs -> exists done, log s' = log s ++ done /\ Forall (fun k => ccirc k = c) done /\
      map cid done = map aid (a :: l) /\ forall t, dget streqb rs t = last_result t done None.
  Proof.
    intros c a l s r s' H. unfold RunQueue.run in H.
    destruct (loop c (a :: l) (x0s s) (log s) [] (List.length (a :: l))) as [[[r' q] xs] lg] eqn:E.
    inversion H; subst. split; [reflexivity|]. intros rs ->.
    destruct (loop_spec _ _ _ _ _ _ _ _ _ _ (le_n _) E) as (done & mid & E1 & E2 & E3 & M & R' & O & D).
    subst. exists done. repeat split; auto. rewrite E3. cbn [map]. rewrite !app_nil_r. reflexivity.
  Qed.

  (** Over any history of [queue] and [run] calls that return: everything queued so
      far was executed once, in the order of queueing, or is still in the queue. *)
  Inductive step : Type := SQueue (l : list an) | SRun (c : C).
  Fixpoint history (ops : list step) (s : state) : option state :=
    match ops with
    | [] => Some s
    | SQueue l :: ops' => history ops' (queue C P X l s)
    | SRun c :: ops' => match run c None s with (Ok _, s') => history ops' s' | (Err _, _) => None end
    end.
  Fixpoint queued (ops : list step) : list an :=
    match ops with [] => [] | SQueue l :: ops' => l ++ queued ops' | SRun _ :: ops' => queued ops' end.

  Theorem C43_history : forall ops s, history ops (mkSt C P X [] [] []) = Some s ->
    map cid (log s) ++ map aid (queue_ s) = map aid (queued ops).
  Proof.
    assert (G : forall ops s s', history ops s = Some s' ->
      map cid (log s') ++ map aid (queue_ s') = (map cid (log s) ++ map aid (queue_ s)) ++ map aid (queued ops)).
    { induction ops as [|[l|c] ops IH]; intros s s' H; cbn [history queued] in *.
      - inversion H; subst. rewrite app_nil_r. reflexivity.
      - rewrite (IH _ _ H). cbn [RunQueue.log RunQueue.queue_ queue]. rewrite !map_app, <- !app_assoc. reflexivity.
      - destruct (run c None s) as [[rs|e] s1] eqn:E; [|discriminate].
        destruct (C43_queue_runs_once c s rs s1 E) as (Q & done & L & _ & I1 & _).
        rewrite (IH _ _ H), Q, L, map_app, I1. cbn [map]. rewrite app_nil_r. reflexivity. }
    intros ops s H. apply (G ops _ _ H).
  Qed.

  (** An empty list is not a list: the queue is executed (and emptied). *)
  Theorem C43_empty_list_refuted : forall c s, run c (Some []) s = run c None s.
  Proof. reflexivity. Qed.

  (** * C44 *)

  (** Two netlists run one after the other, the first with an operating point, the
      second with an analysis that starts from the operating point but has none: it
      gets the one of the first circuit. *)
  Theorem C44_leak_refuted : forall c1 c2 p q t r1 ri s, known op = true -> known t = true -> t <> op ->
    exec c1 op p None = Ok r1 -> icmod c1 r1 = Ok ri ->
    exists rs s1, main c1 [] [mkAn P X op None p] s = (Ok rs, s1) /\
      exists r s2, main c2 [] [mkAn P X t (Some (XText X op)) q] s1 = (r, s2) /\
        log s2 = log s ++ [(c1, op, p, None); (c2, t, q, Some r1)].
  Proof.
    intros c1 c2 p q t r1 ri s K1 K2 N E1 E2.
    unfold RunQueue.main. cbn [fold_left RunQueue.main_loop]. unfold RunQueue.handle at 1. cbn [resolve_one RunQueue.a_x0 unresolved map].
    unfold RunQueue.run. cbn [RunQueue.loop List.length RunQueue.a_type RunQueue.a_par starting RunQueue.a_x0 RunQueue.log RunQueue.queue_ RunQueue.x0s].
    rewrite K1. cbn [negb]. rewrite E1. replace (streqb op op) with true by reflexivity. rewrite E2. cbn [RunQueue.handle].
    do 2 eexists. split; [reflexivity|].
    cbn [RunQueue.main_loop RunQueue.x0s RunQueue.queue_ RunQueue.log]. unfold RunQueue.handle at 1.
    unfold resolve_one. cbn [RunQueue.a_x0 map RunQueue.a_type RunQueue.a_par].
    assert (G : dget streqb (dset streqb (dset streqb (x0s s) op r1) opic ri) op = Some r1).
    { rewrite !(dget_dset streqb streqb_spec). reflexivity. }
    rewrite G. cbn [unresolved RunQueue.a_x0].
    unfold RunQueue.run. cbn [RunQueue.loop List.length RunQueue.a_type RunQueue.a_par starting RunQueue.a_x0 RunQueue.log RunQueue.queue_ RunQueue.x0s].
    rewrite K2. cbn [negb]. destruct (streqb_spec t op) as [T|T]; [congruence|].
    destruct (exec c2 t q (Some r1)) as [y|e]; do 2 eexists; (split; [reflexivity|]); cbn [RunQueue.log]; rewrite <- app_assoc; reflexivity.
  Qed.

  (** Inside one [run], an analysis that names the operating point gets one computed
      in the same run, on the same circuit, or none. *)
  Definition from_op (c : C) (done : list call) (x : X) : Prop :=
    exists p x0, In (c, op, p, x0) done /\ exec c op p x0 = Ok x.
  Definition good (c : C) (done : list call) (a0 a : an) : Prop :=
    a_x0 a0 = Some (XText X op) ->
    a_x0 a = Some (XText X op) \/ exists x, a_x0 a = Some (XVal X x) /\ from_op c done x.

  Lemma good_weaken : forall c d k a0 a, good c d a0 a -> good c (d ++ [k]) a0 a.
  Proof.
    intros c d k a0 a G H. destruct (G H) as [?|(x & E & p & x0 & I1 & E1)]; [left; assumption|right].
    exists x. split; [exact E|]. exists p, x0. split; [apply in_or_app; left; exact I1|exact E1].
  Qed.

  Lemma loop_from : forall fuel c l0 l xs lg rs r rest xs' lg' done0, loop c l xs lg rs fuel = (r, rest, xs', lg') ->
    Forall2 (good c done0) l0 l ->
    exists done, lg' = lg ++ done /\
      forall i a0 k, nth_error l0 i = Some a0 -> a_x0 a0 = Some (XText X op) -> nth_error done i = Some k ->
        cx0 k = None \/ exists x, cx0 k = Some x /\ from_op c (done0 ++ firstn i done) x.
  Proof.
    induction fuel as [|f IH]; intros c l0 l xs lg rs r rest xs' lg' done0 H F.
    - destruct l; simpl in H; inversion H; subst; exists []; rewrite app_nil_r; (split; [reflexivity|]); intros [|i] a0 k _ _ N; discriminate.
    - destruct F as [|a0 a l0 l Ga F]; cbn [RunQueue.loop] in H.
      { inversion H; subst. exists []. rewrite app_nil_r. split; auto. intros i a0 k _ _ N. destruct i; discriminate. }
      destruct (negb (known (a_type a))).
      { inversion H; subst. exists []. rewrite app_nil_r. split; auto. intros i a1 k _ _ N. destruct i; discriminate. }
      set (k := (c, a_type a, a_par a, starting P X a) : call) in *.
      assert (HK : forall a1, a0 = a1 -> a_x0 a1 = Some (XText X op) -> cx0 k = None \/ exists x, cx0 k = Some x /\ from_op c done0 x).
      { intros a1 <- Hx. unfold k, cx0, starting. cbn [snd]. destruct (Ga Hx) as [E|(x & E & Fr)]; rewrite E; [left; reflexivity|right; eauto]. }
      assert (ONE : lg' = lg ++ [k] -> exists done, lg' = lg ++ done /\
        forall i a1 k', nth_error (a0 :: l0) i = Some a1 -> a_x0 a1 = Some (XText X op) -> nth_error done i = Some k' ->
          cx0 k' = None \/ exists x, cx0 k' = Some x /\ from_op c (done0 ++ firstn i done) x).
      { intros ->. exists [k]. split; [reflexivity|]. intros [|[|i]] a1 k' N1 Hx N2; try discriminate.
        inversion N1; inversion N2; subst. cbn [firstn]. rewrite app_nil_r. eapply HK; [reflexivity|exact Hx]. }
      assert (REST : forall l2 xs2 rs2, Forall2 (good c (done0 ++ [k])) l0 l2 -> loop c l2 xs2 (lg ++ [k]) rs2 f = (r, rest, xs', lg') ->
        exists done, lg' = lg ++ done /\
        forall i a1 k', nth_error (a0 :: l0) i = Some a1 -> a_x0 a1 = Some (XText X op) -> nth_error done i = Some k' ->
          cx0 k' = None \/ exists x, cx0 k' = Some x /\ from_op c (done0 ++ firstn i done) x).
      { intros l2 xs2 rs2 F2 H2. destruct (IH _ _ _ _ _ _ _ _ _ _ _ H2 F2) as (done & E & Q). exists (k :: done).
        split; [rewrite E, <- app_assoc; reflexivity|]. intros [|i] a1 k' N1 Hx N2.
        - inversion N1; inversion N2; subst. cbn [firstn]. rewrite app_nil_r. eapply HK; [reflexivity|exact Hx].
        - cbn [nth_error firstn] in *. replace (done0 ++ k :: firstn i done) with ((done0 ++ [k]) ++ firstn i done) by (rewrite <- app_assoc; reflexivity).
          eapply Q; eauto. }
      assert (FW : Forall2 (good c (done0 ++ [k])) l0 l).
      { clear -F. induction F; constructor; auto. apply good_weaken. assumption. }
      destruct (exec c (a_type a) (a_par a) (starting P X a)) as [y|e] eqn:E.
      2:{ inversion H; subst. apply ONE. reflexivity. }
      destruct (streqb (a_type a) op) eqn:T; [|exact (REST l xs _ FW H)].
      destruct (icmod c y) as [ri|e].
      2:{ inversion H; subst. apply ONE. reflexivity. }
      destruct (handle _ l) as [l2|e] eqn:HD.
      2:{ inversion H; subst. apply ONE. reflexivity. }
      apply (REST l2 _ _) in H; [exact H|].
      unfold RunQueue.handle in HD. destruct l as [|b l]; [inversion HD; subst; inversion FW; constructor|].
      destruct (unresolved P X _); [discriminate|].
      assert (E3 : l2 = map (resolve_one P X (dset streqb (dset streqb xs op y) opic ri)) (b :: l)) by congruence. subst l2. clear HD.
      assert (G : dget streqb (dset streqb (dset streqb xs op y) opic ri) op = Some y).
      { rewrite !(dget_dset streqb streqb_spec). reflexivity. }
      assert (FR : from_op c (done0 ++ [k]) y).
      { destruct (streqb_spec (a_type a) op) as [TT|TT]; [|discriminate]. exists (a_par a), (starting P X a).
        split; [apply in_or_app; right; left; unfold k; rewrite TT; reflexivity|rewrite <- TT; exact E]. }
      revert FW G FR. generalize (b :: l) as l1. generalize (dset streqb (dset streqb xs op y) opic ri) as xs1. clear. intros xs1 l1 FW G FR.
      induction FW as [|b0 b' m0 m Gb FW IH]; constructor; auto.
      intros Hx. destruct (Gb Hx) as [E|(x & E & Fr)].
      + right. exists y. unfold resolve_one. rewrite E, G. split; [reflexivity|exact FR].
      + right. exists x. unfold resolve_one. rewrite E. split; [exact E|exact Fr].
  Qed.

  Theorem C44_same_run : forall c a l s r s', run c (Some (a :: l)) s = (r, s') ->
    exists done, log s' = log s ++ done /\
      forall i b k, nth_error (a :: l) i = Some b -> a_x0 b = Some (XText X op) -> nth_error done i = Some k ->
        cx0 k = None \/ exists x, cx0 k = Some x /\ from_op c (firstn i done) x.
  Proof.
    intros c a l s r s' H. unfold RunQueue.run in H.
    destruct (loop c (a :: l) (x0s s) (log s) [] (List.length (a :: l))) as [[[r' q] xs] lg] eqn:E.
    inversion H; subst. cbn [RunQueue.log].
    assert (F : Forall2 (good c []) (a :: l) (a :: l)).
    { generalize (a :: l) as l1. induction l1; constructor; auto. intros Hx. left. exact Hx. }
    exact (loop_from _ _ _ _ _ _ _ _ _ _ _ [] E F).
  Qed.

  (** * C110 *)

  (** A transient analysis on its own whose starting point is the operating point
      (the default) starts from the zero vector. *)
  Theorem C110_refuted : forall c s t p (zeros : X), known t = true ->
    exists r s', run c (Some [mkAn P X t (Some (XText X op)) p]) s = (r, s') /\
      log s' = log s ++ [(c, t, p, None)] /\ tran_start zeros None = zeros.
  Proof.
    intros c s t p zeros K. unfold RunQueue.run. cbn [RunQueue.loop List.length RunQueue.a_type RunQueue.a_par starting RunQueue.a_x0].
    rewrite K. cbn [negb].
    destruct (exec c t p None) as [y|e]; [|do 2 eexists; repeat split; reflexivity].
    destruct (streqb t op); [|do 2 eexists; repeat split; reflexivity].
    destruct (icmod c y); do 2 eexists; repeat split; reflexivity.
  Qed.

  (** Right after an operating point in the same list it starts from that one. *)
  Theorem C110_after_op : forall c s p q t r1 ri, known op = true -> known t = true -> t <> op -> exec c op p None = Ok r1 -> icmod c r1 = Ok ri ->
    exists r s', run c (Some [mkAn P X op None p; mkAn P X t (Some (XText X op)) q]) s = (r, s') /\
      log s' = log s ++ [(c, op, p, None); (c, t, q, Some r1)].
  Proof.
    intros c s p q t r1 ri K1 K2 N E1 E2.
    unfold RunQueue.run. cbn [RunQueue.loop List.length RunQueue.a_type RunQueue.a_par starting RunQueue.a_x0].
    rewrite K1. cbn [negb]. rewrite E1. replace (streqb op op) with true by reflexivity. rewrite E2.
    assert (G : dget streqb (dset streqb (dset streqb (x0s s) op r1) opic ri) op = Some r1).
    { rewrite !(dget_dset streqb streqb_spec). reflexivity. }
    unfold RunQueue.handle. unfold resolve_one. cbn [RunQueue.a_x0 map RunQueue.a_type RunQueue.a_par]. rewrite G. cbn [unresolved RunQueue.a_x0].
    cbn [RunQueue.loop RunQueue.a_type RunQueue.a_par starting RunQueue.a_x0]. rewrite K2. cbn [negb].
    destruct (streqb_spec t op) as [T|T]; [congruence|].
    destruct (exec c t q (Some r1)) as [y|e]; do 2 eexists; (split; [reflexivity|]); cbn [RunQueue.log]; rewrite <- app_assoc; reflexivity.
  Qed.

  (** From a netlist, a missing operating point is reported, unless one is left over
      (C44). *)
  Theorem C110_netlist_reports : forall c ics t p l s, dget streqb (x0s s) op = None -> (forall kv, In kv ics -> fst kv <> op) ->
    fst (main c ics (mkAn P X t (Some (XText X op)) p :: l) s) = Err ValueError.
  Proof.
    intros c ics t p l s H HI. unfold RunQueue.main.
    assert (G : dget streqb (fold_left (fun acc kv => dset streqb acc (fst kv) (snd kv)) ics (x0s s)) op = None).
    { revert HI H. generalize (x0s s) as xs. induction ics as [|kv ics IH]; intros xs HI H; [exact H|]. cbn [fold_left]. apply IH.
      - intros; apply HI; right; assumption.
      - rewrite (dget_dset streqb streqb_spec). destruct (streqb_spec op (fst kv)) as [E|E]; [|exact H].
        exfalso. apply (HI kv (or_introl eq_refl)). congruence. }
    cbn [RunQueue.main_loop RunQueue.x0s]. unfold RunQueue.handle, resolve_one. cbn [RunQueue.a_x0]. rewrite G. cbn [unresolved RunQueue.a_x0]. reflexivity.
  Qed.
End Run.

Print Assumptions C43_queue_runs_once.
Print Assumptions C43_failure.
Print Assumptions C43_list.
Print Assumptions C43_history.
Print Assumptions C43_empty_list_refuted.
Print Assumptions C44_leak_refuted.
Print Assumptions C44_same_run.
Print Assumptions C110_refuted.
Print Assumptions C110_after_op.
Print Assumptions C110_netlist_reports.

(** A concrete instance: circuits, parameters and results are numbers. *)
Definition ex_exec (c : nat) (t : str) (p : nat) (x : option nat) : res nat :=
  if p =? 0 then Err ValueError else Ok (100 * c + p + match x with Some y => y | None => 0 end).
Definition ex_known (t : str) : bool := streqb t (lit "op") || streqb t (lit "tran").
Definition ex_an (t : string) (x : option (x0v nat)) (p : nat) : an nat nat := mkAn nat nat (lit t) x p.
Definition ex_run := run nat nat nat ex_known ex_exec (fun _ x => Ok x).
Definition ex_s := mkSt nat nat nat [ex_an "tran" None 1; ex_an "op" None 2; ex_an "tran" (Some (XText nat (lit "op"))) 3] [] [].
Example C43_example :
  let '(r, s) := ex_run 7 None ex_s in
  r = Ok [(lit "tran", 1405); (lit "op", 702)] /\ queue_ _ _ _ s = [] /\
  log _ _ _ s = [(7, lit "tran", 1, None); (7, lit "op", 2, None); (7, lit "tran", 3, Some 702)].
Proof. vm_compute. auto. Qed.
Example C43_failure_example :
  let '(r, s) := ex_run 7 None (mkSt nat nat nat [ex_an "tran" None 0; ex_an "op" None 2] [] []) in
  r = Err ValueError /\ queue_ _ _ _ s = [ex_an "op" None 2].
Proof. vm_compute. auto. Qed.
