(** A transient analysis that starts from the operating point, with constant sources (C223). *)
From Coq Require Import Ascii String Reals List Bool Arith ZArith Lia Lra.
From Verif Require Import Base BaseFacts Str Units Directive Lines Reader Netlist ModelLines Nodes NodesFacts Circuit CircuitFacts Rsum Mna MnaSpec DcSolve Newton
  NewtonFacts DynFacts Df Tran TranFacts PropsTran Ac AcFacts Sweep Csv PropsCsv Results PropsDirective PropsReader PropsNetlist PropsResults PropsMna PropsDc PropsAc Session PropsSetup
  RunQueue Ics PropsIcs Subckt PropsSubckt Simulate PropsSimulate SimulateAc PropsSimulateAc SimulateDc PropsSimulateDc SimulateTran PropsSimulateTran SimulateNl PropsSimulateNl
  SimulateSub PropsSimulateSub PropsSimulateHier PropsSimulateSubLaws PropsSimulateOp PropsSimulatePz SimulateMain PropsSimulateMain Lagrange.
Import ListNotations.
Open Scope R_scope.

(** * The slope that a method finds after a quantity that did not change *)
Lemma deriv_ext : forall f g x l, (forall s, f s = g s) -> derivable_pt_lim f x l -> derivable_pt_lim g x l.
Proof. intros f g x l E H eps He. destruct (H eps He) as (d & K). exists d. intros h H0 H1. rewrite <- !E. auto. Qed.
Lemma NoDup_front : forall A (l m : list A), NoDup (l ++ m) -> NoDup l.
Proof. induction l as [|a l IH]; intros m H; [constructor|]. inversion H as [|? ? NI ND]; subst. constructor; [intros I'; apply NI; apply in_or_app; left; exact I'|exact (IH m ND)]. Qed.
Lemma roots : forall l n c, List.length l = n -> NoDup l -> (forall a, In a l -> peval n c a = 0) -> exists A, forall s, peval n c s = A * lprod (fun a => s - a) l.
Proof.
  induction l as [|a l IH]; intros n c LN ND H; cbn [List.length] in LN; subst n.
  - exists (c 0%nat). intros s. rewrite peval_0. cbn. ring.
  - inversion ND as [|? ? NI ND']; subst. destruct (peval_factor (List.length l) c a) as (d & F). rewrite (H a (or_introl eq_refl)) in F.
    destruct (IH _ d eq_refl ND') as (A & K).
    { intros b IB. pose proof (H b (or_intror IB)) as Z. rewrite F in Z. rewrite Rplus_0_l in Z. apply Rmult_integral in Z. destruct Z as [Z|Z]; [|exact Z]. exfalso. apply NI. replace a with b by lra. exact IB. }
    exists A. intros s. rewrite F, K. cbn [lprod fold_right]. unfold lprod. ring.
Qed.
Lemma lprod_deriv : forall l T, (forall a, In a l -> a < T) -> derivable_pt_lim (fun s => lprod (fun a => s - a) l) T (lprod (fun a => T - a) l * lsum (fun a => / (T - a)) l).
Proof.
  induction l as [|a l IH]; intros T H.
  - cbn. rewrite Rmult_0_r. apply derivable_pt_lim_const.
  - assert (H' : forall b, In b l -> b < T) by (intros b B; apply H; right; exact B). pose proof (H a (or_introl eq_refl)) as HA.
    replace (lprod (fun a => T - a) (a :: l) * lsum (fun a => / (T - a)) (a :: l)) with ((1 - 0) * lprod (fun a => T - a) l + (T - a) * (lprod (fun a => T - a) l * lsum (fun a => / (T - a)) l)).
    + apply (deriv_ext (mult_fct (fun s => s - a) (fun s => lprod (fun a => s - a) l))); [reflexivity|].
      apply (derivable_pt_lim_mult (fun s => s - a) (fun s => lprod (fun a => s - a) l) T (1 - 0) _); [|apply IH; exact H']. apply (derivable_pt_lim_minus id (fct_cte a)); [apply derivable_pt_lim_id|apply derivable_pt_lim_const].
    + cbn [lprod lsum fold_right]. fold (lprod (fun a => T - a) l). field. lra.
Qed.
Lemma lsum_pos : forall l T, l <> [] -> (forall a, In a l -> a < T) -> 0 < lsum (fun a => / (T - a)) l.
Proof.
  induction l as [|a l IH]; intros T NE H; [congruence|]. pose proof (Rinv_0_lt_compat (T - a) ltac:(specialize (H a (or_introl eq_refl)); lra)) as Q.
  cbn [lsum fold_right]. destruct l as [|b l]; [cbn; lra|]. specialize (IH T ltac:(discriminate) (fun b B => H b (or_intror B))). lra.
Qed.

Definition built_in (d : dform) : Prop := match d with DModule _ => False | DGear k => (0 < k)%nat | _ => True end.
Lemma slope_rest : forall P (tm : P -> R) d p past, past <> [] -> (forall q, In q past -> tm q < tm p) -> NoDup (map tm past) -> built_in d ->
  exists k, 0 < k /\ forall x dx c, (forall q, In q past -> x q = c) -> (forall q r, past = q :: r -> r <> [] -> dx q = 0) -> slope_rule tm d past p x dx -> dx p = k * (x p - c).
Proof.
  intros P tm d p past NE LT ND BD. destruct past as [|q rest]; [congruence|]. pose proof (LT q (or_introl eq_refl)) as LQ. pose proof (Rinv_0_lt_compat (tm p - tm q) ltac:(lra)) as Q.
  assert (BACK : exists k, 0 < k /\ forall (x dx : P -> R) c, (forall q', In q' (q :: rest) -> x q' = c) -> dx p = (x p - x q) / (tm p - tm q) -> dx p = k * (x p - c)).
  { exists (/ (tm p - tm q)). split; [exact Q|]. intros x dx c XC ->. rewrite (XC q (or_introl eq_refl)). unfold Rdiv. ring. }
  destruct d as [| |k|s]; cbn [slope_rule] in *; [| | |destruct BD].
  - destruct BACK as (k & K & B). exists k. split; [exact K|]. intros x dx c XC _ H. exact (B x dx c XC H).
  - destruct rest as [|r rest].
    + destruct BACK as (k & K & B). exists k. split; [exact K|]. intros x dx c XC _ H. exact (B x dx c XC H).
    + exists (2 / (tm p - tm q)). split; [unfold Rdiv; lra|]. intros x dx c XC DZ H. rewrite (DZ q (r :: rest) eq_refl ltac:(discriminate)) in H. rewrite (XC q (or_introl eq_refl)) in H. unfold Rdiv in *. lra.
  - destruct (List.length (q :: rest) <=? k)%nat eqn:LE.
    + destruct BACK as (k' & K & B). exists k'. split; [exact K|]. intros x dx c XC _ H. exact (B x dx c XC H).
    + apply Nat.leb_gt in LE. set (past := q :: rest) in *. set (l := map tm (firstn k past)).
      assert (LL : List.length l = k) by (unfold l; rewrite map_length, firstn_length; lia).
      assert (SUB : forall a, In a l -> exists q', In q' (firstn k past) /\ In q' past /\ tm q' = a).
      { intros a IA. apply in_map_iff in IA. destruct IA as (q' & E & I'). exists q'. split; [exact I'|]. split; [|exact E]. rewrite <- (firstn_skipn k past). apply in_or_app. left. exact I'. }
      assert (LTL : forall a, In a l -> a < tm p) by (intros a IA; destruct (SUB a IA) as (q' & _ & I' & <-); apply LT; exact I').
      assert (NDL : NoDup l). { unfold l. rewrite <- firstn_map. apply (NoDup_front _ _ (skipn k (map tm past))). rewrite firstn_skipn. exact ND. }
      exists (lsum (fun a => / (tm p - a)) l). split; [apply lsum_pos; [|exact LTL]; intros E; rewrite E in LL; cbn in LL; cbn [built_in] in BD; lia|].
      intros x dx c XC _ (a & HP & HQ & HD).
      set (a' := fun j => match j with 0%nat => a 0%nat - c | _ => a j end).
      assert (PE : forall s, rsum (S k) (fun j => a j * s ^ j) = c + peval k a' s).
      { intros s. change (peval k a s = c + peval k a' s). destruct k as [|k]; [rewrite !peval_0; cbn; ring|]. rewrite !peval_S. cbn [a']. ring. }
      destruct (roots l k a' LL NDL) as (A & RT).
      { intros b IB. destruct (SUB b IB) as (q' & I1 & I2 & <-). specialize (HQ q' I1). cbv beta in HQ. rewrite PE, (XC q' I2) in HQ. lra. }
      cbv zeta beta in HP. rewrite PE, RT in HP.
      assert (D2 : derivable_pt_lim (fun s => rsum (S k) (fun j => a j * s ^ j)) (tm p) (0 + A * (lprod (fun a => tm p - a) l * lsum (fun a => / (tm p - a)) l))).
      { apply (deriv_ext (plus_fct (fct_cte c) (mult_real_fct A (fun s => lprod (fun a => s - a) l)))).
        - intros s. rewrite PE, RT. reflexivity.
        - apply derivable_pt_lim_plus; [apply derivable_pt_lim_const|]. apply derivable_pt_lim_scal. apply lprod_deriv. exact LTL. }
      rewrite (uniqueness_limite _ _ _ _ HD D2). rewrite <- HP. ring.
Qed.

(** * One point *)
Section Rest.
  Variables (parts : list pelem) (src : pelem -> R) (c : R) (V0 I0 : str -> R).
  Hypothesis SO : Forall (ac_sound parts) parts.
  Hypothesis L0 : laws src V0 I0 parts.
  Hypothesis REG : forall k, 0 < k -> tr_regular k 0 c parts.
  Lemma so_nl : Forall (nl_sound parts) parts.
  Proof. apply Forall_forall. intros e IE. pose proof (proj1 (Forall_forall _ _) SO e IE) as H. destruct e; cbn [nl_sound]; try exact H; destruct H as (H & _); destruct H. Qed.
  Lemma leaving_diff : forall src' V I dV n l, (forall e, In e l -> src' e = src e) ->
    tr_leaving (fun _ => 0) (fun m => V m - V0 m) (fun m => I m - I0 m) dV n l = tr_leaving src' V I dV n l - leaving src V0 I0 n l.
  Proof.
    intros src' V I dV n l. induction l as [|e l IH]; intros ES; [cbn; ring|]. cbn [tr_leaving leaving]. rewrite IH by (intros; apply ES; right; assumption).
    pose proof (ES e (or_introl eq_refl)) as EE.
    assert (T : tr_through (fun _ => 0) (fun m => V m - V0 m) (fun m => I m - I0 m) dV e = tr_through src' V I dV e - through src V0 I0 e).
    { destruct e; cbn [tr_through through]; rewrite ?EE; unfold Rdiv; ring. }
    unfold tr_leaving1, leaving1. rewrite T. repeat match goal with |- context [if ?b then _ else _] => destruct b end; ring.
  Qed.
  Lemma point_rest : forall src' k V I dV dI, (forall e, In e parts -> src' e = src e) -> 0 < k -> tr_laws src' 0 c parts V I dV dI ->
    (forall n, In n (node_list parts) -> n <> lit "0" -> dV n = k * (V n - V0 n)) -> (forall id, In id (current_ids parts) -> dI id = k * (I id - I0 id)) ->
    (forall n, In n (node_list parts) -> V n = V0 n) /\ (forall id, In id (current_ids parts) -> I id = I0 id).
  Proof.
    intros src' k V I dV dI ES K (G1 & G2 & KCL & LW) HV HI. destruct L0 as (Z0 & KCL0 & LW0).
    set (w := fun n => if in_dec (list_eq_dec ascii_dec) n (node_list parts) then V n - V0 n else 0).
    set (j := fun n => if in_dec (list_eq_dec ascii_dec) n (current_ids parts) then I n - I0 n else 0).
    assert (WI : forall n, In n (node_list parts) -> w n = V n - V0 n) by (intros n IN; unfold w; destruct (in_dec _ _ _); [reflexivity|contradiction]).
    assert (JI : forall n, In n (current_ids parts) -> j n = I n - I0 n) by (intros n IN; unfold j; destruct (in_dec _ _ _); [reflexivity|contradiction]).
    assert (WD : forall n, In n (node_list parts) -> k * w n = dV n).
    { intros n IN. rewrite (WI n IN). destruct (list_eq_dec ascii_dec n (lit "0")) as [->|N0]; [rewrite G1, G2, Z0; ring|symmetry; apply HV; assumption]. }
    assert (JD : forall n, In n (current_ids parts) -> k * j n = dI n) by (intros n IN; rewrite (JI n IN); symmetry; apply HI; exact IN).
    destruct (REG k K w j (fun n => k * w n) (fun n => k * j n) (fun _ => eq_refl) (fun _ => eq_refl)) as (A & B).
    - assert (W0 : w (lit "0") = 0) by (unfold w; destruct (in_dec _ _ _); [rewrite G1, Z0; ring|reflexivity]).
      split; [exact W0|]. split; [rewrite W0; ring|]. split.
      + intros n IN N0. rewrite (leaving_agree parts so_nl w (fun m => V m - V0 m) j (fun m => I m - I0 m) (fun m => k * w m) dV WI JI WD (fun _ => 0) (fun _ => 0) n parts (incl_refl _) (fun _ _ => eq_refl)).
        rewrite (leaving_diff src' V I dV n parts ES), (KCL0 n), (WD n IN). specialize (KCL n IN N0). lra.
      + apply Forall_forall. intros e IE.
        apply (law_agree parts so_nl (fun m => V m - V0 m) w (fun m => I m - I0 m) j dI (fun m => k * j m) (fun n IN => eq_sym (WI n IN)) (fun n IN => eq_sym (JD n IN)) (fun _ => 0) (fun _ => 0) e IE eq_refl).
        pose proof (proj1 (Forall_forall _ _) LW e IE) as L1. pose proof (proj1 (Forall_forall _ _) LW0 e IE) as L2. specialize (ES e IE).
        destruct e; cbn [tr_law law] in *; try exact Logic.I; lra.
    - split; intros n IN; [specialize (A n IN); rewrite (WI n IN) in A|specialize (B n IN); rewrite (JI n IN) in B]; lra.
  Qed.

  (** * The whole run *)
  Definition here (p : tpoint) : Prop := (forall n, In n (node_list parts) -> n <> lit "0" -> p_V p n = V0 n) /\ (forall id, In id (current_ids parts) -> p_I p id = I0 id).
  Definition quiet (p : tpoint) : Prop := (forall n, In n (node_list parts) -> n <> lit "0" -> p_dV p n = 0) /\ (forall id, In id (current_ids parts) -> p_dI p id = 0).
  Fixpoint resting (run : list tpoint) : Prop :=
    match run with [] => True | p :: past => here p /\ (past <> [] -> quiet p) /\ resting past end.
  Lemma resting_here : forall run p, resting run -> In p run -> here p.
  Proof. induction run as [|q run IH]; intros p RS I'; [destruct I'|]. destruct RS as (H & _ & R'). destruct I' as [<-|I']; [exact H|exact (IH p R' I')]. Qed.
  Lemma marches_times : forall srct g d run p past, marches srct g c parts d run -> run = p :: past -> (forall q, In q past -> p_t q < p_t p) /\ NoDup (map p_t run).
  Proof.
    intros srct g d. induction run as [|p0 run IH]; intros p past M E; [discriminate E|]. injection E as -> ->. cbn [marches] in M. destruct M as (M1 & M2).
    destruct past as [|q past]; [split; [intros q []|cbn; constructor; [intros []|constructor]]|]. destruct M1 as (T & _). destruct (IH q past M2 eq_refl) as (LT & ND).
    assert (LT' : forall r, In r (q :: past) -> p_t r < p_t p) by (intros r [<-|I']; [exact T|specialize (LT r I'); lra]).
    split; [exact LT'|]. cbn [map]. constructor; [|exact ND]. change (~ In (p_t p) (map p_t (q :: past))). intros H. apply in_map_iff in H. destruct H as (r & E & I'). specialize (LT' r I'). lra.
  Qed.
  Lemma run_rest : forall srct d run start, (forall time e, In e parts -> srct time e = src e) -> built_in d -> here start ->
    marches srct 0 c parts d (run ++ [start]) -> resting (run ++ [start]).
  Proof.
    intros srct d run start ES BD HS. induction run as [|p run IH]; intros M.
    - cbn [app resting]. split; [exact HS|]. split; [congruence|exact Logic.I].
    - cbn [app] in *. pose proof (marches_times _ _ _ _ _ _ M eq_refl) as (LT & ND). cbn [marches] in M. destruct M as (M1 & M2). specialize (IH M2). inversion ND as [|? ? _ ND']; subst.
      destruct (run ++ [start]) as [|q past] eqn:EP; [destruct run; discriminate EP|]. rewrite <- EP in *. destruct M1 as (T & TL & SV & SI).
      assert (NE : run ++ [start] <> []) by (rewrite EP; discriminate).
      destruct (slope_rest tpoint p_t d p (run ++ [start]) NE LT ND' BD) as (k & K & SR).
      assert (QU : forall q' r, run ++ [start] = q' :: r -> r <> [] -> quiet q') by (intros q' r E NR; rewrite E in IH; apply IH; exact NR).
      assert (DV : forall n, In n (node_list parts) -> n <> lit "0" -> p_dV p n = k * (p_V p n - V0 n)).
      { intros n IN N0. apply (SR (fun q => p_V q n) (fun q => p_dV q n)); [intros q' I'; apply (resting_here _ _ IH I'); assumption| |exact (SV n IN N0)].
        intros q' r E NR. apply (QU q' r E NR); assumption. }
      assert (DI : forall id, In id (current_ids parts) -> p_dI p id = k * (p_I p id - I0 id)).
      { intros id IN. apply (SR (fun q => p_I q id) (fun q => p_dI q id)); [intros q' I'; apply (resting_here _ _ IH I'); assumption| |exact (SI id IN)].
        intros q' r E NR. apply (QU q' r E NR); assumption. }
      destruct (point_rest (srct (p_t p)) k (p_V p) (p_I p) (p_dV p) (p_dI p) (fun e IE => ES _ e IE) K TL DV DI) as (A & B).
      cbn [resting]. split; [split; [intros n IN _; exact (A n IN)|exact B]|]. split; [|exact IH]. intros _. split.
      + intros n IN N0. rewrite (DV n IN N0), (A n IN). ring.
      + intros id IN. rewrite (DI id IN), (B id IN). ring.
  Qed.
End Rest.

(** * C223 *)

(** No source changes with time. *)
Definition steady (at_time : str -> R -> R) (parts : list pelem) : Prop :=
  forall e time, In e parts -> driven (fun id => at_time id time) written_dc e = driven (fun id => at_time id 0) written_dc e.

Lemma chosen_built_in : forall has_module m d, choose_df has_module m = Ok d -> built_in d.
Proof.
  intros has_module m d H. unfold choose_df, import_custom_df_module, load_module in H. change (1 =? 4)%nat with false in H. cbv iota in H.
  repeat match type of H with context [if ?b then _ else _] => destruct b end; try discriminate H; injection H as <-; cbn; auto; lia.
Qed.
Lemma map_same : forall A B (f : A -> R) (g : A -> B) v l, (forall p, In p l -> f p = v) -> map f l = repeat v (List.length (map g l)).
Proof. intros A B f g v l. induction l as [|p l IH]; intros H; [reflexivity|]. cbn [map List.length repeat]. rewrite (H p (or_introl eq_refl)), IH; [reflexivity|]. intros q Q. apply H. right. exact Q. Qed.

(** With gmin = 0 the circuit stays at the operating point, with each method of integration and any steps. *)
Theorem C223_stays_guarded : forall solve csolve JT check locked o tdo damp_first maxit acit trit fuel topt cmin gmin at_time guess skip inv modules has_module rounds settings rest icmod
    fs user depth files filename parts t es rs dirs before1 opline before2 line after owords words a s b m,
  main_file solve csolve JT check locked o tdo damp_first maxit acit trit fuel topt cmin gmin at_time guess skip inv modules has_module rounds settings rest icmod
    fs user depth files filename = Ok (parts, t, es, rs) ->
  directives fs files filename dirs -> dirs = before1 ++ opline :: before2 ++ line :: after ->
  asks "op" opline owords -> Forall (fun l => ~ of_type "op" l) before2 -> asks "tran" line words -> Forall (fun l => ~ of_type "tran" l) after -> Forall (fun l => ~ of_type "op" l) after ->
  quantity "tstep" (Some 0)%nat words s -> quantity "tstop" (Some 1)%nat words b -> quantity "tstart" None words a \/ (absent "tstart" None words /\ a = 0) ->
  (exists v, parameter "method" None words v /\ m = Some (ss v)) \/ (absent "method" None words /\ m = None) -> uses_ic words 1 -> 0 < s ->
  (forall line l, user line = Ok l -> Forall word_names l) ->
  Forall (ac_sound parts) parts -> (forall k, 0 < k -> tr_regular k gmin (Rmax 0 cmin) parts) -> well_posed (dc_source (fun id => at_time id 0)) parts ->
  solver_ok solve (op_size t es) -> d_first tdo = false -> (0 < maxit)%nat -> (0 < trit)%nat -> (0 < fuel)%nat -> o_std o = true ->
  steady at_time parts -> gmin = 0 ->
  exists q r, dget streqb rs (lit "op") = Some (ROp q) /\ dget streqb rs (lit "tran") = Some (RTran r) /\ forall x flag rows, q = Some (x, flag) -> r = Some rows ->
  exists times, times <> [] /\ b <= last_from a times /\ (forall name, slower name = lit "t" -> tran_report t es rows name = Ok times) /\
    (forall n name, In n (node_list parts) -> n <> lit "0" -> slower name = slower (lit "V" ++ n) ->
       exists v, op_report t es x name = Ok v /\ tran_report t es rows name = Ok (repeat v (List.length times))) /\
    (forall id name, In id (current_ids parts) -> slower name = slower (lit "I(" ++ id ++ lit ")") ->
       exists v, op_report t es x name = Ok v /\ tran_report t es rows name = Ok (repeat v (List.length times))).
Proof.
  intros solve csolve JT check locked o tdo damp_first maxit acit trit fuel topt cmin gmin at_time guess skip inv modules has_module rounds settings rest icmod
    fs user depth files filename parts t es rs dirs before1 opline before2 line after owords words a s b m M DI BLA AO LO A LAST OLAST QS QB QA QM UIC SP US SO REG WP SV DF MX TX FU OS ST G0.
  destruct (C213_tran solve csolve JT check locked o tdo damp_first maxit acit trit fuel topt cmin gmin at_time guess skip inv modules has_module rounds settings rest icmod
    fs user depth files filename parts t es rs dirs before1 opline before2 line after owords words a s b m M DI BLA AO LO A LAST OLAST QS QB QA QM UIC SP US SO REG SV DF MX TX FU OS)
    as (q & r & OG & TG & K).
  exists q, r. split; [exact OG|]. split; [exact TG|]. intros x flag rows EQ ER. destruct (K x flag rows EQ ER) as (d & start & points & CD & MA & T0 & NE & LA & OV & OI & DC & RT & RV & RI).
  assert (SD : Forall (sound parts) parts) by (eapply Forall_impl; [|exact SO]; intros e He; apply He).
  destruct WP as (V & I & LW & UN). destruct (DC SD (ex_intro _ V (ex_intro _ I (conj LW UN))) V I LW) as (DV & DJ).
  rewrite G0 in MA, REG. cbn [rev] in MA.
  pose proof (run_rest parts (dc_source (fun id => at_time id 0)) (Rmax 0 cmin) V I SO LW REG _ d (rev points) start (fun time e IE => ST e time IE) (chosen_built_in _ _ _ CD) (conj DV DJ) MA) as RS.
  assert (HR : forall p, In p points -> here parts V I p).
  { intros p IP. apply (resting_here parts V I _ p RS). apply in_or_app. left. apply -> in_rev. exact IP. }
  exists (map p_t points). split; [intros E; apply NE; destruct points; [reflexivity|discriminate E]|]. split; [exact LA|]. split; [exact RT|]. split.
  - intros n name IN N0 SN. exists (V n). split; [rewrite (OV n name IN N0 SN), (DV n IN N0); reflexivity|]. rewrite (RV n name IN N0 SN). f_equal.
    apply map_same. intros p IP. apply (HR p IP); assumption.
  - intros id name IN SN. exists (I id). split; [rewrite (OI id name IN SN), (DJ id IN); reflexivity|]. rewrite (RI id name IN SN). f_equal.
    apply map_same. intros p IP. apply (HR p IP); assumption.
Qed.
Print Assumptions C223_stays_guarded.

(** ** A circuit: 7 A out of a resistor of 1 Ohm with a capacitor of 1 F.  The operating point is at -7 V. *)
Definition rest_lines : list str := map lit ["rest"; "I1 A 0 type=idc idc=7 iac=2"; "R1 a 0 1"; "C1 a 0 1"; ".op"; ".tran 1 1 uic=1"]%string.
Lemma rest_load : load_all (fun _ => Some rest_lines) (fun _ => Err NetlistParseError) 1 1 (lit "f") = Ok (tank_parts, shunt_t, tank_es).
Proof.
  unfold load_all.
  match goal with |- context [read_netlist ?a ?b ?c] => let r := eval vm_compute in (read_netlist a b c) in change (read_netlist a b c) with r end.
  cbn [bindr r_models r_lines r_subs map parse_subs parse_models fst snd].
  match goal with |- context [main_netlist_parser ?a ?b ?c ?d] => let r := eval vm_compute in (main_netlist_parser a b c d) in change (main_netlist_parser a b c d) with r end. cbn [bindr].
  cbv -[dR]. reflexivity.
Qed.
Lemma rest_dirs : directives (fun _ => Some rest_lines) 1 (lit "f") [lit ".op"; lit ".tran 1 1 uic=1"].
Proof.
  assert (L1 : forall l fp L, (if list_eq_dec ascii_dec (strip l) [] then false else true) = true -> PropsParse.starts_new fp -> forall x, x = PropsReader.joined l [] -> logical fp L -> logical (l :: fp) (x :: L)).
  { intros l fp L H SN x -> LG. apply (logical_line l [] fp L); auto. unfold PropsReader.blank. destruct (list_eq_dec ascii_dec (strip l) []); [discriminate|assumption]. }
  assert (IN : forall l, match kind_of l with KSub | KEnds | KEnd => false | _ => true end = true -> PropsReader.inner l).
  { intros l H. unfold PropsReader.inner. destruct (kind_of l); try discriminate H; repeat split; discriminate. }
  exists (lit "rest"), (tl rest_lines), [BLine (lit "i1 a 0 type=idc idc=7 iac=2"); BLine (lit "r1 a 0 1"); BLine (lit "c1 a 0 1"); BLine (lit ".op"); BLine (lit ".tran 1 1 uic=1")], [], [].
  split; [reflexivity|]. split; [|split; [constructor|split; [cbn; lia|reflexivity]]].
  exists []. split; [|split; [exact Logic.I|]].
  - repeat (apply L1; [reflexivity|vm_compute; discriminate || exact Logic.I|reflexivity|]). apply logical_eof.
  - split; [|constructor]. repeat (apply Forall_cons; [apply IN; reflexivity|]). apply Forall_nil.
Qed.

Lemma marches_tail : forall srct g c parts d l m, marches srct g c parts d (l ++ m) -> marches srct g c parts d m.
Proof. intros srct g c parts d l m. induction l as [|p l IH]; intros H; [exact H|]. cbn [app marches] in H. exact (IH (proj2 H)). Qed.

Section Tank.
  Variable csolve : cmat -> cvec -> option cvec.
  Variable JT : vec -> mat * vec.
  Variable check : vec -> vec -> vec -> bool.
  Variable locked : list lelem -> list (nat * nat).
  Variables (damp_first : bool) (acit : nat) (cmin gmin : R) (at_time : str -> R -> R) (guess : list lelem -> vec) (skip : bool) (inv : mat -> mat).
  Variables (modules : string -> dfm) (has_module : string -> bool) (settings : Session.opts).
  Variable rest : list pelem * ntab * list lelem -> str -> list (str * Directive.val) -> option result -> res result.
  Hypothesis (ME : o_method settings = "TRAP"%string).
  Hypothesis (NS : o_no_step settings = true).
  Hypotheses (G0 : 0 <= gmin) (C0 : 0 < gmin \/ 0 < cmin).
  Local Notation run := (main_file (fun _ => solve1) csolve JT check locked PropsDc.default_opts (mkTd false true 0) damp_first 20 acit 20 30 tran_opts cmin gmin at_time guess skip inv modules has_module 1
    settings rest (fun _ r => Ok r) (fun _ => Some rest_lines) (fun _ => Err NetlistParseError) 1 1 (lit "f")).
  Let one : dR (1, 0)%Z = 1.
  Proof. unfold dR. simpl. lra. Qed.
  Let seven : dR (7, 0)%Z = 7.
  Proof. unfold dR. simpl. lra. Qed.
  Let SO : Forall (ac_sound tank_parts) tank_parts.
  Proof. repeat constructor. Qed.
  Let VS (v : R) : str -> R := fun n => if streqb n (lit "a") then v else 0.
  Lemma tank_laws : laws (dc_source (fun id => at_time id 0)) (VS (-7)) (fun _ => 0) tank_parts.
  Proof.
    split; [reflexivity|]. split; [|repeat constructor]. intros n. unfold tank_parts. cbn [leaving]. unfold leaving1. cbn [first_end second_end through].
    change (dc_source (fun id => at_time id 0) (Netlist.PI (lit "i1") (lit "a") (lit "0") (Some (7, 0)%Z) (Some (2, 0)%Z) None)) with (dR (7, 0)%Z).
    rewrite seven, one. change (VS (-7) (lit "a")) with (-7). change (VS (-7) (lit "0")) with 0. repeat match goal with |- context [if ?b then _ else _] => destruct b end; lra.
  Qed.
  Lemma tank_posed : well_posed (dc_source (fun id => at_time id 0)) tank_parts.
  Proof.
    exists (VS (-7)), (fun _ => 0). split; [exact tank_laws|]. intros V I (Z0 & KCL & _). split; [|intros id []].
    specialize (KCL (lit "a")). unfold tank_parts in KCL. cbn [leaving] in KCL. unfold leaving1 in KCL. cbn [first_end second_end through] in KCL.
    change (dc_source (fun id => at_time id 0) (Netlist.PI (lit "i1") (lit "a") (lit "0") (Some (7, 0)%Z) (Some (2, 0)%Z) None)) with (dR (7, 0)%Z) in KCL.
    change (streqb (lit "a") (lit "a")) with true in KCL. change (streqb (lit "a") (lit "0")) with false in KCL. cbv iota in KCL. rewrite seven, one, Z0 in KCL.
    assert (VA : V (lit "a") = -7) by (unfold Rdiv in KCL; lra).
    intros n IN. cbn in IN. repeat (destruct IN as [<-|IN]; [first [exact VA|exact Z0]|]). destruct IN.
  Qed.
  Let asks_tran : asks "tran" (lit ".tran 1 1 uic=1") [lit "1"; lit "1"; lit "uic=1"].
  Proof. reflexivity. Qed.
  Let plain1 : no_equals (lit "1").
  Proof. unfold no_equals. cbn. intuition discriminate. Qed.
  Let DS : Forall dissipative tank_parts.
  Proof. repeat constructor; cbn [dissipative]; rewrite one; lra. Qed.
  Let NL : no_source_loop tank_parts.
  Proof. intros I _ id a b dc ac f IN. cbn in IN. destruct IN as [IN|[IN|[IN|[]]]]; discriminate IN. Qed.
  Let SV : solver_ok (fun _ => solve1) (op_size shunt_t tank_es).
  Proof. change (op_size shunt_t tank_es) with 1%nat. split; [exact solve1_ok|exact solve1_none]. Qed.
  Let US : forall line l, (fun _ : str => @Err (list pelem) NetlistParseError) line = Ok l -> Forall word_names l.
  Proof. discriminate. Qed.
  Let words : list str := [lit "1"; lit "1"; lit "uic=1"].
  Let quant0 : quantity "tstep" (Some 0)%nat words 1.
  Proof. exists (lit "1"), (1, 0)%Z. split; [split; [exact plain1|exists 0%nat; right; split; reflexivity]|split; [reflexivity|symmetry; exact one]]. Qed.
  Let quant1 : quantity "tstop" (Some 1)%nat words 1.
  Proof. exists (lit "1"), (1, 0)%Z. split; [split; [exact plain1|exists 1%nat; right; split; reflexivity]|split; [reflexivity|symmetry; exact one]]. Qed.
  Let no_start : absent "tstart" None words.
  Proof. intros i w W. split; [intros v ->|discriminate]. cbn in W. do 3 (destruct i as [|i]; [cbn in W; discriminate W|]). destruct i; discriminate W. Qed.
  Let no_method : absent "method" None words.
  Proof. intros i w W. split; [intros v ->|discriminate]. cbn in W. do 3 (destruct i as [|i]; [cbn in W; discriminate W|]). destruct i; discriminate W. Qed.
  Let use1 : uses_ic words 1.
  Proof. right. exists (lit "1"), (1, 0)%Z. split; [split; [exact plain1|exists 2%nat; left; reflexivity]|split; reflexivity]. Qed.
  Lemma tank_run_main : exists x rows, run = Ok (tank_parts, shunt_t, tank_es, [(lit "op", ROp (Some (x, true))); (lit "tran", RTran (Some rows))]).
  Proof.
    edestruct (C214_tran (fun _ => solve1) csolve JT check locked PropsDc.default_opts (mkTd false true 0) damp_first 20 acit 20 30 tran_opts cmin gmin at_time guess skip inv modules has_module 1
      settings rest (fun _ r => Ok r)) with (parts := tank_parts) (t := shunt_t) (es := tank_es) (k := 0%nat) (v1 := lit "1") (v2 := lit "1") (d1 := (1, 0)%Z) (d2 := (1, 0)%Z) as (x & rows & M & _);
      [exact rest_load|exact US|repeat constructor|repeat constructor; cbn [passive]; rewrite ?one; lra|exact tank_posed|exact SV|reflexivity|lia|lia|reflexivity|exact G0
      |intros x; eexists; reflexivity|exact rest_dirs|reflexivity|exact asks_tran|exact plain1|exact plain1|reflexivity|reflexivity|reflexivity|reflexivity|exact SO|exact DS|exact NL|lia|exact C0
      |reflexivity|exact ME|unfold step_control; rewrite NS; reflexivity|reflexivity|rewrite one; lra|rewrite one; cbn; lra|].
    exists x, rows. exact M.
  Qed.
  Lemma tank_regular : forall k, 0 < k -> tr_regular k gmin (Rmax 0 cmin) tank_parts.
  Proof.
    intros k K. apply C196_regular; auto; [apply Rmax_l|]. destruct C0 as [H|H]; [left; exact H|right; eapply Rlt_le_trans; [exact H|apply Rmax_r]].
  Qed.
  Lemma tank_steady : steady at_time tank_parts.
  Proof. intros e time IN. cbn in IN. repeat (destruct IN as [<-|IN]; [reflexivity|]). destruct IN. Qed.

  (** With a conductance [gmin] at each node in the transient analysis, and none in the operating point, the first value is another one. *)
  Theorem C223_stays_refuted : 0 < gmin -> exists x rows v vs,
    run = Ok (tank_parts, shunt_t, tank_es, [(lit "op", ROp (Some (x, true))); (lit "tran", RTran (Some rows))]) /\
    steady at_time tank_parts /\ op_report shunt_t tank_es x (lit "VA") = Ok (-7) /\ tran_report shunt_t tank_es rows (lit "VA") = Ok (v :: vs) /\ -7 < v.
  Proof.
    intros GP. destruct tank_run_main as (x & rows & M).
    edestruct (C213_tran (fun _ => solve1) csolve JT check locked PropsDc.default_opts (mkTd false true 0) damp_first 20 acit 20 30 tran_opts cmin gmin at_time guess skip inv modules has_module 1
      settings rest (fun _ r => Ok r)) with (dirs := [lit ".op"; lit ".tran 1 1 uic=1"]) (before1 := @nil str) (before2 := @nil str) (opline := lit ".op") (line := lit ".tran 1 1 uic=1") (after := @nil str) (a := 0) (s := 1) (b := 1)
      (m := @None string) as (q & r & OG & TG & K);
      [exact M|exact rest_dirs|reflexivity|reflexivity|constructor|exact asks_tran|constructor|constructor|exact quant0|exact quant1|right; split; [exact no_start|reflexivity]|right; split; [exact no_method|reflexivity]|exact use1|lra
      |exact US|exact SO|exact tank_regular|exact SV|reflexivity|lia|lia|lia|reflexivity|].
    injection OG as <-. injection TG as <-. destruct (K x true rows eq_refl eq_refl) as (d & start & points & CD & MA & T0 & NE & LA & OV & OI & DC & RT & RV & RI). clear K.
    assert (NA : In (lit "a") (node_list tank_parts)) by (left; reflexivity). assert (AZ : lit "a" <> lit "0") by discriminate.
    destruct points as [|p points]; [congruence|]. exists x, rows, (p_V p (lit "a")), (map (fun p => p_V p (lit "a")) points). split; [exact M|]. split; [exact tank_steady|].
    destruct (DC ltac:(repeat constructor) tank_posed (VS (-7)) (fun _ => 0) tank_laws) as (DV & _). pose proof (DV _ NA AZ) as S0. change (VS (-7) (lit "a")) with (-7) in S0.
    split; [rewrite (OV (lit "a") (lit "VA") NA AZ eq_refl), S0; reflexivity|]. split; [exact (RV (lit "a") (lit "VA") NA AZ eq_refl)|].
    assert (M2 : marches (fun time => driven (fun id => at_time id time) written_dc) gmin (Rmax 0 cmin) tank_parts d [p; start]).
    { cbn [rev] in MA. rewrite <- app_assoc in MA. cbn [app] in MA. apply (marches_tail _ _ _ _ _ _ _ MA). }
    pose proof (marches_times tank_parts (Rmax 0 cmin) _ _ _ _ p [start] M2 eq_refl) as (LT & ND). cbn [marches] in M2. destruct M2 as ((_ & (Z0 & D0 & KCL & _) & SL & _) & _).
    destruct (slope_rest tpoint p_t d p [start] ltac:(discriminate) LT ltac:(inversion ND; assumption) (chosen_built_in _ _ _ CD)) as (k & KP & SR).
    assert (DA : p_dV p (lit "a") = k * (p_V p (lit "a") - -7)).
    { apply (SR (fun q => p_V q (lit "a")) (fun q => p_dV q (lit "a"))); [intros q [<-|[]]; exact S0|intros q r E NR; injection E as <- <-; congruence|exact (SL _ NA AZ)]. }
    specialize (KCL _ NA AZ). unfold tank_parts in KCL. cbn [tr_leaving] in KCL. unfold tr_leaving1 in KCL. cbn [first_end second_end tr_through through] in KCL.
    change (streqb (lit "a") (lit "a")) with true in KCL. change (streqb (lit "a") (lit "0")) with false in KCL. cbv iota in KCL.
    change (driven (fun id => at_time id (p_t p)) written_dc (Netlist.PI (lit "i1") (lit "a") (lit "0") (Some (7, 0)%Z) (Some (2, 0)%Z) None)) with (dR (7, 0)%Z) in KCL.
    rewrite Z0, D0, one, seven, DA in KCL. set (w := p_V p (lit "a") + 7). pose proof (Rmax_l 0 cmin) as CP. set (c := Rmax 0 cmin) in *.
    assert (E : w * (1 + k * (1 + c) + gmin) = 7 * gmin) by (unfold w, Rdiv in *; rewrite Rinv_1 in KCL; lra).
    assert (W : 0 < w). { assert (0 < 1 + k * (1 + c) + gmin) by (assert (0 <= k * (1 + c)) by (apply Rmult_le_pos; lra); lra). apply (Rmult_lt_reg_r (1 + k * (1 + c) + gmin)); [assumption|]. rewrite E. lra. }
    unfold w in W. lra.
  Qed.

  (** Without it the values are those of the operating point. *)
  Example C223_example : gmin = 0 -> exists x rows times,
    run = Ok (tank_parts, shunt_t, tank_es, [(lit "op", ROp (Some (x, true))); (lit "tran", RTran (Some rows))]) /\
    op_report shunt_t tank_es x (lit "VA") = Ok (-7) /\ tran_report shunt_t tank_es rows (lit "T") = Ok times /\ times <> [] /\
    tran_report shunt_t tank_es rows (lit "VA") = Ok (repeat (-7) (List.length times)).
  Proof.
    intros GZ. destruct tank_run_main as (x & rows & M).
    edestruct (C223_stays_guarded (fun _ => solve1) csolve JT check locked PropsDc.default_opts (mkTd false true 0) damp_first 20 acit 20 30 tran_opts cmin gmin at_time guess skip inv modules has_module 1
      settings rest (fun _ r => Ok r)) with (dirs := [lit ".op"; lit ".tran 1 1 uic=1"]) (before1 := @nil str) (before2 := @nil str) (opline := lit ".op") (line := lit ".tran 1 1 uic=1") (after := @nil str) (a := 0) (s := 1) (b := 1)
      (m := @None string) as (q & r & OG & TG & K);
      [exact M|exact rest_dirs|reflexivity|reflexivity|constructor|exact asks_tran|constructor|constructor|exact quant0|exact quant1|right; split; [exact no_start|reflexivity]|right; split; [exact no_method|reflexivity]|exact use1|lra
      |exact US|exact SO|exact tank_regular|exact tank_posed|exact SV|reflexivity|lia|lia|lia|reflexivity|exact tank_steady|exact GZ|].
    injection OG as <-. injection TG as <-. destruct (K x true rows eq_refl eq_refl) as (times & NE & _ & RT & RV & _).
    edestruct (C213_op (fun _ => solve1) csolve JT check locked PropsDc.default_opts (mkTd false true 0) damp_first 20 acit 20 30 tran_opts cmin gmin at_time guess skip inv modules has_module 1
      settings rest (fun _ r => Ok r)) with (dirs := [lit ".op"; lit ".tran 1 1 uic=1"]) (before := @nil str) (line := lit ".op") (after := [lit ".tran 1 1 uic=1"]) as (q & OG & RP);
      [exact M|exact rest_dirs|reflexivity|reflexivity|constructor; [|constructor]|exact US|repeat constructor|exact tank_posed|exact SV|reflexivity|lia|lia|reflexivity|].
    { intros (w & ws & E & T). assert (Q : w = lit ".tran") by (vm_compute in E; injection E as <- _; reflexivity). subst w. discriminate T. }
    injection OG as <-. destruct (RP x true eq_refl) as (_ & RQ). destruct (RQ _ _ tank_laws) as (OV & _).
    assert (NA : In (lit "a") (node_list tank_parts)) by (left; reflexivity). assert (AZ : lit "a" <> lit "0") by discriminate.
    specialize (OV (lit "a") (lit "VA") NA AZ eq_refl). change (VS (-7) (lit "a")) with (-7) in OV. destruct (RV (lit "a") (lit "VA") NA AZ eq_refl) as (v & O2 & R2).
    exists x, rows, times. split; [exact M|]. split; [exact OV|]. split; [exact (RT (lit "T") eq_refl)|]. split; [exact NE|]. rewrite R2. rewrite OV in O2. injection O2 as <-. reflexivity.
  Qed.
End Tank.
Print Assumptions C223_stays_refuted.
