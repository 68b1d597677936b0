(** Property theorems about the command line and the methods of the transient
    analysis (C173-C177). *)
From Coq Require Import Reals QArith String Ascii List Bool Arith ZArith Lia Lra.
From Verif Require Import Base BaseFacts Str Units Directive PropsDirective Nodes NodesFacts Circuit Mna Newton Sweep PropsSweep TimeFun Session PropsSubckt.
Import ListNotations.
Open Scope nat_scope.

(** * C173: command line options *)

(** The numeric options: the text given, and the setting it is for. *)
Inductive knob : Type := KVea | KVer | KIea | KIer | KHmin | KGmin | KCmin.
Inductive count : Type := KDcNr | KTNr | KTTime | KSNr.
Definition given (a : args) (k : knob) : option string :=
  match k with KVea => a_vea a | KVer => a_ver a | KIea => a_iea a | KIer => a_ier a | KHmin => a_hmin a | KGmin => a_gmin a | KCmin => a_cmin a end.
Definition setting (o : opts) (k : knob) : Q :=
  match k with KVea => o_vea o | KVer => o_ver o | KIea => o_iea o | KIer => o_ier o | KHmin => o_hmin o | KGmin => o_gmin o | KCmin => o_cmin o end.
Definition given_count (a : args) (k : count) : option string :=
  match k with KDcNr => a_dc_nr a | KTNr => a_t_nr a | KTTime => a_t_time a | KSNr => a_s_nr a end.
Definition setting_count (o : opts) (k : count) : Z :=
  match k with KDcNr => o_dc_nr o | KTNr => o_t_nr o | KTTime => o_t_time o | KSNr => o_s_nr o end.

Section CliFacts.
  Variable to_float : string -> res Q.
  Variable to_count to_int : string -> res Z.
  Variable is_file : string -> bool.

  Lemma setq_keep : forall B (g : opts -> B) t f o o', setq to_float t f o = Ok o' -> (forall x o, g (f x o) = g o) -> g o' = g o.
  Proof.
    intros B g t f o o' H K. destruct t as [s|]; cbn in H; [|injection H as <-; reflexivity].
    destruct (to_float s); cbn in H; [injection H as <-; apply K|discriminate].
  Qed.
  Lemma setz_keep : forall B (g : opts -> B) t f o o', setz to_count t f o = Ok o' -> (forall x o, g (f x o) = g o) -> g o' = g o.
  Proof.
    intros B g t f o o' H K. destruct t as [s|]; cbn in H; [|injection H as <-; reflexivity].
    destruct (to_count s); cbn in H; [injection H as <-; apply K|discriminate].
  Qed.
  Lemma setq_set : forall (g : opts -> Q) t f o o', setq to_float t f o = Ok o' -> (forall x o, g (f x o) = x) ->
    match t with None => g o' = g o | Some s => to_float s = Ok (g o') end.
  Proof.
    intros g t f o o' H K. destruct t as [s|]; cbn in H; [|injection H as <-; reflexivity].
    destruct (to_float s); cbn in H; [injection H as <-; rewrite K; reflexivity|discriminate].
  Qed.
  Lemma setz_set : forall (g : opts -> Z) t f o o', setz to_count t f o = Ok o' -> (forall x o, g (f x o) = x) ->
    match t with None => g o' = g o | Some s => to_count s = Ok (g o') end.
  Proof.
    intros g t f o o' H K. destruct t as [s|]; cbn in H; [|injection H as <-; reflexivity].
    destruct (to_count s); cbn in H; [injection H as <-; rewrite K; reflexivity|discriminate].
  Qed.
  Lemma setq_ok : forall t f o, (forall s, t = Some s -> isOk (to_float s) = true) -> exists o', setq to_float t f o = Ok o'.
  Proof.
    intros t f o H. destruct t as [s|]; [|eexists; reflexivity]. specialize (H s eq_refl). cbn. destruct (to_float s); [eexists; reflexivity|discriminate].
  Qed.
  Lemma setz_ok : forall t f o, (forall s, t = Some s -> isOk (to_count s) = true) -> exists o', setz to_count t f o = Ok o'.
  Proof.
    intros t f o H. destruct t as [s|]; [|eexists; reflexivity]. specialize (H s eq_refl). cbn. destruct (to_count s); [eexists; reflexivity|discriminate].
  Qed.

  Ltac down g := repeat match goal with
    | H : setq _ _ _ _ = Ok ?o |- context [g ?o] => rewrite (setq_keep _ g _ _ _ _ H (fun _ _ => eq_refl))
    | H : setz _ _ _ _ = Ok ?o |- context [g ?o] => rewrite (setz_keep _ g _ _ _ _ H (fun _ _ => eq_refl))
    end.
  Ltac settle g := match goal with |- _ -> match ?t with None => _ | Some _ => _ end =>
    let K := fresh "K" in destruct t; [intros K; exact K|intros K; rewrite K; down g; reflexivity] end.
  Ltac knobq g := first
    [ match goal with H : setq _ _ _ _ = Ok ?o |- context [g ?o] => generalize (setq_set g _ _ _ _ H (fun _ _ => eq_refl)); settle g end
    | match goal with H : setq _ _ _ _ = Ok ?o |- context [g ?o] => rewrite (setq_keep _ g _ _ _ _ H (fun _ _ => eq_refl)); knobq g end
    | match goal with H : setz _ _ _ _ = Ok ?o |- context [g ?o] => rewrite (setz_keep _ g _ _ _ _ H (fun _ _ => eq_refl)); knobq g end ].
  Ltac knobz g := first
    [ match goal with H : setz _ _ _ _ = Ok ?o |- context [g ?o] => generalize (setz_set g _ _ _ _ H (fun _ _ => eq_refl)); settle g end
    | match goal with H : setq _ _ _ _ = Ok ?o |- context [g ?o] => rewrite (setq_keep _ g _ _ _ _ H (fun _ _ => eq_refl)); knobz g end
    | match goal with H : setz _ _ _ _ = Ok ?o |- context [g ?o] => rewrite (setz_keep _ g _ _ _ _ H (fun _ _ => eq_refl)); knobz g end ].

  Lemma cli_inv : forall a o o' m, cli to_float to_count to_int is_file a o = Ok (o', m) ->
    exists file v, a_rest a = [file] /\ to_int (a_verbose a) = Ok v /\ m = (file, a_outfile a, v) /\ (file = "-"%string \/ is_file file = true) /\
      (forall k, match given a k with None => setting o' k = setting o k | Some s => to_float s = Ok (setting o' k) end) /\
      (forall k, match given_count a k with None => setting_count o' k = setting_count o k | Some s => to_count s = Ok (setting_count o' k) end) /\
      o_method o' = upper (a_method a) /\ o_no_step o' = a_fixed a /\ o_guess o' = PyText (a_guess a).
  Proof.
    intros a o o' m H. unfold cli in H. apply bindr_Ok in H. destruct H as (v & V & H). cbv zeta in H.
    do 11 (apply bindr_Ok in H; let o1 := fresh "o" in let E := fresh "E" in destruct H as (o1 & E & H)).
    destruct (a_rest a) as [|file [|]]; try discriminate H. apply bindr_Ok in H. destruct H as (ok & F & H). destruct ok; [|discriminate H].
    injection H as <- <-. exists file, v. split; [reflexivity|]. split; [exact V|]. split; [reflexivity|]. split.
    { destruct (String.eqb_spec file "-") as [FE|FE]; [left; exact FE|right]. unfold check_file in F. destruct (is_file file); [reflexivity|discriminate]. }
    split; [|split; [|split; [|split; reflexivity]]].
    - intros k. destruct k; cbn [given setting o_vea o_ver o_iea o_ier o_hmin o_gmin o_cmin].
      + knobq o_vea.
      + knobq o_ver.
      + knobq o_iea.
      + knobq o_ier.
      + knobq o_hmin.
      + knobq o_gmin.
      + knobq o_cmin.
    - intros k. destruct k; cbn [given_count setting_count o_dc_nr o_t_nr o_t_time o_s_nr].
      + knobz o_dc_nr.
      + knobz o_t_nr.
      + knobz o_t_time.
      + knobz o_s_nr.
    - cbn [o_method]. down o_method. reflexivity.
  Qed.
End CliFacts.

(** Each option sets its own setting, to the number written; the others keep their value;
    the netlist that is run is the one named. *)
Theorem C173_settings : forall to_float to_count to_int is_file a o o' file outfile verbose,
  cli to_float to_count to_int is_file a o = Ok (o', (file, outfile, verbose)) ->
  a_rest a = [file] /\ outfile = a_outfile a /\ to_int (a_verbose a) = Ok verbose /\ (file = "-"%string \/ is_file file = true) /\
  (forall k, match given a k with None => setting o' k = setting o k | Some s => to_float s = Ok (setting o' k) end) /\
  (forall k, match given_count a k with None => setting_count o' k = setting_count o k | Some s => to_count s = Ok (setting_count o' k) end).
Proof.
  intros to_float to_count to_int is_file a o o' file outfile verbose H.
  destruct (cli_inv _ _ _ _ _ _ _ _ H) as (f & v & R & V & M & F & Q & Z & _). injection M as -> -> ->. auto 10.
Qed.
Print Assumptions C173_settings.

(** The program starts exactly if all the numbers are numbers and one file is named that
    exists (or the standard input). *)
Theorem C173_starts : forall to_float to_count to_int is_file a o,
  isOk (cli to_float to_count to_int is_file a o) = true <->
  (isOk (to_int (a_verbose a)) = true /\ (exists file, a_rest a = [file] /\ (file = "-"%string \/ is_file file = true)) /\
   (forall k s, given a k = Some s -> isOk (to_float s) = true) /\ (forall k s, given_count a k = Some s -> isOk (to_count s) = true)).
Proof.
  intros to_float to_count to_int is_file a o. split.
  - intros H. destruct (cli to_float to_count to_int is_file a o) as [[o' m]|] eqn:E; [|discriminate].
    destruct (cli_inv _ _ _ _ _ _ _ _ E) as (f & v & R & V & M & F & Q & Z & _). split; [rewrite V; reflexivity|]. split; [exists f; auto|]. split.
    + intros k s G. specialize (Q k). rewrite G in Q. rewrite Q. reflexivity.
    + intros k s G. specialize (Z k). rewrite G in Z. rewrite Z. reflexivity.
  - intros (V & (file & R & F) & Q & Z). unfold cli. destruct (to_int (a_verbose a)) as [v|]; [|discriminate]. cbn [bindr].
    Ltac sq k Q := match goal with |- context [setq ?fl ?t ?f ?o] => let o1 := fresh "o" in let E := fresh "E" in
      destruct (setq_ok fl t f o (Q k)) as (o1 & E); rewrite E; cbn [bindr] end.
    Ltac sz k Z := match goal with |- context [setz ?fl ?t ?f ?o] => let o1 := fresh "o" in let E := fresh "E" in
      destruct (setz_ok fl t f o (Z k)) as (o1 & E); rewrite E; cbn [bindr] end.
    sq KVea Q. sq KVer Q. sq KIea Q. sq KIer Q. sq KHmin Q. sz KDcNr Z. sz KTNr Z. sz KTTime Z. sz KSNr Z. sq KGmin Q. sq KCmin Q.
    rewrite R. destruct (String.eqb_spec file "-") as [_|N]; [reflexivity|]. destruct F as [->|F]; [congruence|].
    unfold check_file. rewrite F. reflexivity.
Qed.
Print Assumptions C173_starts.

Definition ex_float (s : string) : res Q := if String.eqb s "1e-3" then Ok (tenth 3) else if String.eqb s "1e-12" then Ok (tenth 12) else Err ValueError.
Definition ex_count (s : string) : res Z := if String.eqb s "100" then Ok 100%Z else Err ValueError.
Definition ex_int (s : string) : res Z := if String.eqb s "3" then Ok 3%Z else Err ValueError.
Definition ex_args : args :=
  mkArgs "3" "out" "none" "gear4" true (Some "1e-3"%string) None None None None (Some "1e-12"%string) None None (Some "100"%string) None None ["a.cir"%string].
Example C173_example :
  cli ex_float ex_count ex_int (fun _ => true) ex_args default_opts =
    Ok (mkOpts (tenth 3) (tenth 3) (tenth 9) (tenth 3) (tenth 20) (tenth 12) (tenth 18) 10000 100 0 10000 "GEAR4" true (PyText "none"),
        ("a.cir", "out", 3%Z)%string) /\
  cli ex_float ex_count ex_int (fun _ => false) (no_args "a.cir") default_opts = Err IOError /\
  cli ex_float ex_count ex_int (fun _ => false) (no_args "-") default_opts =
    Ok (mkOpts (tenth 6) (tenth 3) (tenth 9) (tenth 3) (tenth 20) (tenth 12) (tenth 18) 10000 20 0 10000 "TRAP" false (PyText "guess"),
        ("-", "stdout", 3%Z)%string).
Proof. repeat split; reflexivity. Qed.

(** * C174: the command line takes precedence over the netlist *)

(** A METHOD in the .tran line wins over -t. *)
Theorem C174_method_refuted : forall to_float to_count to_int is_file a o o' m method,
  cli to_float to_count to_int is_file a o = Ok (o', m) -> lower method <> lower (a_method a) -> tran_method o' (Some method) <> upper (a_method a).
Proof. intros to_float to_count to_int is_file a o o' m method _ N E. apply N. cbn in E. rewrite <- (lower_upper method), E, lower_upper. reflexivity. Qed.
Print Assumptions C174_method_refuted.
Theorem C174_method : forall to_float to_count to_int is_file a o o' m,
  cli to_float to_count to_int is_file a o = Ok (o', m) -> tran_method o' None = upper (a_method a).
Proof. intros to_float to_count to_int is_file a o o' m H. destruct (cli_inv _ _ _ _ _ _ _ _ H) as (f & v & _ & _ & _ & _ & _ & _ & M & _). exact M. Qed.
Print Assumptions C174_method.
(** --t-fixed-step always counts. *)
Theorem C174_fixed_step : forall to_float to_count to_int is_file a o o' m asked,
  cli to_float to_count to_int is_file a o = Ok (o', m) -> step_control o' asked = asked && negb (a_fixed a).
Proof.
  intros to_float to_count to_int is_file a o o' m asked H. destruct (cli_inv _ _ _ _ _ _ _ _ H) as (f & v & _ & _ & _ & _ & _ & _ & _ & M & _).
  unfold step_control. rewrite M. destruct (a_fixed a), asked; reflexivity.
Qed.
Print Assumptions C174_fixed_step.
Example C174_example :
  dget streqb (match parse_single_analysis (lit ".tran 1n 1u") with Ok an => an | Err _ => [] end) (lit "method") = Some VNone /\
  dget streqb (match parse_single_analysis (lit ".tran 1n 1u method=trap") with Ok an => an | Err _ => [] end) (lit "method") = Some (VStr (lit "trap")) /\
  match cli ex_float ex_count ex_int (fun _ => true) ex_args default_opts with
  | Ok (o, _) => tran_method o None = "GEAR4"%string /\ tran_method o (Some "trap"%string) = "TRAP"%string /\ step_control o true = false
  | Err _ => False end.
Proof. repeat split; reflexivity. Qed.

(** * C175: --dc-guess none *)

(** Whatever is written after --dc-guess, the guess is used. *)
Theorem C175_none_refuted : forall to_float to_count to_int is_file a o o' m,
  a_guess a = "none"%string -> cli to_float to_count to_int is_file a o = Ok (o', m) -> op_guess o' true = true.
Proof.
  intros to_float to_count to_int is_file a o o' m G H. destruct (cli_inv _ _ _ _ _ _ _ _ H) as (f & v & _ & _ & _ & _ & _ & _ & _ & _ & P).
  unfold op_guess. rewrite P, G. reflexivity.
Qed.
Print Assumptions C175_none_refuted.
(** What the analysis was asked for holds, and a .op line asks for the guess unless it has
    guess=no (or false, or 0). *)
Theorem C175_actual : forall to_float to_count to_int is_file a o o' m asked,
  cli to_float to_count to_int is_file a o = Ok (o', m) -> op_guess o' asked = asked && negb (String.eqb (a_guess a) "").
Proof.
  intros to_float to_count to_int is_file a o o' m asked H. destruct (cli_inv _ _ _ _ _ _ _ _ H) as (f & v & _ & _ & _ & _ & _ & _ & _ & _ & P).
  unfold op_guess. rewrite P. cbn [truthy]. destruct (String.eqb (a_guess a) ""), asked; reflexivity.
Qed.
Print Assumptions C175_actual.
Example C175_example :
  match cli ex_float ex_count ex_int (fun _ => true) ex_args default_opts with Ok (o, _) => op_guess o true = true /\ op_guess o false = false | Err _ => False end /\
  parse_single_analysis (lit ".op") = Ok [(lit "type", VStr (lit "op")); (lit "guess", VBool true); (lit "x0", VNone)] /\
  parse_single_analysis (lit ".op guess=no") = Ok [(lit "type", VStr (lit "op")); (lit "guess", VBool false); (lit "x0", VNone)].
Proof. repeat split; reflexivity. Qed.

(** * C176, C177: methods of the transient analysis *)

Definition builtin : list (string * dform) :=
  [("implicit_euler", DImplicitEuler); ("trap", DTrap); ("gear1", DGear 1); ("gear2", DGear 2); ("gear3", DGear 3);
   ("gear4", DGear 4); ("gear5", DGear 5); ("gear6", DGear 6)]%string.

(** A documented name, in any mixture of capital and small letters, selects its formula. *)
Theorem C176_builtin : forall modules o m name d, In (name, d) builtin -> lower m = name ->
  choose_df modules (tran_method o (Some m)) = Ok d.
Proof.
  intros modules o m name d I L. cbn [tran_method]. rewrite <- upper_lower, L. cbn in I.
  repeat destruct I as [I|I]; try contradiction; injection I as <- <-; reflexivity.
Qed.
Print Assumptions C176_builtin.
(** Without any option the formula is the trapezoidal one; with -t it is the one named. *)
Theorem C176_default : forall modules, choose_df modules (tran_method default_opts None) = Ok DTrap.
Proof. reflexivity. Qed.
Print Assumptions C176_default.
Theorem C176_command_line : forall modules to_float to_count to_int is_file a o o' m name d,
  cli to_float to_count to_int is_file a o = Ok (o', m) -> In (name, d) builtin -> lower (a_method a) = name ->
  choose_df modules (tran_method o' None) = Ok d.
Proof.
  intros modules to_float to_count to_int is_file a o o' m name d H I L. rewrite (C174_method _ _ _ _ _ _ _ _ H).
  exact (C176_builtin modules o (a_method a) name d I L).
Qed.
Print Assumptions C176_command_line.
Example C176_example : choose_df (fun _ => false) (tran_method default_opts (Some "Gear3"%string)) = Ok (DGear 3) /\
  choose_df (fun _ => false) (tran_method default_opts (Some "euler"%string)) = Err SystemExit.
Proof. split; reflexivity. Qed.

(** A module of the user is never loaded. *)
Theorem C177_refuted : forall modules o m, (forall name d, In (name, d) builtin -> lower m <> name) ->
  choose_df modules (tran_method o (Some m)) = Err SystemExit.
Proof.
  intros modules o m N. cbn [tran_method]. unfold choose_df.
  assert (X : forall name d, In (name, d) builtin -> upper m <> upper name).
  { intros name d I E. apply (N name d I). rewrite <- lower_upper, E, lower_upper. cbn in I.
    repeat destruct I as [I|I]; try contradiction; injection I as <- _; reflexivity. }
  repeat match goal with |- context [String.eqb (upper m) ?s] => destruct (String.eqb_spec (upper m) s) as [E|_]; [exfalso; revert E;
    first [exact (X "implicit_euler"%string _ ltac:(cbn; auto 10))|exact (X "trap"%string _ ltac:(cbn; auto 10))|exact (X "gear1"%string _ ltac:(cbn; auto 10))
          |exact (X "gear2"%string _ ltac:(cbn; auto 10))|exact (X "gear3"%string _ ltac:(cbn; auto 10))|exact (X "gear4"%string _ ltac:(cbn; auto 10))
          |exact (X "gear5"%string _ ltac:(cbn; auto 10))|exact (X "gear6"%string _ ltac:(cbn; auto 10))]|] end.
  unfold import_custom_df_module. destruct (modules (lower (upper m))); reflexivity.
Qed.
Print Assumptions C177_refuted.
Example C177_example : choose_df (fun s => String.eqb s "mymethod") (tran_method default_opts (Some "MyMethod"%string)) = Err SystemExit.
Proof. reflexivity. Qed.
