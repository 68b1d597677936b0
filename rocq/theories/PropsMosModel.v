(** Property theorems about the constructors and the temperature of the MOS models:
    C136-C141. *)
From Coq Require Import Ascii String Reals List Bool Lra.
From Verif Require Import Base Str Newton NewtonFacts Diode PropsDiode Ekv Mosq PropsEkv PropsMosq MosModel.
Import ListNotations.
Open Scope R_scope.

(** ** Vocabulary *)

(** No argument but the type. *)
Definition bare (ty : str) : margs := mkArgs ty None None None None None None None None None None None None None.

(** The arguments of the complementary device: the other type, and the opposite of
    every voltage that is referred to the channel. *)
Definition neg (o : option R) : option R := option_map Ropp o.
Definition p_args (a : margs) : margs :=
  mkArgs (lit "p") (a_TNOM a) (a_COX a) (a_GAMMA a) (a_NSUB a) (a_PHI a) (neg (a_VTO a)) (a_KP a) (a_LAMBDA a) (a_TOX a)
    (neg (a_VFB a)) (a_U0 a) (neg (a_TCV a)) (a_BEX a).

(** The same object for the other polarity. *)
Definition other_type (m : mos) : mos :=
  mkMos (- m_NP m) (m_TNOM m) (m_TEMP m) (m_COX m) (m_GAMMA m) (m_PHI m) (m_VTO m) (m_KP m) (m_LAMBDA m) (m_TCV m) (m_BEX m).

(** The documented dependence on the temperature of the parameters of [m0], which are
    those of the temperature TNOM. *)
Definition at_T (m0 : mos) (T : R) (m : mos) : Prop :=
  m_TEMP m = T /\
  m_VTO m = m_VTO m0 - m_TCV m0 * (T - m_TNOM m0) /\
  m_KP m = m_KP m0 * Rpower (T / m_TNOM m0) (m_BEX m0) /\
  m_PHI m = m_PHI m0 * T / m_TNOM m0 + 3 * Vth (m_TNOM m0) * ln (T / m_TNOM m0) - Eg (m_TNOM m0) * T / m_TNOM m0 + Eg T.

(** ** Lemmas *)
Lemma Rlt_b_of : forall a b, a < b -> Rlt_b a b = true. Proof. intros a b H. apply Rlt_b_true. exact H. Qed.
Lemma Vth_pos : forall T, 0 < T -> 0 < Vth T.
Proof.
  intros T H. unfold Vth, k_B, q_e. apply Rdiv_lt_0_compat; [apply Rmult_lt_0_compat; [|exact H]|]; apply Rdiv_lt_0_compat; try lra; apply pow_lt; lra.
Qed.
Lemma nominal_sign : forall k a m, mos_nominal k a = Ok m -> mos_sign k (a_TYPE a) = Ok (m_NP m).
Proof.
  intros k a m H. unfold mos_nominal in H. destruct (mos_sign k (a_TYPE a)) as [np|]; [|discriminate]. cbn [bindr] in H.
  destruct (mos_COX a); [|discriminate]. cbn [bindr] in H. destruct (mos_GAMMA a a0); [|discriminate]. cbn [bindr] in H.
  destruct (mos_PHI a _); [|discriminate]. cbn [bindr] in H. destruct (mos_VTO k a np); [|discriminate]. cbn [bindr] in H.
  injection H as <-. reflexivity.
Qed.

(** * C136 *)

(** With VTO and TCV written down (VTO may be left to its default in a mosq model) the
    complementary model is the same up to the polarity... *)
Theorem C136_mirror : forall k T a m, a_TYPE a = lit "n" -> a_TCV a <> None ->
  a_VTO a <> None \/ (k = KMosq /\ a_VFB a = None) ->
  mos_model k T a = Ok m -> mos_model k T (p_args a) = Ok (other_type m).
Proof.
  intros k T a m TY TC VT H. unfold mos_model in *.
  assert (N : mos_nominal k (p_args a) = bindr (mos_nominal k a) (fun m0 => Ok (other_type m0))).
  { unfold mos_nominal, p_args. cbn [a_TYPE a_TNOM a_LAMBDA a_BEX a_TCV]. rewrite TY.
    assert (S1 : mos_sign k (lit "n") = Ok 1) by (destruct k; reflexivity). assert (S2 : mos_sign k (lit "p") = Ok (-1)) by (destruct k; reflexivity).
    rewrite S1, S2. cbn [bindr]. unfold mos_COX. cbn [a_COX a_TOX].
    destruct (match a_COX a with Some c => Ok c | None => _ end) as [cox|]; [|reflexivity]. cbn [bindr].
    unfold mos_GAMMA. cbn [a_GAMMA a_NSUB].
    destruct (match a_GAMMA a with Some g => Ok g | None => _ end) as [g|]; [|reflexivity]. cbn [bindr].
    unfold mos_PHI. cbn [a_PHI a_NSUB].
    destruct (match a_PHI a with Some g => Ok g | None => _ end) as [p|]; [|reflexivity]. cbn [bindr].
    unfold mos_VTO, mos_KP. cbn [a_VTO a_VFB a_PHI a_GAMMA a_KP a_U0].
    assert (V : match neg (a_VTO a) with
                | Some v => Ok (-1 * v)
                | None => match neg (a_VFB a) with
                          | Some v => match a_PHI a with Some p0 => match a_GAMMA a with Some g0 => Ok (v + p0 + g0 * p0) | None => Err TypeError end | None => Err TypeError end
                          | None => Ok match k with KEkv => -1 * (1/2) | KMosq => 1/2 end
                          end
                end =
                match a_VTO a with
                | Some v => Ok (1 * v)
                | None => match a_VFB a with
                          | Some v => match a_PHI a with Some p0 => match a_GAMMA a with Some g0 => Ok (v + p0 + g0 * p0) | None => Err TypeError end | None => Err TypeError end
                          | None => Ok match k with KEkv => 1 * (1/2) | KMosq => 1/2 end
                          end
                end).
    { destruct VT as [V|[-> V]].
      - destruct (a_VTO a) as [v|]; [|contradiction]. cbn. f_equal. ring.
      - rewrite V. destruct (a_VTO a) as [v|]; cbn; [f_equal; ring|reflexivity]. }
    rewrite V. destruct (match a_VTO a with Some v => Ok (1 * v) | None => _ end) as [v|]; [|reflexivity]. cbn [bindr]. f_equal.
    unfold other_type. cbn [m_NP m_TNOM m_TEMP m_COX m_GAMMA m_PHI m_VTO m_KP m_LAMBDA m_TCV m_BEX].
    destruct (a_TCV a) as [t|]; [|contradiction]. cbn [neg option_map dflt].
    replace (-1 * - t) with (1 * t) by ring. replace (-1) with (- (1)) by ring. reflexivity. }
  rewrite N. destruct (mos_nominal k a) as [m0|]; [|discriminate]. cbn [bindr] in *.
  assert (C : self_check (p_args a) (set_device_temperature T (other_type m0)) = self_check a (set_device_temperature T m0)) by reflexivity.
  rewrite C. destruct (self_check a (set_device_temperature T m0)); [|discriminate]. injection H as <-. reflexivity.
Qed.
Print Assumptions C136_mirror.

(** ... and so its current is the mirror image, in both models. *)
Theorem C136_currents : forall T a m, a_TYPE a = lit "n" -> a_TCV a <> None -> a_VTO a <> None ->
  (mos_model KEkv T a = Ok m -> exists m', mos_model KEkv T (p_args a) = Ok m' /\
     forall eps esi newton ucrit xj d g1 g2 b,
       e_ids eps (ekv_ut m') esi newton (to_ekv ucrit xj m') d g1 g2 (e_negate b) =
       - e_ids eps (ekv_ut m) esi newton (to_ekv ucrit xj m) d g1 g2 b) /\
  (mos_model KMosq T a = Ok m -> exists m', mos_model KMosq T (p_args a) = Ok m' /\
     forall iea avt akp d b, terminal_i iea (to_mosq avt akp m') d (negate b) = - terminal_i iea (to_mosq avt akp m) d b).
Proof.
  intros T a m TY TC VT. split; intros H; (eexists; split; [eapply C136_mirror; eauto|]); intros.
  - exact (proj1 (C91_mirror eps (ekv_ut m) esi newton (to_ekv ucrit xj m) d g1 g2 b)).
  - exact (C51_mirror iea (to_mosq avt akp m) d b).
Qed.
Print Assumptions C136_currents.

Lemma Rpower_1 : forall y, Rpower 1 y = 1. Proof. intros y. unfold Rpower. rewrite ln_1, Rmult_0_r. apply exp_0. Qed.
Lemma at_nominal : forall m, 0 < m_TNOM m -> m_TEMP m = m_TNOM m -> set_device_temperature (m_TNOM m) m = m.
Proof.
  intros [np tn te c g p v kp l tc b] P E. cbn in *. unfold set_device_temperature. cbn. subst te.
  replace (tn / tn) with 1 by (field; lra). rewrite ln_1, Rpower_1. f_equal; field; lra.
Qed.

(** A model made without arguments. *)
Lemma bare_model : forall k ty np, mos_sign k ty = Ok np ->
  mos_model k 300 (bare ty) = Ok (mkMos np 300 300 (7 / 10 ^ 4) 1 (7 / 10) (match k with KEkv => np * (1/2) | KMosq => 1/2 end) (5 / 10 ^ 5) (1/2) (np * / 10 ^ 3) (- (3/2))).
Proof.
  intros k ty np S. unfold mos_model, mos_nominal. cbn [bare a_TYPE a_TNOM a_COX a_LAMBDA a_TCV a_BEX dflt]. rewrite S. cbn [bindr].
  unfold mos_COX, mos_GAMMA, mos_PHI, mos_VTO, mos_KP. cbn [bare a_COX a_TOX a_GAMMA a_NSUB a_PHI a_VTO a_VFB a_KP a_U0 bindr].
  set (m0 := mkMos np Tref Tref _ _ _ _ _ _ _ _). assert (E := at_nominal m0). cbn [m0 m_TNOM m_TEMP] in E. unfold Tref in *.
  rewrite E by lra. unfold self_check. cbn [a_NSUB a_U0 bare m0 m_GAMMA m_PHI andb].
  rewrite (Rlt_b_of 0 1) by lra. rewrite (Rlt_b_of (1/10) (7/10)) by lra. reflexivity.
Qed.

(** An EKV model made without arguments is an enhancement device of type n, whose
    channel is off at VG = 0, but a depletion device of type p: its pinch-off voltage
    is positive at VG = 0, and its threshold is that of the n device, with the sign
    that opposes the gate voltage. *)
Theorem C136_default_refuted : exists n p, mos_model KEkv 300 (bare (lit "n")) = Ok n /\ mos_model KEkv 300 (bare (lit "p")) = Ok p /\
  m_VTO n = 1/2 /\ m_VTO p = -1/2 /\
  forall ucrit xj, get_VP (to_ekv ucrit xj n) 0 < 0 /\ 0 < get_VP (to_ekv ucrit xj p) 0.
Proof.
  eexists. eexists. split; [apply (bare_model KEkv (lit "n") 1); reflexivity|]. split; [apply (bare_model KEkv (lit "p") (-1)); reflexivity|]. cbn [m_VTO]. split; [lra|]. split; [lra|].
  intros ucrit xj. unfold get_VP, to_ekv. cbn [e_VTO e_PHI e_GAMMA m_VTO m_PHI m_GAMMA].
  assert (S := sqrt_pos (7/10)). assert (SS := sqrt_sqrt (7/10) ltac:(lra)). set (s := sqrt (7/10)) in *.
  assert (B1 : 4/5 < s) by nra. assert (B2 : s < 9/10) by nra.
  rewrite (Rlt_b_of 0 (0 - 1 * (1/2) + 7/10 + 1 * s)) by lra. rewrite (Rlt_b_of 0 (0 - 1 * (1/2) + (s + 1/2) ^ 2)) by nra.
  rewrite (Rlt_b_of 0 (0 - -1 * (1/2) + 7/10 + 1 * s)) by lra. rewrite (Rlt_b_of 0 (0 - -1 * (1/2) + (s + 1/2) ^ 2)) by nra. cbn [andb].
  split.
  - set (x := 0 - 1 * (1/2) + (s + 1/2) ^ 2). assert (0 < x) by (unfold x; nra). assert (W := sqrt_sqrt x ltac:(lra)). assert (W0 := sqrt_pos x).
    assert (sqrt x > s + 1/2 - 1/2); [|lra]. apply Rnot_le_gt. intros K. assert (sqrt x * sqrt x <= s * s) by nra. rewrite W in *. unfold x in *. lra.
  - set (x := 0 - -1 * (1/2) + (s + 1/2) ^ 2). assert (0 < x) by (unfold x; nra). assert (W := sqrt_sqrt x ltac:(lra)). assert (W0 := sqrt_pos x).
    assert (sqrt x < s + 1/2 + 1/2); [|lra]. apply Rnot_le_lt. intros K. assert ((s + 1) * (s + 1) <= sqrt x * sqrt x) by nra. rewrite W in *. unfold x in *. lra.
Qed.
Print Assumptions C136_default_refuted.

(** The default of TCV has the wrong sign for a p device: its threshold grows with the
    temperature by what that of the n device loses. *)
Theorem C136_TCV_refuted : forall k T v n p a, a = mkArgs (lit "n") None None None None None (Some v) None None None None None None None ->
  mos_model k T a = Ok n -> mos_model k T (p_args a) = Ok p ->
  m_VTO n = v - / 10 ^ 3 * (T - 300) /\ m_VTO p = v + / 10 ^ 3 * (T - 300).
Proof.
  intros k T v n p a -> Hn Hp. unfold mos_model in *.
  assert (V : forall a' x m, mos_nominal k a' = Ok x -> (if self_check a' (set_device_temperature T x) then Ok (set_device_temperature T x) else Err ValueError) = Ok m ->
    m_VTO m = m_VTO x - m_TCV x * (T - m_TNOM x)).
  { intros a' x m _ H. destruct (self_check a' _); [|discriminate]. injection H as <-. reflexivity. }
  destruct (mos_nominal k _) as [xn|] eqn:En in Hn; [|discriminate]. destruct (mos_nominal k _) as [xp|] eqn:Ep in Hp; [|discriminate].
  cbn [bindr] in *. rewrite (V _ _ _ En Hn), (V _ _ _ Ep Hp). clear V Hn Hp.
  unfold mos_nominal in En, Ep. cbn in En, Ep. destruct k; cbn in En, Ep; injection En as <-; injection Ep as <-; cbn; unfold Tref; lra.
Qed.
Print Assumptions C136_TCV_refuted.

(** A threshold computed from VFB ignores the polarity. *)
Theorem C136_VFB_refuted : forall k T f ph g n p a, a = mkArgs (lit "n") None None (Some g) None (Some ph) None None None None (Some f) None (Some 0) None ->
  mos_model k T a = Ok n -> mos_model k T (p_args a) = Ok p -> m_VTO n = f + ph + g * ph /\ m_VTO p = - f + ph + g * ph.
Proof.
  intros k T f ph g n p a -> Hn Hp. unfold mos_model in *.
  destruct (mos_nominal k _) as [xn|] eqn:En in Hn; [|discriminate]. destruct (mos_nominal k _) as [xp|] eqn:Ep in Hp; [|discriminate].
  cbn [bindr] in *. destruct (self_check _ _) in Hn; [|discriminate]. destruct (self_check _ _) in Hp; [|discriminate].
  injection Hn as <-. injection Hp as <-. unfold mos_nominal in En, Ep. destruct k; cbn in En, Ep; injection En as <-; injection Ep as <-; cbn; lra.
Qed.
Print Assumptions C136_VFB_refuted.

(** VTO = -0.6 V for a p device is the threshold 0.6 V of its mirror image. *)
Example C136_example : exists m,
  mos_model KEkv 300 (mkArgs (lit "n") None None None None None (Some (3/5)) None None None None None (Some 0) None) = Ok m /\
  mos_model KEkv 300 (mkArgs (lit "p") None None None None None (Some (- (3/5))) None None None None None (Some (-0)) None) = Ok (other_type m) /\
  m_VTO m = 3/5.
Proof.
  eexists. assert (E : mos_model KEkv 300 (mkArgs (lit "n") None None None None None (Some (3/5)) None None None None None (Some 0) None) =
    Ok (mkMos 1 300 300 (7 / 10 ^ 4) 1 (7/10) (1 * (3/5)) (5 / 10 ^ 5) (1/2) (1 * 0) (- (3/2)))).
  { unfold mos_model, mos_nominal. cbn [a_TYPE a_TNOM a_COX a_LAMBDA a_TCV a_BEX dflt]. unfold mos_sign. cbn [bindr].
    unfold mos_COX, mos_GAMMA, mos_PHI, mos_VTO, mos_KP. cbn [a_COX a_TOX a_GAMMA a_NSUB a_PHI a_VTO a_VFB a_KP a_U0 bindr].
    change (streqb (lit "n") (lit "n")) with true. cbv iota.
    set (m0 := mkMos 1 Tref Tref _ _ _ _ _ _ _ _). assert (E := at_nominal m0). cbn [m0 m_TNOM m_TEMP] in E. unfold Tref in *.
    rewrite E by lra. unfold self_check. cbn [a_NSUB a_U0 m0 m_GAMMA m_PHI andb].
    rewrite (Rlt_b_of 0 1) by lra. rewrite (Rlt_b_of (1/10) (7/10)) by lra. reflexivity. }
  split; [exact E|]. split; [|cbn; lra].
  apply (C136_mirror KEkv 300 _ _) in E; [exact E|reflexivity|discriminate|left; discriminate].
Qed.

(** * C137 *)

(** Built at its nominal temperature, a model carries the values it was given. *)
Theorem C137_given_values : forall k a m, 0 < dflt Tref (a_TNOM a) -> mos_model k (dflt Tref (a_TNOM a)) a = Ok m ->
  m_TEMP m = dflt Tref (a_TNOM a) /\ m_TNOM m = dflt Tref (a_TNOM a) /\ mos_sign k (a_TYPE a) = Ok (m_NP m) /\
  (forall x, a_VTO a = Some x -> m_VTO m = m_NP m * x) /\ (forall x, a_KP a = Some x -> m_KP m = x) /\
  (forall x, a_PHI a = Some x -> m_PHI m = x) /\ (forall x, a_GAMMA a = Some x -> m_GAMMA m = x) /\
  (forall x, a_COX a = Some x -> m_COX m = x) /\ (forall x, a_LAMBDA a = Some x -> m_LAMBDA m = x) /\
  (forall x, a_TCV a = Some x -> m_TCV m = m_NP m * x) /\ (forall x, a_BEX a = Some x -> m_BEX m = x).
Proof.
  intros k a m P H. unfold mos_model in H. destruct (mos_nominal k a) as [m0|] eqn:N; [|discriminate]. cbn [bindr] in H.
  assert (T0 : m_TNOM m0 = dflt Tref (a_TNOM a) /\ m_TEMP m0 = dflt Tref (a_TNOM a)).
  { unfold mos_nominal in N. destruct (mos_sign k _); [|discriminate]. cbn [bindr] in N. destruct (mos_COX a); [|discriminate]. cbn [bindr] in N.
    destruct (mos_GAMMA a _); [|discriminate]. cbn [bindr] in N. destruct (mos_PHI a _); [|discriminate]. cbn [bindr] in N.
    destruct (mos_VTO k a _); [|discriminate]. cbn [bindr] in N. injection N as <-. split; reflexivity. }
  destruct T0 as [T1 T2]. assert (E := at_nominal m0). rewrite T1 in E. rewrite E in H by assumption.
  destruct (self_check a m0); [|discriminate]. injection H as <-. split; [exact T2|]. split; [exact T1|]. split; [exact (nominal_sign k a m0 N)|].
  unfold mos_nominal, mos_COX, mos_GAMMA, mos_PHI, mos_VTO, mos_KP in N.
  destruct (mos_sign k _) as [np|]; [|discriminate]. cbn [bindr] in N.
  destruct (match a_COX a with Some c => Ok c | None => _ end) as [cox|] eqn:EC; [|discriminate]. cbn [bindr] in N.
  destruct (match a_GAMMA a with Some c => Ok c | None => _ end) as [g|] eqn:EG; [|discriminate]. cbn [bindr] in N.
  destruct (match a_PHI a with Some c => Ok c | None => _ end) as [p|] eqn:EP; [|discriminate]. cbn [bindr] in N.
  destruct (match a_VTO a with Some c => Ok (np * c) | None => _ end) as [v|] eqn:EV; [|discriminate]. cbn [bindr] in N.
  injection N as <-. cbn [m_NP m_VTO m_KP m_PHI m_GAMMA m_COX m_LAMBDA m_TCV m_BEX].
  repeat match goal with |- _ /\ _ => split end; intros x X; rewrite X in *; try reflexivity; try (injection EC as <-; reflexivity);
    try (injection EG as <-; reflexivity); try (injection EP as <-; reflexivity); injection EV as <-; reflexivity.
Qed.
Print Assumptions C137_given_values.

(** One change of temperature leads to the documented values. *)
Theorem C137_one_change : forall m T, at_T m T (set_device_temperature T m).
Proof. intros m T. unfold at_T, set_device_temperature. cbn. repeat split. Qed.
Print Assumptions C137_one_change.

(** A second one does not: the new values start from the previous ones as if those were
    of the nominal temperature.  The threshold is off by TCV (T1 - TNOM), the
    transconductance by the factor (T1 / TNOM)^BEX, whatever the second temperature. *)
Theorem C137_second_change_refuted : forall m T1 T2, 0 < m_KP m -> m_TCV m <> 0 -> T1 <> m_TNOM m ->
  let m2 := set_device_temperature T2 (set_device_temperature T1 m) in
  ~ at_T m T2 m2 /\
  m_VTO m2 = m_VTO (set_device_temperature T2 m) - m_TCV m * (T1 - m_TNOM m) /\
  m_KP m2 = m_KP (set_device_temperature T2 m) * Rpower (T1 / m_TNOM m) (m_BEX m).
Proof.
  intros m T1 T2 K C N m2.
  assert (V : m_VTO m2 = m_VTO (set_device_temperature T2 m) - m_TCV m * (T1 - m_TNOM m)) by (unfold m2, set_device_temperature; cbn; ring).
  split; [|split; [exact V|unfold m2, set_device_temperature; cbn; ring]].
  intros (_ & A & _). rewrite V in A. unfold set_device_temperature in A. cbn in A.
  assert (Z : m_TCV m * (T1 - m_TNOM m) = 0) by lra. apply Rmult_integral in Z. destruct Z; [contradiction|lra].
Qed.
Print Assumptions C137_second_change_refuted.

(** In particular the nominal temperature does not bring the nominal values back: it
    leaves the values of the other temperature in place. *)
Theorem C137_restore_refuted : forall m T, 0 < m_TNOM m -> m_TCV m <> 0 -> T <> m_TNOM m ->
  let back := set_device_temperature (m_TNOM m) (set_device_temperature T m) in
  m_VTO back = m_VTO (set_device_temperature T m) /\ m_KP back = m_KP (set_device_temperature T m) /\
  m_PHI back = m_PHI (set_device_temperature T m) /\ m_VTO back <> m_VTO m.
Proof.
  intros m T P C N back. unfold back, set_device_temperature. cbn. replace (m_TNOM m / m_TNOM m) with 1 by (field; lra).
  rewrite ln_1, Rpower_1. repeat split; try (field; lra). intros A.
  assert (Z : m_TCV m * (T - m_TNOM m) = 0) by lra. apply Rmult_integral in Z. destruct Z; [contradiction|lra].
Qed.
Print Assumptions C137_restore_refuted.

(** A default n device, 0.5 V at 300 K: 0.4 V at 400 K, and 0.3 V if the same temperature
    is set again. *)
Example C137_example : exists m, mos_model KMosq 300 (bare (lit "n")) = Ok m /\ m_VTO m = 1/2 /\
  m_VTO (set_device_temperature 400 m) = 4/10 /\ m_VTO (set_device_temperature 400 (set_device_temperature 400 m)) = 3/10.
Proof.
  eexists. split; [apply (bare_model KMosq (lit "n") 1); reflexivity|]. unfold set_device_temperature. cbn. repeat split; lra.
Qed.

(** * C138 *)

(** The temperature of the last [set_temperature], 300 K without any. *)
Fixpoint last_temp (d : R) (l : list sstep) : R :=
  match l with
  | [] => d
  | SetTemp c :: l' => last_temp (c + 27315 / 100) l'
  | NewModel _ _ :: l' => last_temp d l'
  end.

Lemma session_from : forall l T ms, exists new, fold_left run_step l (T, ms) = (last_temp T l, ms ++ new).
Proof.
  induction l as [|s l IH]; intros T ms; cbn [fold_left last_temp].
  - exists []. rewrite app_nil_r. reflexivity.
  - destruct s as [c|k a]; cbn [run_step fst snd].
    + destruct (IH (Celsius2Kelvin c) ms) as (n & E). exists n. rewrite E. reflexivity.
    + destruct (IH T (ms ++ [mos_model k T a])) as (n & E). exists (mos_model k T a :: n). rewrite E, <- app_assoc. reflexivity.
Qed.

(** A model takes the simulation temperature in force when it is made, and nothing that
    happens later reaches it. *)
Theorem C138_at_creation : forall before k a after,
  fst (session before) = last_temp 300 before /\
  nth_error (snd (session (before ++ NewModel k a :: after))) (List.length (snd (session before))) = Some (mos_model k (last_temp 300 before) a) /\
  (forall m, mos_model k (last_temp 300 before) a = Ok m -> m_TEMP m = last_temp 300 before).
Proof.
  intros before k a after. unfold session. destruct (session_from before 300 []) as (n & E). rewrite fold_left_app, E. cbn [fst snd app].
  split; [reflexivity|]. split.
  - cbn [fold_left run_step fst snd]. destruct (session_from after (last_temp 300 before) (n ++ [mos_model k (last_temp 300 before) a])) as (n' & E').
    rewrite E'. cbn [snd]. rewrite <- app_assoc, nth_error_app2 by auto. rewrite Nat.sub_diag. reflexivity.
  - intros m H. unfold mos_model in H. destruct (mos_nominal k a) as [m0|]; [|discriminate]. cbn [bindr] in H.
    destruct (self_check a _); [|discriminate]. injection H as <-. reflexivity.
Qed.
Print Assumptions C138_at_creation.

(** So a temperature set after the model exists is not the one of the device. *)
Theorem C138_later_refuted : forall before k a c m, mos_model k (last_temp 300 before) a = Ok m -> c + 27315 / 100 <> last_temp 300 before ->
  let s := session (before ++ [NewModel k a; SetTemp c]) in
  nth_error (snd s) (List.length (snd (session before))) = Some (Ok m) /\ fst s = c + 27315 / 100 /\ m_TEMP m <> fst s.
Proof.
  intros before k a c m H N s. destruct (C138_at_creation before k a [SetTemp c]) as (_ & A & B). unfold s.
  split; [rewrite A, H; reflexivity|]. assert (F : fst (session (before ++ [NewModel k a; SetTemp c])) = c + 27315 / 100).
  { unfold session. destruct (session_from (before ++ [NewModel k a; SetTemp c]) 300 []) as (n & E). rewrite E. cbn [fst].
    clear. generalize 300. induction before as [|[x|k' a'] l IH]; intros d; cbn [app last_temp]; [reflexivity|apply IH|apply IH]. }
  split; [exact F|]. rewrite F, (B m H). intros X. apply N. symmetry. exact X.
Qed.
Print Assumptions C138_later_refuted.

(** The EKV equations scale currents and transconductances by the thermal voltage of
    300 K at every temperature: the ratio of the specific current to the specific
    transconductance is not kT/q of the device. *)
Theorem C138_thermal_voltage_refuted : forall T a m ucrit xj d VG, mos_model KEkv T a = Ok m -> T <> 300 ->
  e_Is (ekv_ut m) (to_ekv ucrit xj m) d VG = Vth 300 * e_Gs (ekv_ut m) (to_ekv ucrit xj m) d VG /\ Vth 300 <> Vth (m_TEMP m).
Proof.
  intros T a m ucrit xj d VG H N. split.
  - unfold e_Is, e_Gs, ekv_ut, Tref, Rdiv. ring.
  - unfold mos_model in H. destruct (mos_nominal KEkv a) as [m0|]; [|discriminate]. cbn [bindr] in H.
    destruct (self_check a _); [|discriminate]. injection H as <-. cbn [set_device_temperature m_TEMP]. unfold Vth. intros X.
    assert (Q : 0 < k_B / q_e). { unfold k_B, q_e. apply Rdiv_lt_0_compat; apply Rdiv_lt_0_compat; try lra; apply pow_lt; lra. }
    assert (k_B / q_e * 300 = k_B / q_e * T) by (unfold Rdiv in *; lra). apply Rmult_eq_reg_l in H; lra.
Qed.
Print Assumptions C138_thermal_voltage_refuted.

(** Two models at 300 K and 350 K, then the simulation at 400 K. *)
Example C138_example :
  let s := session [NewModel KMosq (bare (lit "n")); SetTemp (7685 / 100); NewModel KMosq (bare (lit "p")); SetTemp (12685 / 100)] in
  fst s = 400 /\ snd s = [mos_model KMosq 300 (bare (lit "n")); mos_model KMosq 350 (bare (lit "p"))].
Proof.
  cbn. unfold Celsius2Kelvin. split; [lra|]. replace (7685 / 100 + 27315 / 100) with 350 by lra. reflexivity.
Qed.

(** * C139 *)

(** The oxide: COX from its thickness, KP from the mobility in cm^2/(V s). *)
Theorem C139_oxide : forall a t u cox, a_COX a = None -> a_TOX a = Some t -> a_KP a = None -> a_U0 a = Some u -> mos_COX a = Ok cox ->
  cox * t = eps_ox /\ mos_KP a cox = (u / 10 ^ 4) * cox.
Proof.
  intros a t u cox C TX K U H. unfold mos_COX in H. rewrite C, TX in H. destruct (Req_b_spec t 0) as [E|E]; [discriminate|]. injection H as <-.
  split; [field; exact E|]. unfold mos_KP. rewrite K, U. reflexivity.
Qed.
Print Assumptions C139_oxide.

(** The surface potential from the doping per cm^3: the Fermi level at PHI/2 gives the
    doping back. *)
Theorem C139_surface_potential : forall a n tn phi, a_PHI a = None -> a_NSUB a = Some n -> 0 < n -> 0 < tn -> mos_PHI a tn = Ok phi ->
  ni tn * exp (phi / (2 * Vth tn)) = n * 10 ^ 6.
Proof.
  intros a n tn phi P N n0 T0 H. unfold mos_PHI in H. rewrite P, N in H.
  assert (I0 : 0 < ni tn).
  { unfold ni. apply Rmult_lt_0_compat; [apply Rmult_lt_0_compat; [apply Rmult_lt_0_compat; [lra|apply pow_lt; lra]|apply exp_pos]|apply exp_pos]. }
  assert (X0 : 0 < n * 10 ^ 6 / ni tn) by (apply Rdiv_lt_0_compat; [apply Rmult_lt_0_compat; [lra|apply pow_lt; lra]|exact I0]).
  rewrite (Rlt_b_of _ _ X0) in H. assert (V := Vth_pos tn T0).
  assert (X1 : ni tn * (n * 10 ^ 6 / ni tn) = n * 10 ^ 6) by (field; lra). set (x := n * 10 ^ 6 / ni tn) in *. cbv zeta in H. injection H as <-.
  replace (2 * Vth tn * ln x / (2 * Vth tn)) with (ln x) by (field; lra).
  rewrite exp_ln by exact X0. exact X1.
Qed.
Print Assumptions C139_surface_potential.

(** The body factor from the doping: sqrt(2 q eps N) / COX is the definition, but COX is
    under the root.  The two agree for no COX but 1 F/m^2 (2 10^-3 is a thin oxide). *)
Theorem C139_GAMMA_refuted : forall a n cox g, a_GAMMA a = None -> a_NSUB a = Some n -> 0 < n -> 0 < cox -> mos_GAMMA a cox = Ok g ->
  g ^ 2 * cox = 2 * q_e * eps_si * (n * 10 ^ 6) /\ (g * cox = sqrt (2 * q_e * eps_si * (n * 10 ^ 6)) <-> cox = 1).
Proof.
  intros a n cox g G N n0 c0 H. unfold mos_GAMMA in H. rewrite G, N in H. destruct (Req_b_spec cox 0) as [E|E]; [lra|].
  assert (D0 : 0 < 2 * q_e * eps_si * (n * 10 ^ 6)).
  { unfold q_e, eps_si. repeat apply Rmult_lt_0_compat; try lra; try (apply pow_lt; lra); apply Rinv_0_lt_compat; apply pow_lt; lra. }
  set (D := 2 * q_e * eps_si * (n * 10 ^ 6)) in *. replace (2 * q_e * eps_si * n * 10 ^ 6 / cox) with (D / cox) in H by (unfold D; field; lra).
  assert (X0 : 0 < D / cox) by (apply Rdiv_lt_0_compat; lra).
  assert (A : Rlt_b (D / cox) 0 = false) by (apply Rlt_b_false; lra). rewrite A in H. injection H as <-.
  assert (S2 := sqrt_sqrt (D / cox) ltac:(lra)). assert (Q : sqrt (D / cox) ^ 2 * cox = D) by (simpl; rewrite Rmult_1_r, S2; field; lra).
  split; [exact Q|]. assert (P := sqrt_lt_R0 _ X0). assert (SD := sqrt_sqrt D ltac:(lra)). assert (PD := sqrt_lt_R0 _ D0). split; intros K.
  - assert (W : D * cox = D). { rewrite <- SD at 2. rewrite <- K. rewrite <- Q at 1. simpl. ring. }
    apply Rmult_eq_reg_l with D; lra.
  - subst cox. rewrite Rmult_1_r. f_equal. field.
Qed.
Print Assumptions C139_GAMMA_refuted.

(** The threshold from the flat-band voltage needs PHI and GAMMA written down, and is
    VFB + PHI + GAMMA PHI in place of VFB + PHI + GAMMA sqrt(PHI). *)
Theorem C139_VFB_refuted : forall k a np f, a_VTO a = None -> a_VFB a = Some f ->
  (a_PHI a = None \/ a_GAMMA a = None -> mos_VTO k a np = Err TypeError) /\
  (forall p g, a_PHI a = Some p -> a_GAMMA a = Some g -> 0 < p -> 0 < g -> exists v, mos_VTO k a np = Ok v /\
     (v = f + p + g * sqrt p <-> p = 1)).
Proof.
  intros k a np f V F. unfold mos_VTO. rewrite V, F. split.
  - intros [E|E]; rewrite E; [reflexivity|destruct (a_PHI a); reflexivity].
  - intros p g P G p0 g0. rewrite P, G. eexists. split; [reflexivity|]. assert (S := sqrt_lt_R0 p p0). assert (SS := sqrt_sqrt p ltac:(lra)). split; intros K.
    + assert (g * p = g * sqrt p) by lra. apply Rmult_eq_reg_l in H; [|lra]. assert (sqrt p = 1); [|nra].
      apply Rmult_eq_reg_l with (sqrt p); lra.
    + subst p. rewrite sqrt_1. ring.
Qed.
Print Assumptions C139_VFB_refuted.

(** Every EKV model that can be built has a pinch-off voltage above -PHI, whose slope is
    the one of C99: the checks of the constructor are the premises needed there... *)
Theorem C139_built_is_physical : forall k T a m ucrit xj, mos_model k T a = Ok m -> physical (to_ekv ucrit xj m) /\ 1/10 < m_PHI m /\
  forall VG, - m_PHI m <= get_VP (to_ekv ucrit xj m) VG.
Proof.
  intros k T a m ucrit xj H. unfold mos_model in H. destruct (mos_nominal k a) as [m0|]; [|discriminate]. cbn [bindr] in H.
  destruct (self_check a _) eqn:S; [|discriminate]. injection H as <-. unfold self_check in S. apply andb_prop in S. destruct S as [S P].
  apply andb_prop in S. destruct S as [_ G]. apply Rlt_b_true in P. apply Rlt_b_true in G.
  assert (PH : physical (to_ekv ucrit xj (set_device_temperature T m0))) by (split; cbn in *; lra).
  split; [exact PH|]. split; [exact P|]. intros VG. exact (C99_lower_bound _ VG PH).
Qed.
Print Assumptions C139_built_is_physical.

(** ... but a change of the temperature is not checked: at 1000 K the PHI of a default
    device is negative, and its root is taken at every evaluation. *)
Theorem C139_hot_refuted : forall k, exists m, mos_model k 300 (bare (lit "n")) = Ok m /\ m_PHI (set_device_temperature 1000 m) < 0.
Proof.
  intros k. eexists. split; [apply (bare_model k (lit "n") 1); destruct k; reflexivity|]. unfold set_device_temperature. cbn [m_PHI m_TNOM].
  assert (L : ln (1000 / 300) < 1000 / 300 - 1).
  { rewrite <- (ln_exp (1000/300 - 1)). apply ln_increasing; [lra|]. assert (K := exp_ineq1 (1000/300 - 1) ltac:(lra)). lra. }
  assert (V : 0 < Vth 300 < 26 / 1000). { split; [apply Vth_pos; lra|]. unfold Vth, k_B, q_e. lra. }
  unfold Eg. nra.
Qed.
Print Assumptions C139_hot_refuted.

(** An oxide of 10 nm and a mobility of 460 cm^2/(V s). *)
Example C139_example : exists m, mos_model KEkv 300 (mkArgs (lit "n") None None None None None None None None (Some (/ 10 ^ 8)) None (Some 460) None None) = Ok m /\
  m_COX m = 345 / 10 ^ 5 /\ m_KP m = 1587 / 10 ^ 7.
Proof.
  eexists. split.
  - unfold mos_model, mos_nominal. cbn [a_TYPE a_TNOM a_COX a_LAMBDA a_TCV a_BEX dflt]. unfold mos_sign. cbn [bindr].
    unfold mos_COX, mos_GAMMA, mos_PHI, mos_VTO, mos_KP. cbn [a_COX a_TOX a_GAMMA a_NSUB a_PHI a_VTO a_VFB a_KP a_U0 bindr].
    change (streqb (lit "n") (lit "n")) with true. cbv iota. destruct (Req_b_spec (/ 10 ^ 8) 0) as [E|_]; [exfalso; assert (0 < / 10 ^ 8) by (apply Rinv_0_lt_compat, pow_lt; lra); lra|]. cbn [bindr].
    set (m0 := mkMos 1 Tref Tref _ _ _ _ _ _ _ _). assert (E := at_nominal m0). cbn [m0 m_TNOM m_TEMP] in E. unfold Tref in *.
    rewrite E by lra. unfold self_check. cbn [a_NSUB a_U0 m0 m_GAMMA m_PHI andb].
    rewrite (Rlt_b_of 0 460), (Rlt_b_of 0 1), (Rlt_b_of (1/10) (7/10)) by lra. reflexivity.
  - cbn [m_COX m_KP]. unfold eps_ox. split; field.
Qed.

(** * C140 *)

(** The quadratic model takes the type in either case and refuses any other. *)
Theorem C140_mosq_type : forall ty,
  (slower ty = lit "n" -> mos_sign KMosq ty = Ok 1) /\ (slower ty = lit "p" -> mos_sign KMosq ty = Ok (-1)) /\
  (slower ty <> lit "n" -> slower ty <> lit "p" -> mos_sign KMosq ty = Err ValueError).
Proof.
  intros ty. unfold mos_sign, streqb. split; [|split].
  - intros ->. reflexivity.
  - intros ->. reflexivity.
  - intros N P. destruct (list_eq_dec _ _ _); [contradiction|]. destruct (list_eq_dec _ _ _); [contradiction|reflexivity].
Qed.
Print Assumptions C140_mosq_type.

(** In a netlist, whose lines are in lower case, both models agree on n and p. *)
Theorem C140_lower_case : forall k, mos_sign k (lit "n") = Ok 1 /\ mos_sign k (lit "p") = Ok (-1).
Proof. intros [|]; split; reflexivity. Qed.
Print Assumptions C140_lower_case.

(** The EKV model makes a p-channel device of whatever is not a lower-case n: of "N",
    and of words that are no type. *)
Theorem C140_ekv_type_refuted : mos_sign KEkv (lit "N") = Ok (-1) /\ mos_sign KMosq (lit "N") = Ok 1 /\
  (forall ty, ty <> lit "n" -> mos_sign KEkv ty = Ok (-1)).
Proof.
  split; [reflexivity|]. split; [reflexivity|]. intros ty N. unfold mos_sign, streqb. destruct (list_eq_dec _ _ _); [contradiction|reflexivity].
Qed.
Print Assumptions C140_ekv_type_refuted.

(** So EKV models for "N" and "n" differ in the sign of their currents. *)
Example C140_example : exists a b, mos_model KEkv 300 (bare (lit "N")) = Ok a /\ mos_model KEkv 300 (bare (lit "n")) = Ok b /\
  m_NP a = -1 /\ m_NP b = 1.
Proof.
  eexists. eexists. split; [apply (bare_model KEkv (lit "N") (-1)); reflexivity|]. split; [apply (bare_model KEkv (lit "n") 1); reflexivity|].
  split; reflexivity.
Qed.

(** * C141 *)
Definition e_times (M : R) (d : edev) : edev := mkEd (x_W d) (x_L d) M (x_N d).
Definition q_times (M : R) (d : qdev) : qdev := mkQd (t_W d) (t_L d) M (t_N d) (t_mc d).

(** M square-law devices in parallel: current and conductances are M times those of
    one. *)
Theorem C141_mosq : forall iea m d M b,
  terminal_i iea m (q_times M d) b = M * terminal_i iea m (q_times 1 d) b /\
  get_gmd iea m (q_times M d) b = M * get_gmd iea m (q_times 1 d) b /\
  get_gm iea m (q_times M d) b = M * get_gm iea m (q_times 1 d) b /\
  get_gmb m (q_times M d) b = M * get_gmb m (q_times 1 d) b.
Proof.
  intros iea m d M b.
  assert (VT : forall x, get_VT m (q_times M d) x = get_VT m (q_times 1 d) x) by reflexivity.
  assert (SK : skp m (q_times M d) = skp m (q_times 1 d)) by reflexivity.
  assert (IDS : forall c, get_ids iea m (q_times M d) c = M * get_ids iea m (q_times 1 d) c).
  { intros [[vds vgs] vbs]. unfold get_ids. rewrite VT, SK. cbn [q_times t_W t_L t_M t_N]. unfold Rdiv. ring. }
  split; [|split; [|split]].
  - unfold terminal_i. destruct (get_voltages m b) as [sw cs]. rewrite IDS. ring.
  - destruct b as [[vds vgs] vbs]. unfold get_gmd. rewrite VT, SK. cbn [q_times t_W t_L t_M t_N]. unfold Rdiv. ring.
  - destruct b as [[vds vgs] vbs]. unfold get_gm. rewrite VT, SK. cbn [q_times t_W t_L t_M t_N]. unfold Rdiv. ring.
  - destruct b as [[vds vgs] vbs]. unfold get_gmb. rewrite VT, SK. cbn [q_times t_W t_L t_M t_N]. unfold Rdiv. ring.
Qed.
Print Assumptions C141_mosq.

(** The EKV current is M times that of one device... *)
Theorem C141_ekv_current : forall eps ut esi newton m d M g1 g2 b,
  e_ids eps ut esi newton m (e_times M d) g1 g2 b = M * e_ids eps ut esi newton m (e_times 1 d) g1 g2 b.
Proof.
  intros. unfold e_ids, e_currents, e_Is. destruct (e_voltages m b) as [[[VD VG] VS] cs].
  change (leq_virp ut esi m (e_times M d)) with (leq_virp ut esi m (e_times 1 d)).
  destruct (leq_virp ut esi m (e_times 1 d) _ _ _ _) as [Leff vi]. cbn [e_times x_W x_L x_M x_N]. unfold Rdiv. ring.
Qed.
Print Assumptions C141_ekv_current.

(** ... but its conductances are those of one: the Jacobian of Newton's method, the AC
    analysis and the report have 1/M of the conductances. *)
Theorem C141_ekv_conductances_refuted : forall eps ut esi newton m d M g1 g2 b,
  let one := e_times 1 d in let many := e_times M d in
  e_gmd eps ut esi newton m many g1 g2 b = e_gmd eps ut esi newton m one g1 g2 b /\
  e_gms eps ut esi newton m many g1 g2 b = e_gms eps ut esi newton m one g1 g2 b /\
  e_gmg eps ut esi newton m many g1 g2 b = e_gmg eps ut esi newton m one g1 g2 b /\
  (M <> 1 -> e_gms eps ut esi newton m one g1 g2 b <> 0 ->
   e_gms eps ut esi newton m many g1 g2 b <> M * e_gms eps ut esi newton m one g1 g2 b).
Proof.
  intros eps ut esi newton m d M g1 g2 b one many. split; [reflexivity|]. split; [reflexivity|]. split; [reflexivity|].
  intros M1 G E. change (e_gms eps ut esi newton m many g1 g2 b) with (e_gms eps ut esi newton m one g1 g2 b) in E.
  set (g := e_gms eps ut esi newton m one g1 g2 b) in *. assert (Z : (M - 1) * g = 0) by lra. apply Rmult_integral in Z. destruct Z; [lra|contradiction].
Qed.
Print Assumptions C141_ekv_conductances_refuted.

(** Four unit transistors at vds = 1 V, vgs = 3 V carry 12 A. *)
Example C141_example : terminal_i (1/1000) ex_n (q_times 4 ex_d) (1, 3, 0) = 12.
Proof.
  rewrite (proj1 (C141_mosq (1/1000) ex_n ex_d 4 (1, 3, 0))). change (q_times 1 ex_d) with ex_d. rewrite (proj1 C51_example). ring.
Qed.
