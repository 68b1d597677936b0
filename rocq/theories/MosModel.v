(** Model of the constructors of the two MOS models, ahkab/ekv.py 369-455 and 796-820,
    ahkab/mosq.py 430-525 and 805-834, with the constants of ahkab/constants.py.
    Arguments are numbers or None (a string that is no number makes [float] raise, see
    ModelLines.v); TNOM and the temperatures are positive.  The Monte Carlo parameters
    AVT and AKP and the parameters UCRIT, XJ and SATLIM are left out: they are copied. *)
From Coq Require Import Ascii String Reals List Bool .
From Verif Require Import Base Str Newton Diode Ekv Mosq.
Import ListNotations.
Open Scope R_scope.

(** constants.py 30-36. *)
Definition q_e : R := 160217646 / 10 ^ 27.
Definition k_B : R := 13806503 / 10 ^ 30.
Definition Tref : R := 300.
(** constants.py 39-52 [Vth]; the default of the argument is [Tref]. *)
Definition Vth (T : R) : R := k_B * T / q_e.
(** constants.py 104-109, the class [silicon]. *)
Definition eps_si : R := 1045 / 10 ^ 13.
Definition eps_ox : R := 345 / 10 ^ 13.
(** constants.py 58-73 [Eg]. *)
Definition Eg (T : R) : R := 116 / 100 - 702 / 10 ^ 6 * T ^ 2 / (1108 + T).
(** constants.py 75-89 [ni]. *)
Definition ni (T : R) : R :=
  145 * 10 ^ 14 * Rpower (T / Tref) (3 / 2) * exp (Eg Tref / (2 * Vth Tref) - Eg T / (2 * Vth T)).

Inductive kind : Type := KEkv | KMosq.

(** The keyword arguments of the constructors. *)
Record margs := mkArgs { a_TYPE : str; a_TNOM : option R; a_COX : option R; a_GAMMA : option R; a_NSUB : option R;
  a_PHI : option R; a_VTO : option R; a_KP : option R; a_LAMBDA : option R; a_TOX : option R; a_VFB : option R;
  a_U0 : option R; a_TCV : option R; a_BEX : option R }.

(** The attributes of the object. *)
Record mos := mkMos { m_NP : R; m_TNOM : R; m_TEMP : R; m_COX : R; m_GAMMA : R; m_PHI : R; m_VTO : R; m_KP : R;
  m_LAMBDA : R; m_TCV : R; m_BEX : R }.

(** ekv.py 379: anything but 'n' is a p-channel device; mosq.py 440-445. *)
Definition mos_sign (k : kind) (ty : str) : res R :=
  match k with
  | KEkv => Ok (if streqb ty (lit "n") then 1 else -1)
  | KMosq => if streqb (slower ty) (lit "n") then Ok 1 else if streqb (slower ty) (lit "p") then Ok (-1) else Err ValueError
  end.

(** ekv.py 388-393, mosq.py 454-459. *)
Definition mos_COX (a : margs) : res R :=
  match a_COX a, a_TOX a with
  | Some c, _ => Ok c
  | None, Some t => if Req_b t 0 then Err ZeroDivision else Ok (eps_ox / t)
  | None, None => Ok (7 / 10 ^ 4)
  end.

(** ekv.py 395-401, mosq.py 461-467; [math.sqrt] raises ValueError on a negative number. *)
Definition mos_GAMMA (a : margs) (cox : R) : res R :=
  match a_GAMMA a, a_NSUB a with
  | Some g, _ => Ok g
  | None, Some n =>
      if Req_b cox 0 then Err ZeroDivision
      else let x := 2 * q_e * eps_si * n * 10 ^ 6 / cox in if Rlt_b x 0 then Err ValueError else Ok (sqrt x)
  | None, None => Ok 1
  end.

(** ekv.py 402-408, mosq.py 468-474; [math.log] raises ValueError unless positive. *)
Definition mos_PHI (a : margs) (tnom : R) : res R :=
  match a_PHI a, a_NSUB a with
  | Some p, _ => Ok p
  | None, Some n => let x := n * 10 ^ 6 / ni tnom in if Rlt_b 0 x then Ok (2 * Vth tnom * ln x) else Err ValueError
  | None, None => Ok (7 / 10)
  end.

(** ekv.py 409-417, mosq.py 475-482: with VFB the sum is of the arguments, not of the
    attributes, so that PHI or GAMMA left out raise TypeError. *)
Definition mos_VTO (k : kind) (a : margs) (np : R) : res R :=
  match a_VTO a, a_VFB a with
  | Some v, _ => Ok (np * v)
  | None, Some v => match a_PHI a, a_GAMMA a with Some p, Some g => Ok (v + p + g * p) | _, _ => Err TypeError end
  | None, None => Ok (match k with KEkv => np * (1/2) | KMosq => 1/2 end)
  end.

(** ekv.py 419-424, mosq.py 484-489. *)
Definition mos_KP (a : margs) (cox : R) : R :=
  match a_KP a, a_U0 a with
  | Some x, _ => x
  | None, Some u => u / 10 ^ 4 * cox
  | None, None => 5 / 10 ^ 5
  end.

Definition dflt (d : R) (o : option R) : R := match o with Some x => x | None => d end.

(** ekv.py 444-453, mosq.py 515-525 [set_device_temperature]. *)
Definition set_device_temperature (T : R) (m : mos) : mos :=
  let tn := m_TNOM m in
  mkMos (m_NP m) tn T (m_COX m) (m_GAMMA m)
    (m_PHI m * T / tn + 3 * Vth tn * ln (T / tn) - Eg tn * T / tn + Eg T)
    (m_VTO m - m_TCV m * (T - tn))
    (m_KP m * Rpower (T / tn) (m_BEX m))
    (m_LAMBDA m) (m_TCV m) (m_BEX m).

(** ekv.py 796-807, mosq.py 805-815 [_self_check]; the [Exception] raised is rendered as
    ValueError. *)
Definition self_check (a : margs) (m : mos) : bool :=
  match a_NSUB a with Some n => negb (Rlt_b n 0) | None => true end &&
  match a_U0 a with Some u => Rlt_b 0 u | None => true end &&
  Rlt_b 0 (m_GAMMA m) && Rlt_b (1 / 10) (m_PHI m).

(** The attributes before line 433 (ekv) and 501 (mosq): those of the nominal
    temperature. *)
Definition mos_nominal (k : kind) (a : margs) : res mos :=
  let tn := dflt Tref (a_TNOM a) in
  bindr (mos_sign k (a_TYPE a)) (fun np =>
  bindr (mos_COX a) (fun cox =>
  bindr (mos_GAMMA a cox) (fun g =>
  bindr (mos_PHI a tn) (fun p =>
  bindr (mos_VTO k a np) (fun v =>
  Ok (mkMos np tn tn cox g p v (mos_KP a cox) (dflt (1/2) (a_LAMBDA a)) (np * dflt (/ 10 ^ 3) (a_TCV a)) (dflt (- (3/2)) (a_BEX a)))))))).

(** ekv.py 369-442, mosq.py 431-505; [T] is constants.T. *)
Definition mos_model (k : kind) (T : R) (a : margs) : res mos :=
  bindr (mos_nominal k a) (fun m0 =>
  let m := set_device_temperature T m0 in
  if self_check a m then Ok m else Err ValueError).

(** What the equations of Ekv.v and Mosq.v read: UCRIT, XJ (ekv.py 427-428) and AVT, AKP
    (mosq.py 498-499) are parameters. *)
Definition to_ekv (ucrit xj : R) (m : mos) : emodel :=
  mkE (m_NP m) (m_VTO m) (m_GAMMA m) (m_PHI m) (m_KP m) ucrit (m_LAMBDA m) xj (m_COX m).
Definition to_mosq (avt akp : R) (m : mos) : qmodel :=
  mkQ (m_NP m) (m_VTO m) (m_GAMMA m) (m_PHI m) (m_KP m) (m_LAMBDA m) avt akp.

(** ekv.py 518: the thermal voltage of the scaling is [constants.Vth()], that of the
    default argument. *)
Definition ekv_ut (m : mos) : R := Vth Tref.

(** ahkab/ahkab.py 798-803 [set_temperature] writes constants.T, in kelvin
    (utilities.py 381-384); a constructor reads it.  A session is a list of such steps;
    the models made so far are kept, in the order of their making. *)
Inductive sstep : Type := SetTemp (celsius : R) | NewModel (k : kind) (a : margs).

Definition Celsius2Kelvin (c : R) : R := c + 27315 / 100.

Definition run_step (s : R * list (res mos)) (st : sstep) : R * list (res mos) :=
  match st with
  | SetTemp c => (Celsius2Kelvin c, snd s)
  | NewModel k a => (fst s, snd s ++ [mos_model k (fst s) a])
  end.
(** constants.py 34: the temperature at the start is 300. *)
Definition session (l : list sstep) : R * list (res mos) := fold_left run_step l (300, []).
