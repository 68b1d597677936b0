(** Model of the time functions, ahkab/time_functions.py 402-840.  Times and
    values are real numbers; [str] output is left out.  The [time is None] case
    (the time is taken to be 0) is the caller's: [at_time]. *)
From Coq Require Import Reals List Bool.
From Verif Require Import Base Newton.
Import ListNotations.
Open Scope R_scope.

Definition at_time {A} (f : R -> A) (time : option R) : A := f (match time with Some t => t | None => 0 end).

(** [int(x)]: truncation towards zero. *)
Definition trunc (x : R) : Z := if Rlt_b x 0 then (- Int_part (- x))%Z else Int_part x.

(** ahkab/time_functions.py 429-437. *)
Record pulse := mkPulse { p_v1 : R; p_v2 : R; p_td : R; p_tr : R; p_pw : R; p_tf : R; p_per : R }.
Definition new_pulse (v1 v2 td tr pw tf per : R) : pulse := mkPulse v1 v2 (Rmax td 0) tr pw tf per.

(** ahkab/time_functions.py 439-454. *)
Definition pulse_shape (p : pulse) (time : R) : R :=
  if Rlt_b time (p_td p) then p_v1 p
  else if Rlt_b time (p_td p + p_tr p) then p_v1 p + (p_v2 p - p_v1 p) / p_tr p * (time - p_td p)
  else if Rlt_b time (p_td p + p_tr p + p_pw p) then p_v2 p
  else if Rlt_b time (p_td p + p_tr p + p_pw p + p_tf p)
  then p_v2 p + (p_v1 p - p_v2 p) / p_tf p * (time - (p_td p + p_tr p + p_pw p))
  else p_v1 p.
Definition pulse_call (p : pulse) (time : R) : res R :=
  if Req_EM_T (p_per p) 0 then Err ZeroDivision
  else Ok (pulse_shape p (time - p_per p * IZR (trunc (time / p_per p)))).

(** ahkab/time_functions.py 501-522 [sin]. *)
Definition sin_call (vo va freq td theta phi time : R) : R :=
  if Rlt_b time td then vo + va * sin (PI * phi / 180)
  else vo + va * exp ((td - time) * theta) * sin (2 * PI * freq * (time - td) + PI * phi / 180).

(** ahkab/time_functions.py 573-596 [exp]; the time constants are not 0.  The
    defaults of td2 and tau2 are infinite and not covered. *)
Definition exp_call (v1 v2 td1 tau1 td2 tau2 time : R) : R :=
  if Rlt_b time td1 then v1
  else if Rlt_b time td2 then v1 + (v2 - v1) * (1 - exp (- 1 * (time - td1) / tau1))
  else v1 + (v2 - v1) * (1 - exp (- 1 * (time - td1) / tau1)) + (v1 - v2) * (1 - exp (- 1 * (time - td2) / tau2)).

(** ahkab/time_functions.py 645-668 [sffm]; the parser gives [fc] the value None
    if it is left out, and a product with None is a TypeError. *)
Definition sffm_call (vo va : R) (fc : option R) (mdi fs td time : R) : res R :=
  if Rlt_b td time then
    match fc with
    | None => Err TypeError
    | Some fc => Ok (vo + va * sin (2 * PI * fc * (time - td) + mdi * sin (2 * PI * fs * (time - td))))
    end
  else Ok vo.

(** ahkab/time_functions.py 706-724 [am]; the parser gives [td] the value None if
    it is left out, and the comparison with None is a TypeError. *)
Definition am_call (sa fc fm oc : R) (td : option R) (time : R) : res R :=
  match td with
  | None => Err TypeError
  | Some td =>
      if Rlt_b td time then Ok (sa * (oc + sin (2 * PI * fm * (time - td))) * sin (2 * PI * fc * (time - td)))
      else Ok 0
  end.

(** ** PWL: ahkab/time_functions.py 795-840 *)

(** [InterpolatedUnivariateSpline(x, y, k=1)] of scipy: at least two points with
    increasing abscissae (else an exception), linear between them; outside, the
    first and the last segment are extended. *)
Definition line (p q : R * R) (t : R) : R :=
  snd p + (snd q - snd p) * ((t - fst p) / (fst q - fst p)).
Fixpoint spline_from (p q : R * R) (pts : list (R * R)) (t : R) : R :=
  match pts with
  | [] => line p q t
  | r :: pts' => if Rlt_b (fst q) t then spline_from q r pts' t else line p q t
  end.
Fixpoint increasing_b (pts : list (R * R)) : bool :=
  match pts with
  | p :: ((q :: _) as pts') => Rlt_b (fst p) (fst q) && increasing_b pts'
  | _ => true
  end.
Definition spline (pts : list (R * R)) : res (R -> R) :=
  if increasing_b pts then
    match pts with p :: q :: rest => Ok (spline_from p q rest) | _ => Err ValueError end
  else Err ValueError.

Definition rmaxl (l : list R) : R := match l with [] => 0 | x :: l' => fold_left Rmax l' x end.

(** Python's [%] on floats: the sign of the divisor. *)
Definition pymod (a b : R) : R := a - IZR (Int_part (a / b)) * b.

Record pwl := mkPwl { w_max : R; w_repeat : bool; w_rt : R; w_td : R; w_f : R -> R }.
(** ahkab/time_functions.py 795-805. *)
Definition new_pwl (pts : list (R * R)) (repeat : bool) (rt td : R) : res pwl :=
  let mx := rmaxl (map fst pts) in
  match spline pts with
  | Err e => Err e
  | Ok f => Ok (mkPwl mx repeat (if Req_EM_T rt mx then 0 else rt) td f)
  end.
(** ahkab/time_functions.py 812-827. *)
Definition normalize_time (w : pwl) (time : R) : R :=
  if Rlt_b (w_td w) time then
    let time := time - w_td w in
    if w_repeat w && Rlt_b (w_max w) time
    then pymod (time - w_max w) (w_max w - w_rt w) + w_rt w
    else time
  else 0.
Definition pwl_call (w : pwl) (time : R) : R := w_f w (normalize_time w time).
