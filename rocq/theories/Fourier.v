(** Model of the sampling grid of the FFT analysis, ahkab/fourier.py 342-430
    ([spicefft]).  The transform itself, the interpolation and the window functions
    are not modelled: a spectral line is represented by its index.  Real arithmetic
    is exact. *)
From Coq Require Import Ascii String List Bool Arith ZArith Reals.
From Verif Require Import Base Str Units Directive Newton TimeFun.
Import ListNotations.
Open Scope R_scope.

(** ahkab/fourier.py 342-358: the value of [start] ([from], [tstart]) and the same for
    [stop]; [args] are the keyword arguments. *)
Definition pick (args : list (str * val)) (k1 k2 : str) (dflt : val) : res val :=
  if negb (dmem streqb args k1) && negb (dmem streqb args k2) then Ok dflt
  else
    match dget streqb args k1 with
    | Some VNone | None =>
        match dget streqb args k2 with
        | None => Err KeyError
        | Some VNone => Ok dflt
        | Some v => Ok v
        end
    | Some v => Ok v
    end.
Definition fft_start (args : list (str * val)) (tstart : val) : res val := pick args (lit "start") (lit "from") tstart.
Definition fft_stop (args : list (str * val)) (tstop : val) : res val := pick args (lit "stop") (lit "to") tstop.

(** ahkab/fourier.py 360-364: the number of points. *)
Definition log2 (x : R) : R := ln x / ln 2.
Definition np2_of (n : R) : Z := if Rlt_b n 2 then 2%Z else (2 ^ trunc (log2 (n - 1) + 1))%Z.
Definition dec_val (d : dec) : R := IZR (fst d) * powerRZ 10 (snd d).
Definition np2 (args : list (str * val)) : res Z :=
  match dget streqb args (lit "np") with
  | None => Ok 1024%Z
  | Some (VNum d) => Ok (np2_of (dec_val d))
  | Some _ => Err TypeError
  end.

(** ** Spectral lines: (frequency, index) *)

(** [fftfreq(n, d)[:n/2]], 408-409, with the index n/2 truncated. *)
Definition lines (n : nat) (d : R) : list (R * nat) := map (fun k => (INR k / (INR n * d), k)) (seq 0 (n / 2)).

(** [f[::m]], 411-414. *)
Fixpoint every (fuel m : nat) (l : list (R * nat)) : list (R * nat) :=
  match fuel, l with
  | S fuel', x :: l' => x :: every fuel' m (skipn (m - 1) l')
  | _, _ => []
  end.

(** 415-421: the part below [fmin] is left out, but for the first line. *)
Definition cut_min (fmin : option R) (l : list (R * nat)) : res (list (R * nat)) :=
  match fmin with
  | None => Ok l
  | Some fm =>
      if Rlt_b 0 fm then
        match l with
        | [] => Err ValueError
        | x :: _ => if forallb (fun y => Rlt_b (fst y) fm) l then Err ValueError else Ok (x :: filter (fun y => negb (Rlt_b (fst y) fm)) l)
        end
      else Ok l
  end.
(** 422-427. *)
Definition cut_max (fmax : option R) (l : list (R * nat)) : res (list (R * nat)) :=
  match fmax with
  | None => Ok l
  | Some fm =>
      match tl l with
      | [] => Err ValueError
      | l' => if forallb (fun y => Rlt_b fm (fst y)) l' then Err ValueError else Ok (filter (fun y => negb (Rlt_b fm (fst y))) l)
      end
  end.

(** 390-427.  [slices] says whether numpy accepts a float as a slice index and
    truncates it (numpy < 1.12); it raises TypeError since. *)
Definition spectrum (slices : bool) (start stop : R) (np : Z) (freq : option R) (fmin fmax : option R) : res (list (R * nat)) :=
  if negb slices then Err TypeError
  else
    match freq with
    | None =>
        bindr (cut_min fmin (lines (Z.to_nat np) ((stop - start) / IZR np))) (cut_max fmax)
    | Some fr =>
        let nperiods := Z.to_nat (trunc ((stop - start) * fr)) in
        match nperiods with
        | O => Err ZeroDivision
        | _ =>
            let start' := stop - INR nperiods / fr in
            let sampling := 1 / (2 * fr * INR nperiods) in
            let n := Z.to_nat (Int_part ((stop - start') / sampling) + 1) in
            let l := lines n sampling in
            bindr (cut_min fmin (every (List.length l) nperiods l)) (cut_max fmax)
        end
    end.
