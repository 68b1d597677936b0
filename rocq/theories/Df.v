(** Model of the differentiation formulas: ahkab/implicit_euler.py 125-205,
    ahkab/trap.py 98-192, ahkab/gear.py 122-208.
    Floating point numbers are real numbers; a numpy column of unknowns is a
    function from the index. *)
From Coq Require Import Reals List Bool Arith.
From Verif Require Import Base Rsum.
Import ListNotations.
Open Scope R_scope.

(** One row of [pv_array]: time, x, dx/dt (missing for the starting point). *)
Record sample := mkS { s_t : R; s_x : vec; s_dx : option vec }.

(** What [get_df] returns: C1, C0, the error coefficient of the formula, the
    prediction and its error coefficient. *)
Record dfout := mkDf { df_C1 : R; df_C0 : vec; df_lte : R; df_pred : option (vec * R) }.

(** ahkab/implicit_euler.py 180-205. *)
Definition ie_get (pv : list sample) (h : R) (predict : bool) : res dfout :=
  match pv with
  | [] => Err IndexError
  | p0 :: rest =>
      Ok (mkDf (1 / h) (fun i => - (1 / h) * s_x p0 i) (1/2 * h)
            (match predict, rest with
             | true, p1 :: _ =>
                 Some (fun i => (s_x p0 i - s_x p1 i) / (s_t p0 - s_t p1) * h + s_x p0 i,
                       - (1/2) * h * (s_t p0 + h - s_t p1))
             | _, _ => None
             end))
  end.

(** ahkab/trap.py 171-176: the matrix of the prediction; the loop on the rows
    fills [(t_row - t_0) ** col]. *)
Definition trap_A (t0 t1 t2 : R) : mat := fun r c =>
  match c with
  | O => 1
  | _ => match r with O => 0 | 1%nat => (t1 - t0) ^ c | _ => (t2 - t0) ^ c end
  end.

(** ahkab/trap.py 153-192; [inv] is [numpy.linalg.inv]. *)
Definition trap_get (inv : mat -> mat) (pv : list sample) (h : R) (predict : bool) : res dfout :=
  match pv with
  | [] => Err IndexError
  | p0 :: rest =>
      match s_dx p0 with
      | None => Err ValueError
      | Some dx0 =>
          let out p := mkDf (2 / h) (fun i => - 1 * (2 / h * s_x p0 i + dx0 i)) (1 / 12 * h ^ 3) p in
          if predict then
            match rest with
            | [] => Err ValueError
            | [_] => Err IndexError
            | p1 :: p2 :: _ =>
                let z i k := match k with O => s_x p0 i | 1%nat => s_x p1 i | _ => s_x p2 i end in
                let al i k := row 3 (inv (trap_A (s_t p0) (s_t p1) (s_t p2))) k (z i) in
                Ok (out (Some (fun i => al i 2%nat * h ^ 2 + al i 1%nat * h + al i 0%nat,
                               - 1 / 6 * h * (s_t p0 + h - s_t p1) * (s_t p0 + h - s_t p2))))
            end
          else Ok (out None)
      end
  end.

(** Products over an index, for the loops [a = a * f(i)]. *)
Fixpoint rprod (n : nat) (f : nat -> R) : R :=
  match n with O => 1 | S k => rprod k f * f k end.

Section Gear.
  Variable order : nat.
  (** [s.append(h + t(n) - t(n - index + 1))]: the distance of the past points;
      [s i] is the code's [s[i+1]]. *)
  Variable s : nat -> R.

  (** ahkab/gear.py 154-160 *)
  Definition gear_e (k i : nat) : R := if (i =? k)%nat then 1 else s i / (s i - s k).
  (** ahkab/gear.py 162-166 *)
  Definition gear_alpha (k : nat) : R := rprod (S order) (gear_e k).
  (** ahkab/gear.py 169-176: [gear_gamma k] is [gamma[0, k+1]], [gear_g0] is
      [gamma[0, 0]]. *)
  Definition gear_gamma (k : nat) : R := gear_alpha k * (1 / s order - 1 / s k).
  Definition gear_g0 : R := - rsum order gear_gamma.

  (** ahkab/gear.py 186-192 *)
  Definition gear_lte : R :=
    (- 1) ^ (S order) * (1 / INR (fact (S order))) *
    rsum order (fun k => s k ^ S order * (- 1 * gear_gamma k / gear_g0)).
  (** ahkab/gear.py 199-201 *)
  Definition gear_pred_lte : R := - 1 / INR (fact (S order)) * rprod (S order) s.
End Gear.

Definition no_sample : sample := mkS 0 vzero None.

(** ahkab/gear.py 146-208; the points [pv_array[0..order]] are accessed. *)
Definition gear_get (order : nat) (pv : list sample) (h : R) (predict : bool) : res dfout :=
  if (length pv <=? order)%nat then Err IndexError
  else
    let p k := nth k pv no_sample in
    let s k := h + s_t (p 0%nat) - s_t (p k) in
    Ok (mkDf (gear_g0 order s)
          (fun i => rsum order (fun k => gear_gamma order s k * s_x (p k) i))
          (gear_lte order s)
          (if predict
           then Some (fun i => rsum (S order) (fun k => gear_alpha order s k * s_x (p k) i),
                      gear_pred_lte order s)
           else None)).
