(** Model of the axis iterators (ahkab/utilities.py 246-378), of the step/points
    adjustment (551-595) and of the DC sweep (ahkab/dc_analysis.py 461-595).
    Floating point numbers are real numbers. *)
From Coq Require Import Reals String Ascii List Bool Arith ZArith.
From Verif Require Import Base Mna Newton.
Import ListNotations.
Open Scope R_scope.

(** ** Iterators *)
Definition log10 (x : R) : R := ln x / ln 10.

(** ahkab/utilities.py 266-272 and 330-347: the fields of both iterators;
    [points] may be any number: [dc_analysis] passes a float. *)
Record axis := mkAxis { ax_min : R; ax_inc : R; ax_index : nat; ax_cur : R; ax_points : R }.

Definition log_axis (mn mx points : R) : axis :=
  mkAxis mn (Rpower 10 ((log10 mx - log10 mn) / (points - 1))) 0 mn points.

Definition lin_axis (mn mx points : R) : res axis :=
  if Rlt_b points 2 && negb (if Req_EM_T mn mx then true else false) then Err ValueError
  else if Rlt_b points 1 then Err ValueError
  else Ok (mkAxis mn (if Rlt_b 1 points then (mx - mn) / (points - 1) else 0) 0 mn points).

(** ahkab/utilities.py 277-288 and 352-363: [__next__]; [None] is StopIteration. *)
Definition axis_next (f : R -> R -> R) (a : axis) : option (R * axis) :=
  if (ax_index a =? 0)%nat
  then Some (ax_cur a, mkAxis (ax_min a) (ax_inc a) 1 (ax_cur a) (ax_points a))
  else if Rlt_b (INR (ax_index a)) (ax_points a)
  then let c := f (ax_cur a) (ax_inc a) in
       Some (c, mkAxis (ax_min a) (ax_inc a) (S (ax_index a)) c (ax_points a))
  else None.

Definition lin_next := axis_next Rplus.
Definition log_next := axis_next Rmult.

(** ahkab/utilities.py 290-299 and 365-373: [__getitem__]. *)
Definition log_get (a : axis) (i : nat) : option R :=
  if (i =? 0)%nat then Some (ax_min a)
  else if Rlt_b (INR i) (ax_points a) then Some (ax_min a * ax_inc a ^ i) else None.
Definition lin_get (a : axis) (i : nat) : option R :=
  if Rlt_b (INR i) (ax_points a) then Some (ax_min a + ax_inc a * INR i) else None.

(** A [for] loop on an iterator: the values it yields, [None] if the fuel ends
    before the iterator does. *)
Fixpoint collect (next : axis -> option (R * axis)) (fuel : nat) (a : axis) : option (list R) :=
  match fuel with
  | O => None
  | S fuel' =>
      match next a with
      | None => Some []
      | Some (v, a') => match collect next fuel' a' with Some l => Some (v :: l) | None => None end
      end
  end.

(** ** Step and points *)

(** ahkab/utilities.py 575-595; [p % 1] is the fractional part, [int] drops it.
    The period and the given step are positive numbers. [points = 0] counts as
    not given ([if points:]); then a missing step is a TypeError. *)
Definition check_step_and_points (step : option R) (points : option nat) (period : R)
    (default_points : nat) : res (nat * R) :=
  let points' := match step, points with
                 | None, None => Some default_points
                 | Some _, Some _ => None
                 | _, _ => points
                 end in
  match points' with
  | Some (S k as n) =>
      if (n =? 1)%nat then Err ZeroDivision else Ok (n, period / (INR n - 1))
  | _ =>
      match step with
      | None => Err TypeError
      | Some st =>
          let p := period / st in
          if Req_EM_T (frac_part p) 0
          then Ok (S (Z.to_nat (Int_part p)), st)
          else
            let st' := st + st * frac_part p / IZR (Int_part p) in
            Ok (S (Z.to_nat (Int_part (period / st'))), st')
      end
  end.

(** ** DC sweep *)

(** [source_elem.dc_value = v] on the element in position [k]. *)
Definition set_dc (es : list lelem) (k : nat) (v : R) : list lelem :=
  firstn k es ++
  match nth_error es k with
  | Some (EV id n1 n2 _ td) => [EV id n1 n2 v td]
  | Some (EI id n1 n2 _ td) => [EI id n1 n2 v td]
  | Some e => [e]
  | None => []
  end ++ skipn (S k) es.

Definition dc_of (e : lelem) : option R :=
  match e with EV _ _ _ dc _ | EI _ _ _ dc _ => Some dc | _ => None end.

(** ahkab/dc_analysis.py 528-540: the first source of the right type with that
    name; [isv] tells the first letter of the name. *)
Fixpoint find_source (es : list lelem) (isv : bool) (name : string) (k : nat) : option nat :=
  match es with
  | [] => None
  | e :: es' =>
      let hit := match e with EV _ _ _ _ _ => isv | EI _ _ _ _ _ => negb isv | _ => false end in
      if String.eqb (lower (lid e)) (lower name) && hit then Some k
      else find_source es' isv name (S k)
  end.

Section Sweep.
  Context {X : Type}.
  (** [op_analysis] as a function of the circuit and of the starting point. *)
  Variable op : list lelem -> option X -> res (option X).
  Variable skip_allowed : bool.

  (** ahkab/dc_analysis.py 561-584: the loop; the result is the variable
      [solved] (unbound before the first round), the rows, and the circuit. *)
  Fixpoint sweep_loop (vals : list R) (k : nat) (es : list lelem) (x : option X)
    (solved : option bool) (rows : list (R * X)) : res (option bool * list (R * X)) * list lelem :=
    match vals with
    | [] => (Ok (solved, rows), es)
    | v :: vals' =>
        let es' := set_dc es k v in
        match op es' x with
        | Err e => (Err e, es')
        | Ok None =>
            if skip_allowed then sweep_loop vals' k es' None solved rows
            else (Ok (Some false, rows), es')
        | Ok (Some y) => sweep_loop vals' k es' (Some y) (Some true) (rows ++ [(v, y)])
        end
    end.

  (** ahkab/dc_analysis.py 506-595 [dc_analysis] for a linear sweep: the outcome
      and the circuit afterwards.  The check on the name of the source comes
      after the set-up of the iterator. *)
  Definition dc_analysis (es : list lelem) (start stop step : R) (isv : bool) (name : string)
    (x0 : option X) : res (option (list (R * X))) * list lelem :=
    if Rlt_b ((stop - start) * step) 0 then (Err ValueError, es)
    else if Req_EM_T step 0 then (Err ZeroDivision, es)
    else
      let points := (stop - start) / step + 1 in
      match lin_axis start stop points with
      | Err e => (Err e, es)
      | Ok a =>
          match find_source es isv name 0 with
          | None => (Err ValueError, es)
          | Some k =>
              let initial := match nth_error es k with
                             | Some e => match dc_of e with Some v => v | None => 0 end
                             | None => 0 end in
              match collect lin_next (S (S (Z.to_nat (up points)))) a with
              | None => (Err OutOfFuel, es)
              | Some vals =>
                  match sweep_loop vals k es x0 None [] with
                  | (Err e, es') => (Err e, es')
                  | (Ok (None, _), es') => (Err UnboundLocal, es')
                  | (Ok (Some solved, rows), es') =>
                      (Ok (if solved then Some rows else None), set_dc es' k initial)
                  end
              end
          end
      end.
End Sweep.
