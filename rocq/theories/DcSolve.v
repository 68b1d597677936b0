(** Model of the DC solver driver: ahkab/dc_analysis.py 128-320 [dc_solve],
    354-408 [set_next_solve_method], 411-430 [more_solve_methods_available],
    433-458 [get_solve_methods], 598-687 [op_analysis].  The Newton solver is an
    argument.  Printing is dropped. *)
From Coq Require Import String Ascii List Bool Arith.
From Verif Require Import Base.
Import ListNotations.

(** The options read by the driver (ahkab/options.py): which methods may be
    used, and the length of the list of gmin exponents, that is
    [-int(log(options.gmin))] (27 for the default 1e-12). *)
Record dopts := mkDopts { o_std : bool; o_gmin : bool; o_src : bool; o_ng : nat }.

(** ahkab/dc_analysis.py 449-457: the three status dictionaries. *)
Record meths := mkMeths {
  std_en : bool; std_failed : bool;
  g_en : bool; g_failed : bool; g_idx : nat;
  s_en : bool; s_failed : bool; s_idx : nat }.

Definition get_solve_methods : meths := mkMeths false false false false 0 false false 0.

(** ahkab/dc_analysis.py 385-408. *)
Definition disable_current (m : meths) : meths :=
  if std_en m then
    mkMeths false true (g_en m) (g_failed m) (g_idx m) (s_en m) (s_failed m) (s_idx m)
  else if g_en m then
    mkMeths (std_en m) (std_failed m) false true (g_idx m) (s_en m) (s_failed m) (s_idx m)
  else if s_en m then
    mkMeths (std_en m) (std_failed m) (g_en m) (g_failed m) (g_idx m) false true (s_idx m)
  else m.

Definition enable_next (o : dopts) (m : meths) : meths :=
  if negb (std_failed m) && o_std o then
    mkMeths true (std_failed m) (g_en m) (g_failed m) (g_idx m) (s_en m) (s_failed m) (s_idx m)
  else if negb (g_failed m) && o_gmin o then
    mkMeths (std_en m) (std_failed m) true (g_failed m) (g_idx m) (s_en m) (s_failed m) (s_idx m)
  else if negb (s_failed m) && o_src o then
    mkMeths (std_en m) (std_failed m) (g_en m) (g_failed m) (g_idx m) true (s_failed m) (s_idx m)
  else m.

Definition set_next_solve_method (o : dopts) (m : meths) : meths :=
  enable_next o (disable_current m).

(** ahkab/dc_analysis.py 425-430.  The method in use has not been marked as
    failed yet when this is called. *)
Definition more_solve_methods_available (o : dopts) (m : meths) : bool :=
  negb ((std_failed m || negb (o_std o)) &&
        (g_failed m || negb (o_gmin o)) &&
        (s_failed m || negb (o_src o))).

(** What a Newton call is asked to solve: the requested system, the system with
    gmin set to 10**factors[k], the system with the sources scaled. *)
Inductive req := RStd | RGmin (k : nat) | RSrc (k : nat).

(** Outcome of a Newton call: it returns (x, error, converged, iterations), or
    raises LinAlgError/OverflowError (caught), or raises anything else. *)
Inductive nout (X : Type) :=
| NRet (x err : X) (conv : bool) (iters : nat)
| NCaught
| NOther (e : exn).
Arguments NRet {X} x err conv iters.
Arguments NCaught {X}.
Arguments NOther {X} e.

(** One entry of the call log: the request, and whether the call converged. *)
Definition call := (req * bool)%type.

Inductive dres (X : Type) :=
| DRet (x err : option X) (conv : bool) (tot : nat) (calls : list call)
| DErr (e : exn) (calls : list call).
Arguments DRet {X} x err conv tot calls.
Arguments DErr {X} e calls.

(** ahkab/dc_analysis.py 259-279: what the current status asks for.  With no
    method enabled, the variables [mna_to_pass] and [N_to_pass] still hold the
    values of the preceding round, if there was one. *)
Definition current_req (o : dopts) (m : meths) (stale : option req) : res req :=
  if std_en m then Ok RStd
  else if g_en m then (if g_idx m <? o_ng o then Ok (RGmin (g_idx m)) else Err IndexError)
  else if s_en m then (if s_idx m <? 10 then Ok (RSrc (s_idx m)) else Err IndexError)
  else match stale with Some r => Ok r | None => Err UnboundLocal end.

(** ahkab/dc_analysis.py 310-319: a converged round moves to the next gmin or
    source step; [None] means done. *)
Definition advance (m : meths) : option meths :=
  if s_en m && negb (s_idx m =? 9) then
    Some (mkMeths (std_en m) (std_failed m) (g_en m) (g_failed m) (g_idx m) (s_en m) (s_failed m) (S (s_idx m)))
  else if g_en m && negb (g_idx m =? 9) then
    Some (mkMeths (std_en m) (std_failed m) (g_en m) (g_failed m) (S (g_idx m)) (s_en m) (s_failed m) (s_idx m))
  else None.

Section Driver.
  Context {X : Type}.
  Variable o : dopts.
  (** [newton i r x]: the outcome of the [i]-th call, on request [r], from [x]. *)
  Variable newton : nat -> req -> X -> nout X.

  (** ahkab/dc_analysis.py 258-320, the while loop; [log] is in call order. *)
  Fixpoint dc_loop (fuel : nat) (m : meths) (stale : option req) (x : X) (tot : nat)
    (log : list call) : dres X :=
    match fuel with
    | O => DErr OutOfFuel log
    | S fuel' =>
        match current_req o m stale with
        | Err e => DErr e log
        | Ok r =>
            let failed x' tot' :=
              let log' := log ++ [(r, false)] in
              if more_solve_methods_available o m
              then dc_loop fuel' (set_next_solve_method o m) (Some r) x' tot' log'
              else DRet None None false tot' log' in
            match newton (length log) r x with
            | NOther e => DErr e (log ++ [(r, false)])
            | NCaught => failed x tot
            | NRet x' err false it => failed x' (tot + it)
            | NRet x' err true it =>
                let log' := log ++ [(r, true)] in
                match advance m with
                | Some m' => dc_loop fuel' m' (Some r) x' (tot + it) log'
                | None => DRet (Some x') (Some err) true (tot + it) log'
                end
            end
        end
    end.

  (** ahkab/dc_analysis.py 206-320 [dc_solve], the driver part. *)
  Definition dc_solve (fuel : nat) (x0 : X) : dres X :=
    dc_loop fuel (set_next_solve_method o get_solve_methods) None x0 0 [].
End Driver.

(** ahkab/dc_analysis.py 598-687 [op_analysis], the decision part: [solve1]
    and [solve2] stand for the call of [dc_solve] with the gmin matrix and the
    one without, started from the solution of the first.  The boolean says
    whether the solution returned is the one without gmin. *)
Definition op_decide {X : Type} (solve1 : dres X) (solve2 : X -> dres X) : res (option (X * bool)) :=
  match solve1 with
  | DErr e _ => Err e
  | DRet (Some x1) _ true _ _ =>
      match solve2 x1 with
      | DErr e _ => Err e
      | DRet (Some x2) _ true _ _ => Ok (Some (x2, true))
      | DRet _ _ _ _ _ => Ok (Some (x1, false))
      end
  | DRet _ _ _ _ _ => Ok None
  end.
