(** Model of ahkab/transient.py: the history buffer (563-648), [check_step]
    (430-470) and the time loop of [transient_analysis] (121-428).
    Floating point numbers are real numbers; printing and the debug output are
    left out; the Newton solver [dc_solve] is a parameter. *)
From Coq Require Import Reals List Bool Arith.
From Verif Require Import Base Rsum Newton Df.
Import ListNotations.
Open Scope R_scope.

(** ** The buffer *)

(** ahkab/transient.py 580-610: [dfbuffer(length, width)] and [add]; a row is a
    tuple, newest first. *)
Record dfbuffer (V : Type) := mkBuf { b_length : nat; b_width : nat; b_rows : list (list V) }.
Arguments mkBuf {V}. Arguments b_length {V}. Arguments b_width {V}. Arguments b_rows {V}.

Definition buf_new {V} (len w : nat) : dfbuffer V := mkBuf len w [].

Definition buf_add {V} (b : dfbuffer V) (row : list V) : res (dfbuffer V) :=
  if negb (length row =? b_width b)%nat then Err ValueError
  else let rows := row :: b_rows b in
       Ok (mkBuf (b_length b) (b_width b)
             (if (b_length b <? length rows)%nat then firstn (b_length b) rows else rows)).

(** ahkab/transient.py 628-635 [isready]. *)
Definition buf_ready {V} (b : dfbuffer V) : bool := (length (b_rows b) =? b_length b)%nat.

(** ahkab/transient.py 637-648 [get_as_matrix]: a list of columns; a field of a
    row is a numpy column, here the list of its entries.  The columns are put
    side by side, numpy checks that their heights agree. *)
Fixpoint stack {V} (rows : list (list (list V))) (v : nat) (acc : list V) : list V :=
  match rows with
  | [] => acc
  | r :: rows' => stack rows' v (nth v r [] ++ acc)
  end.
Definition buf_column {V} (rows : list (list (list V))) (v : nat) : res (list V) :=
  match rows with
  | [] => Err UnboundLocal
  | r :: rows' => Ok (stack rows' v (nth v r []))
  end.
Fixpoint columns {V} (rows : list (list (list V))) (vs : list nat) : res (list (list V)) :=
  match vs with
  | [] => Ok []
  | v :: vs' => bindr (buf_column rows v) (fun c => bindr (columns rows vs') (fun cs => Ok (c :: cs)))
  end.
Definition same_heights {V} (cs : list (list V)) : bool :=
  match cs with [] => true | c :: cs' => forallb (fun d => length d =? length c)%nat cs' end.
Definition buf_matrix {V} (b : dfbuffer (list V)) : res (list (list V)) :=
  match b_width b with
  | O => Err UnboundLocal
  | w => bindr (columns (b_rows b) (seq 0 w)) (fun cs => if same_heights cs then Ok cs else Err ValueError)
  end.

(** ** The step *)

(** ahkab/transient.py 462-470; [hmin] is the option. *)
Definition check_step (hmin tstep time tstop hmax : R) : res R :=
  let s := if Rlt_b hmax tstep then hmax else tstep in
  if Rlt_b (tstop - time) s then Ok (tstop - time)
  else if Rlt_b s hmin then Err ValueError
  else Ok s.

(** A differentiation module: [order], [get_required_values()], [get_df].  The
    ones of ahkab have a prediction formula. *)
Record dfm := mkM {
  m_order : nat;
  m_x : option nat; m_dx : option nat; m_px : option nat; m_pdx : option nat;
  m_get : list sample -> R -> bool -> res dfout }.

(** ahkab/implicit_euler.py 48, 111; ahkab/trap.py 36, 84; ahkab/gear.py 119. *)
Definition m_ie : dfm := mkM 1 (Some 0%nat) None (Some 1%nat) None ie_get.
Definition m_trap (inv : mat -> mat) : dfm :=
  mkM 2 (Some 0%nat) (Some 0%nat) (Some 2%nat) None (trap_get inv).
Definition m_gear (k : nat) : dfm := mkM k (Some k) None (Some k) None (gear_get k).

(** ahkab/transient.py 232-247: the length of the buffer.  Without step control
    [max(max_x, max_dx)] compares an int with None, a TypeError in Python 3. *)
Definition omax (m : nat) (o : option nat) : nat := match o with Some k => Nat.max m k | None => m end.
Definition buffer_len (m : dfm) (sc : bool) : res nat :=
  if sc then Ok (S (omax (omax (omax (omax 0 (m_x m)) (m_dx m)) (m_px m)) (m_pdx m)))
  else match m_x m, m_dx m with
       | Some a, Some b => Ok (S (Nat.max a b))
       | _, _ => Err TypeError
       end.

(** ahkab/transient.py 262-269: rounds solved with implicit Euler. *)
Definition first_iterations (m : dfm) : nat :=
  match m_x m, m_dx m with
  | Some a, None => a
  | Some a, Some b => Nat.max a (S b)
  | None, Some b => Nat.max 1 (S b)
  | None, None => 0%nat
  end.
(** ahkab/transient.py 294-301, 314. *)
Definition start_pred (m : dfm) : nat :=
  omax (omax 0 (m_px m)) (match m_pdx m with Some d => Some (S d) | None => None end).

(** The options read by the loop. *)
Record topts := mkTo {
  t_hmin : R; t_maxiter : nat; t_apost : bool; t_thr : R; t_predx0 : bool;
  t_vea : R; t_ver : R; t_ier : R }.

Record tstate := mkT {
  q_time : R; q_step : R; q_x : option vec; q_x0 : vec; q_iter : nat;
  q_buf : list sample; q_rows : list (R * vec) }.

Inductive tnext := TNext (st : tstate) | TStop (r : res (option (list (R * vec)))).

Section Loop.
  Variables (o : topts) (m : dfm) (sc : bool) (blen size nv : nat) (tstop hmax : R).
  (** [dc_solve] of the round: coefficient of D, constant term, time, starting
      point; the solution or None. *)
  Variable solve : nat -> R -> vec -> R -> vec -> res (option vec).

  (** ahkab/transient.py 324-334. *)
  Definition coeffs (st : tstate) : res dfout :=
    let predict := sc && (start_pred m <=? q_iter st)%nat in
    if (q_iter st <? first_iterations m)%nat
    then match q_buf st with
         | [] => Err IndexError
         | p :: _ => ie_get [p] (q_step st) predict
         end
    else m_get m (q_buf st) (q_step st) predict.

  (** ahkab/transient.py 304-310: the tolerances. *)
  Definition rerr (i : nat) : R := if (i <? nv - 1)%nat then t_ver o else t_ier o.

  (** ahkab/transient.py 354-364: the factor on the step; never above 2.
      [Rpower] agrees with [**] on positive bases. *)
  Definition lte_of (lte e : R) (f x1 : vec) (i : nat) : R := Rabs (lte / (e - lte) * (f i - x1 i)).
  Definition step_coeff (x lte : vec) : R :=
    fold_left (fun c i =>
      if Req_EM_T (lte i) 0 then c
      else let v := Rpower ((t_vea o + rerr i * Rabs (x i)) / lte i) (1 / (INR (m_order m) + 1)) in
           if Rlt_b v c then v else c) (seq 0 size) 2.

  Definition q_set_step (st : tstate) (s : R) (x0 : vec) : tstate :=
    mkT (q_time st) s (q_x st) x0 (q_iter st) (q_buf st) (q_rows st).

  (** ahkab/transient.py 409-412. *)
  Definition iter_limit (st : tstate) : tnext :=
    if (0 <? t_maxiter o)%nat && (q_iter st =? t_maxiter o)%nat then TStop (Ok None) else TNext st.

  (** ahkab/transient.py 382-397: a good point is stored; [nstep] is the next
      step, [time + old_step] the new time. *)
  Definition accept (st : tstate) (d : dfout) (x0 x1 : vec) (nstep : R) : tnext :=
    let time := q_time st + q_step st in
    let p := mkS time x1 (Some (fun i => df_C1 d * x1 i + df_C0 d i)) in
    let rows := p :: q_buf st in
    iter_limit (mkT time nstep (Some x1) x0 (S (q_iter st))
      (if (blen <? length rows)%nat then firstn blen rows else rows)
      (q_rows st ++ [(time, x1)])).

  (** ahkab/transient.py 323-412: one round of the loop. *)
  Definition step (round : nat) (st : tstate) : tnext :=
    match coeffs st with
    | Err e => TStop (Err e)
    | Ok d =>
        let x0 := match t_predx0 o && sc, df_pred d, q_x st with
                  | true, Some (f, _), _ => f
                  | _, _, Some x => x
                  | _, _, None => q_x0 st
                  end in
        match solve round (df_C1 d) (df_C0 d) (q_time st + q_step st) x0 with
        | Err e => TStop (Err e)
        | Ok (Some x1) =>
            match sc, df_pred d with
            | true, Some (f, e) =>
                match q_x st with
                | None => TStop (Err AttributeError)
                | Some x =>
                    let c := step_coeff x (lte_of (df_lte d) e f x1) in
                    match check_step (t_hmin o) (q_step st * c) (q_time st) tstop hmax with
                    | Err e => TStop (Err e)
                    | Ok s =>
                        if t_apost o && Rlt_b c (t_thr o) then TNext (q_set_step st s x0)
                        else accept st d x0 x1 s
                    end
                end
            | _, _ => accept st d x0 x1 (q_step st)
            end
        | Ok None =>
            if sc then
              match check_step (t_hmin o) (q_step st / 5) (q_time st) tstop hmax with
              | Err e => TStop (Err e)
              | Ok s => iter_limit (q_set_step st s x0)
              end
            else TStop (Ok None)
        end
    end.

  (** ahkab/transient.py 323: [while time < tstop]. *)
  Fixpoint tloop (fuel round : nat) (st : tstate) : res (option (list (R * vec))) :=
    if Rlt_b (q_time st) tstop then
      match fuel with
      | O => Err OutOfFuel
      | S fuel' =>
          match step round st with
          | TStop r => r
          | TNext st' => tloop fuel' (S round) st'
          end
      end
    else Ok (Some (q_rows st)).
End Loop.

(** The state before the loop: ahkab/transient.py 248-249, 278-292. *)
Definition tstart_state (sc : bool) (tstart tstep tstop : R) (x0 : vec) : tstate :=
  mkT tstart (if sc then Rmin ((tstop - tstart) / 9999) tstep else tstep) None x0 0
    [mkS tstart x0 None] [].

(** ahkab/transient.py 121-428 with the matrices and the starting point given.
    If the loop is never entered the flag [solved] is not defined. *)
Definition transient_analysis (o : topts) (m : dfm) (sc : bool) (size nv : nat)
    (tstart tstep tstop : R) (x0 : vec)
    (solve : nat -> R -> vec -> R -> vec -> res (option vec)) (fuel : nat)
    : res (option (list (R * vec))) :=
  if Rlt_b tstop tstart then Err SystemExit
  else if Rlt_b tstep 0 then Err SystemExit
  else match buffer_len m sc with
       | Err e => Err e
       | Ok blen =>
           if Rlt_b tstart tstop
           then tloop o m sc blen size nv tstop tstep solve fuel 0 (tstart_state sc tstart tstep tstop x0)
           else Err UnboundLocal
       end.
