(** Model of the operating point reports of the transistors and of the switch, with
    the dictionary [opdict] in which they keep values: ahkab/ekv.py 198-308 and
    310-347, ahkab/mosq.py 241-273 and 275-386, ahkab/switch.py 154-223; and of the
    evaluation of the nonlinear elements in ahkab/dc_analysis.py 843-881,
    ahkab/bfpss.py 189-233 and ahkab/shooting.py 315-354. *)
From Coq Require Import Reals List Bool Arith.
From Verif Require Import Base Newton Diode Switch Mosq Ekv.
Import ListNotations.
Open Scope R_scope.

(** * EKV *)

(** What the report shows of a device at a bias. *)
Record erep := mkErep {
  er_Ids : R; er_gmd : R; er_gmg : R; er_gms : R;
  er_if : R; er_ir : R; er_Leff : R; er_VP : R; er_nv : R; er_nq : R; er_beta : R; er_Is : R;
  er_VTH : R; er_VOD : R; er_SAT : bool; er_WMSI : nat; er_qf : R; er_qr : R;
  er_TEF : option R; er_VA : R; er_rob : R }.

Section EkvReport.
  Variables (eps ut esi gmin : R).
  Variable newton : R -> R -> R.

  (** ekv.py 102 [ISMALL_GUESS_MIN] and 575-576, 585-586: the guesses kept in [opdict]. *)
  Definition e_guess (s : R * R) : R * R := (Rmax (fst s) (/ 10 ^ 10), Rmax (snd s) (/ 10 ^ 10)).
  (** ekv.py 547-627: the part of [opdict] that a later call reads, after a call. *)
  Definition e_after (m : emodel) (d : edev) (s : R * R) (b : ebias) : R * R :=
    let '(f, r, _) := e_currents eps ut esi newton m d (fst (e_guess s)) (snd (e_guess s)) b in (f, r).

  (** ekv.py 198-210 [i]. *)
  Definition e_i (m : emodel) (d : edev) (s : R * R) (b : ebias) : R * (R * R) :=
    (e_ids eps ut esi newton m d (fst (e_guess s)) (snd (e_guess s)) b, e_after m d s b).
  (** ekv.py 310-347 [g]: a zero is replaced. *)
  Definition e_g (m : emodel) (d : edev) (s : R * R) (b : ebias) (port : nat) : R * (R * R) :=
    let g1 := fst (e_guess s) in let g2 := snd (e_guess s) in
    (match port with
     | 0%nat => nz (e_gmd eps ut esi newton m d g1 g2 b) (gmin * 2)
     | 1%nat => nz (e_gmg eps ut esi newton m d g1 g2 b) (gmin * 2)
     | _ => nz (e_gms eps ut esi newton m d g1 g2 b) (- (1) * gmin * 2)
     end, e_after m d s b).

  (** ekv.py 612-623. *)
  Definition e_sat (f r : R) : bool := Rlt_b (r * exp 4) f.
  Definition e_wmsi (f r : R) : nat :=
    if Rlt_b 10 (Rmax f r) then 2%nat else if Rlt_b (Rmax f r) (1 / 10) then 0%nat else 1%nat.

  (** ekv.py 212-235 [update_status_dictionary] and 237-308 [get_op_info].  The stored
      state is a tuple (608) and the voltages come in a list, so they are never equal
      and everything is computed again; line 220 compares instead of assigning. *)
  Definition e_report (m : emodel) (d : edev) (s : R * R) (b : ebias) : erep * (R * R) :=
    let '(gmd, s) := e_g m d s b 0 in
    let '(gmg, s) := e_g m d s b 1 in
    let '(gms, s) := e_g m d s b 2 in
    let '(f, r, leff) := e_currents eps ut esi newton m d (fst (e_guess s)) (snd (e_guess s)) b in
    let '(ids, s) := e_i m d s b in
    let '((VD, VG, VS), _) := e_voltages m b in
    let qs := 2 * get_nq m VG * ut * e_COX m in
    (mkErep ids gmd gmg gms f r leff (get_VP m VG) (get_nv m VG) (get_nq m VG) (1/2 * e_KP m * x_W d / leff) (e_Is ut m d VG)
       (e_VTO m) (e_NP m * get_nv m VG * (get_VP m VG - VS)) (e_sat f r) (e_wmsi f r) (i2q f * qs) (i2q r * qs)
       (if Req_b ids 0 then None else Some (Rabs (gms * ut / ids))) (ids / gmd) (1 / gmd), s).

  (** ekv.py 159-160: a new device. *)
  Definition e_new : R * R := (1, 1).
  (** A history of evaluations: [None] is a call of [i], [Some p] one of [g]. *)
  Definition e_event (m : emodel) (d : edev) (s : R * R) (ev : ebias * option nat) : R * R :=
    match snd ev with None => snd (e_i m d s (fst ev)) | Some p => snd (e_g m d s (fst ev) p) end.
  Definition e_history (m : emodel) (d : edev) (evs : list (ebias * option nat)) : R * R :=
    fold_left (e_event m d) evs e_new.
End EkvReport.

(** * The switch *)

(** [opdict] after an update: the voltages, R, I and STATUS. *)
Record wrep := mkWrep { wr_vo : R; wr_vs : R; wr_R : R; wr_I : R; wr_on : bool }.
(** [device.is_on] and [opdict] ([None]: state is the pair of nan, no R). *)
Record wstate := mkWst { ws_on : bool; ws_rep : option wrep }.

Section SwitchReport.
  Variable th : R -> R.
  (** switch.py 154-180 [i] and 225-254 [g]. *)
  Definition w_eval (m : swmodel) (s : wstate) (vin : R) : wstate := mkWst (sw_update th m (ws_on s) vin) (ws_rep s).
  (** switch.py 182-198 [update_status_dictionary] and 200-223 [get_op_info].  The pair of nan is a tuple and never
      equal to the list of voltages. *)
  Definition w_report (m : swmodel) (s : wstate) (vo vs : R) : wrep * wstate :=
    let again :=
      let '(go, on) := sw_go th m (ws_on s) vo vs in
      let '(i, on) := sw_i th m on vo vs in
      let r := mkWrep vo vs (1 / go) i on in (r, mkWst on (Some r)) in
    match ws_rep s with
    | Some r => if Req_b (wr_vo r) vo && Req_b (wr_vs r) vs then (r, s) else again
    | None => again
    end.
  Inductive w_event : Type := WEval (vin : R) | WReport (vo vs : R).
  Definition w_step (m : swmodel) (s : wstate) (e : w_event) : wstate :=
    match e with WEval vin => w_eval m s vin | WReport vo vs => snd (w_report m s vo vs) end.
  (** switch.py 104-118: [ic] is False unless given. *)
  Definition w_run (m : swmodel) (ic : bool) (evs : list w_event) : wstate := fold_left (w_step m) evs (mkWst ic None).
End SwitchReport.

(** * The square-law transistor *)

(** [opdict['state']]: the tuple of nan, a number, or the list of the three voltages. *)
Inductive qstate : Type := SNan | SNum (v : R) | SList (b : bias).
(** The conductances (gmd, gm, gmb) and the rest (Ids, VTH, ON, VOD, SAT). *)
Record qrest := mkQrest { qr_Ids : R; qr_VTH : R; qr_ON : bool; qr_VOD : R; qr_SAT : bool }.
Record qop := mkQop { qo_state : qstate; qo_g : option (R * R * R); qo_rest : option qrest }.

Section MosqReport.
  Variables (iea gmin : R).

  Definition eq3 (b : bias) (v : R) : bool := let '(x, y, z) := b in Req_b x v && Req_b y v && Req_b z v.

  (** mosq.py 378-382, the end of [gstamp]: [(state != vds).any()] with a numpy number
      [vds]. *)
  Definition q_gstamp (m : qmodel) (d : qdev) (o : qop) (b : bias) : qop :=
    let vds := fst (fst b) in
    let differs := match qo_state o with SNan => true | SNum v => negb (Req_b v vds) | SList b' => negb (eq3 b' vds) end in
    let o := if differs then mkQop (SNum vds) None None else o in
    let g := gstamp iea gmin m d b in
    mkQop (qo_state o) (Some (g 0%nat 0%nat, g 0%nat 1%nat, g 0%nat 3%nat)) (qo_rest o).

  (** mosq.py 241-273 [update_status_dictionary].  [(state == voltages).all()]: the
      comparison of a tuple or a list with a list is a bool, which has no [all]. *)
  Definition q_update (m : qmodel) (d : qdev) (o : qop) (b : bias) : res qop :=
    bindr (match qo_state o with SNan | SList _ => Err AttributeError | SNum v => Ok (eq3 b v) end) (fun same =>
    match same, qo_g o, qo_rest o with
    | true, Some _, Some _ => Ok o
    | _, _, _ =>
        let o := q_gstamp m d (mkQop (SList b) (qo_g o) (qo_rest o)) b in
        bindr (ids_call iea m d (fst (get_voltages m b))) (fun _ =>
        Ok (mkQop (qo_state o) (qo_g o)
              (Some (mkQrest (terminal_i iea m d b) (op_VTH m d b) (op_ON m d b) (op_VOD m d b) (op_SAT m d b)))))
    end).
  (** mosq.py 275-339 [get_op_info]: the conductances and the rest. *)
  Definition q_report (m : qmodel) (d : qdev) (o : qop) (b : bias) : res (R * R * R * qrest * qop) :=
    bindr (q_update m d o b) (fun o =>
    match qo_g o, qo_rest o with
    | Some g, Some r => Ok (g, r, o)
    | _, _ => Err KeyError
    end).

  (** mosq.py 124-126: a new device; and a history of calls of [gstamp] and reports,
      which ends at the first exception. *)
  Definition q_new : qop := mkQop SNan None None.
  Inductive q_event : Type := QStamp (b : bias) | QReport (b : bias).
  Definition q_step (m : qmodel) (d : qdev) (o : qop) (e : q_event) : res qop :=
    match e with QStamp b => Ok (q_gstamp m d o b) | QReport b => bindr (q_report m d o b) (fun p => Ok (snd p)) end.
  Fixpoint q_run (m : qmodel) (d : qdev) (o : qop) (evs : list q_event) : res qop :=
    match evs with [] => Ok o | e :: evs' => bindr (q_step m d o e) (fun o => q_run m d o evs') end.
End MosqReport.

(** * Evaluation of the nonlinear elements *)

Inductive devclass : Type := Diode_ | Tunnel_ | Mosq_ | Ekv_ | Switch_.
(** The methods of the classes: diode.py 135-205, TunnelJunction.py 60-148, mosq.py 219
    and 341, ekv.py 198 and 310, switch.py 154 and 225. *)
Definition has_stamps (c : devclass) : bool := match c with Diode_ | Tunnel_ | Mosq_ => true | Ekv_ | Switch_ => false end.
Definition has_ig (c : devclass) : bool := match c with Mosq_ => false | _ => true end.

Record nldev := mkNl { nl_class : devclass; nl_n1 : nat; nl_n2 : nat }.

Section Eval.
  Variable A : Type.
  (** The effect of the methods on the Jacobian and the vector; they may raise. *)
  Variable by_stamp by_ig : nldev -> A -> res A.

  (** dc_analysis.py 843-881 [_update_J_and_Tx]. *)
  Definition dc_elem (e : nldev) (a : A) : res A :=
    if has_stamps (nl_class e) then by_stamp e a
    else if has_ig (nl_class e) then by_ig e a else Err AttributeError.
  (** bfpss.py 206-233, shooting.py 331-354: only [i] and [g], when the output port is
      not grounded at both ends. *)
  Definition pss_elem (e : nldev) (a : A) : res A :=
    if (nl_n1 e =? 0)%nat && (nl_n2 e =? 0)%nat then Ok a
    else if has_ig (nl_class e) then by_ig e a else Err AttributeError.
  Fixpoint eval_all (f : nldev -> A -> res A) (es : list nldev) (a : A) : res A :=
    match es with [] => Ok a | e :: es' => bindr (f e a) (fun a => eval_all f es' a) end.
End Eval.
