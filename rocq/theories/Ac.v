(** Model of the AC analysis: ahkab/ac.py 146-298 [ac_analysis], 380-413
    [_generate_Nac], 417-443 [_generate_J].  Complex vectors and matrices are pairs of
    real ones (real and imaginary part).  The complex linear solver and the operating
    point analysis are arguments; [_generate_AC] is in Mna.v, the driver [dc_solve] in
    DcSolve.v.  The matrices are always built, never supplied by the caller; a
    linearization point supplied by the caller has as many components as the circuit
    has unknowns. *)
From Coq Require Import Reals String Ascii List Bool Arith.
From Verif Require Import Base Rsum Mna DcSolve Newton Sweep.
Import ListNotations.
Open Scope R_scope.

Definition cvec : Type := (vec * vec)%type.
Definition cmat : Type := (mat * mat)%type.

(** [M.dot(x)]. *)
Definition crow_re (size : nat) (M : cmat) (i : nat) (x : cvec) : R := row size (fst M) i (fst x) - row size (snd M) i (snd x).
Definition crow_im (size : nat) (M : cmat) (i : nat) (x : cvec) : R := row size (fst M) i (snd x) + row size (snd M) i (fst x).

(** The AC values of the sources (ahkab/components/sources.py): [abs_ac] and [arg_ac],
    [None] if there is none. *)
Definition phasors := lelem -> option (R * R).
Definition re_of (p : option (R * R)) : option R := match p with Some (a, t) => Some (a * cos t) | None => None end.
Definition im_of (p : option (R * R)) : option R := match p with Some (a, t) => Some (a * sin t) | None => None end.

(** ahkab/ac.py 396-402: the current sources; one part (real or imaginary) of the vector. *)
Definition nac_i (ph : lelem -> option R) (v : vec) (e : lelem) : vec :=
  match e, ph e with
  | EI _ n1 n2 _ _, Some a => let v1 := vset v n1 (v n1 + a) in vset v1 n2 (v1 n2 - a)
  | _, _ => v
  end.
(** ahkab/ac.py 406-412: the voltage sources; a row for each voltage-defined element. *)
Fixpoint nac_v (nv : nat) (ph : lelem -> option R) (es : list lelem) (k : nat) (v : vec) : vec :=
  match es with
  | [] => v
  | e :: es' =>
      let v' := match e, ph e with EV _ _ _ _ _, Some a => vset v (nv + k) (-1 * a) | _, _ => v end in
      nac_v nv ph es' (if is_vde e then S k else k) v'
  end.
Definition nac_part (nv : nat) (ph : lelem -> option R) (es : list lelem) : vec :=
  nac_v nv ph es 0 (fold_left (nac_i ph) es vzero).
Definition generate_Nac (nv : nat) (ph : phasors) (es : list lelem) : cvec :=
  (nac_part nv (fun e => re_of (ph e)) es, nac_part nv (fun e => im_of (ph e)) es).

(** ahkab/ac.py 436-443 [_generate_J]. *)
Definition generate_J (ports : list nlport) (xop : vec) : mat := fst (J_and_T ports xop).

(** ahkab/ac.py 200-211: the frequencies (times 2 pi); the axis iterators are in Sweep.v.  [sweep_type] may be None. *)
Definition omegas (fuel : nat) (start stop points : R) (stype : option string) : res (list R) :=
  if Req_EM_T start 0 then Err ValueError
  else if Rlt_b stop start then Err ValueError
  else if Rlt_b points 2 && negb (if Req_EM_T start stop then true else false) then Err ValueError
  else match stype with
       | None => Err AttributeError
       | Some s =>
           if String.eqb (upper s) "LOG" then
             match collect log_next fuel (log_axis (2 * PI * start) (2 * PI * stop) points) with Some l => Ok l | None => Err OutOfFuel end
           else if String.eqb (upper s) "LIN" then
             bindr (lin_axis (2 * PI * start) (2 * PI * stop) points) (fun a =>
             match collect lin_next fuel a with Some l => Ok l | None => Err OutOfFuel end)
           else Err ValueError
       end.

Section Ac.
  Variables (o : dopts) (damp_first : bool) (maxit fuel : nat).
  (** [np.linalg.solve] on complex arrays; [None] is LinAlgError. *)
  Variable csolve : cmat -> cvec -> option cvec.

  (** ahkab/dc_analysis.py 690-840 [mdn_solver] on the empty "dummy circuit": linear,
      no locked nodes. *)
  Definition mdn_ac (size : nat) (M : cmat) (T : cvec) (x : cvec) : nout cvec :=
    match maxit with
    | O => NOther UnboundLocal
    | S _ =>
        let r : cvec := (fun i => crow_re size M i x + fst T i, fun i => crow_im size M i x + snd T i) in
        match csolve M (fun i => - fst r i, fun i => - snd r i) with
        | None => NCaught
        | Some dx =>
            let td := td_first (mkTd damp_first false 0) (Some 1%nat) in
            NRet (fun i => fst x i + td * fst dx i, fun i => snd x i + td * snd dx i) r true 1
        end
    end.

  (** ahkab/dc_analysis.py 259-279 with the dummy circuit: it has no nodes, so that the
      gmin of the gmin stepping goes nowhere. *)
  Definition ac_sys (mna AC J Gmin : mat) (w : R) (r : req) : cmat :=
    (fun i j => match r with RGmin _ => mna i j + J i j | _ => mna i j + J i j + Gmin i j end, fun i j => w * AC i j).
  Definition ac_rhs (Nac : cvec) (r : req) : cvec :=
    match r with RSrc k => (fun i => source_factor k * fst Nac i, fun i => source_factor k * snd Nac i) | _ => Nac end.

  (** ahkab/ac.py 268-290: the loop on the frequencies.  A point that is not solved ends it. *)
  Fixpoint ac_points (size : nat) (mna AC J Gmin : mat) (Nac : cvec) (ws : list R) (x : cvec) (rows : list (R * cvec)) : res (option (list (R * cvec))) :=
    match ws with
    | [] => Ok (Some rows)
    | w :: ws' =>
        match dc_solve o (fun _ r y => mdn_ac size (ac_sys mna AC J Gmin w r) (ac_rhs Nac r) y) fuel x with
        | DErr e _ => Err e
        | DRet (Some x') _ true _ _ => ac_points size mna AC J Gmin Nac ws' x' (rows ++ [(w / PI / 2, x')])
        | DRet _ _ _ _ _ => Ok None
        end
    end.

  (** ahkab/ac.py 196-298; [op] is the operating point analysis. *)
  Definition ac_analysis (cmin gmin : R) (nv : nat) (es : list lelem) (ports : list nlport) (ph : phasors) (op : res (option vec))
      (start stop points : R) (stype : option string) (x0 : option vec) : res (option (list (R * cvec))) :=
    bindr (omegas fuel start stop points stype) (fun ws =>
    bindr (generate_mna_and_N nv es) (fun mn =>
    bindr (generate_AC cmin nv es) (fun AC =>
    let Nac := generate_Nac nv ph es in
    let run J x :=
      match ws with
      | [] => Err UnboundLocal
      | _ => ac_points (nv + n_vde es - 1) (reduce_mat (fst mn)) (reduce_mat AC) J (build_gmin_matrix nv gmin) (reduce_vec (fst Nac), reduce_vec (snd Nac)) ws (x, vzero) []
      end in
    match ports, x0 with
    | [], None => run mzero vzero
    | [], Some x => run mzero x
    | _, Some x => run (generate_J ports x) x
    | _, None => bindr op (fun r => match r with None => Err RuntimeError | Some x => run (generate_J ports x) x end)
    end))).
End Ac.
