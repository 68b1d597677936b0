(** Model of the Newton solver and of what surrounds it:
    ahkab/dc_analysis.py 206-238 (time-dependent part of the constant term),
    690-840 [mdn_solver], 843-881 [_update_J_and_Tx], 884-946 [get_td];
    ahkab/utilities.py 392-548 (convergence checks).
    Floating point numbers are real numbers; the sparse and the dense code paths
    are the same path. *)
From Coq Require Import Reals String Ascii List Bool Arith.
From Verif Require Import Base Rsum Mna DcSolve.
Import ListNotations.
Open Scope R_scope.

(** ** Time-dependent sources *)

(** ahkab/dc_analysis.py 221-236: the vector [Tt]; [k] is [v_eq], [tv e] the
    value of the source [e] at the current time. *)
Fixpoint tt_loop (nv : nat) (tv : lelem -> R) (es : list lelem) (k : nat) (v : vec) : vec :=
  match es with
  | [] => v
  | e :: es' =>
      let v' :=
        match e with
        | EV _ _ _ _ true => vset v (nv - 1 + k) (-1 * tv e)
        | EI _ n1 n2 _ true =>
            let v1 := if (n1 =? 0)%nat then v else vset v (n1 - 1) (v (n1 - 1)%nat + tv e) in
            if (n2 =? 0)%nat then v1 else vset v1 (n2 - 1) (v1 (n2 - 1)%nat - tv e)
        | _ => v
        end in
      tt_loop nv tv es' (if is_vde e then S k else k) v'
  end.

Definition time_term (nv : nat) (tv : lelem -> R) (es : list lelem) : vec :=
  tt_loop nv tv es 0 vzero.

(** ** Damping *)

(** The options read by [get_td]: [d_first] is [nr_damp_first_iters], [d_lock]
    is [nl_voltages_lock], [d_max] is [nl_voltages_lock_factor * Vth()]. *)
Record tdopts := mkTd { d_first : bool; d_lock : bool; d_max : R }.

Definition Rlt_b (a b : R) : bool := if Rlt_dec a b then true else false.
Definition Rle_b (a b : R) : bool := if Rle_dec a b then true else false.

(** [dx[n - 1, 0]]: with [n = 0] this is the last component, [size] being the
    number of components. *)
Definition dx_at (size : nat) (dx : vec) (n : nat) : R :=
  match n with O => dx (size - 1)%nat | S k => dx k end.

(** ahkab/dc_analysis.py 932-944: what the locked port [(n1, n2)] is compared
    with. *)
Definition port_move (size : nat) (dx : vec) (p : nat * nat) : R :=
  let '(n1, n2) := p in
  if (n1 =? 0)%nat then Rabs (dx_at size dx n2)
  else if (n2 =? 0)%nat then Rabs (dx_at size dx n1)
  else Rabs (dx_at size dx n1 - dx_at size dx n2).

(** ahkab/dc_analysis.py 930-946, the loop on the locked ports; [td_new] lives
    across the rounds. *)
Fixpoint td_loop (o : tdopts) (size : nat) (dx : vec) (ports : list (nat * nat)) (td td_new : R) : R :=
  match ports with
  | [] => td
  | p :: ports' =>
      let td_new' := if Rlt_b (d_max o) (port_move size dx p)
                     then d_max o / port_move size dx p else td_new in
      td_loop o size dx ports' (if Rlt_b td_new' td then td_new' else td) td_new'
  end.

(** ahkab/dc_analysis.py 920-929: the damping of the first iterations; [n] is
    the iteration counter, [None] a negative value. *)
Definition td_first (o : tdopts) (n : option nat) : R :=
  match n with
  | None => 1
  | Some k =>
      if negb (d_first o) then 1
      else if (k <? 10)%nat then 1/100 else if (k <? 20)%nat then 1/10 else 1
  end.

Definition get_td (o : tdopts) (size : nat) (dx : vec) (ports : list (nat * nat)) (n : option nat) : R :=
  if d_lock o then td_loop o size dx ports (td_first o n) 1 else td_first o n.

(** ** Convergence checks *)

(** [np.allclose(a, b, rtol, atol)] on vectors with [n] components. *)
Fixpoint allclose (n : nat) (a b : vec) (rtol atol : R) : bool :=
  match n with
  | O => true
  | S k => allclose k a b rtol atol && Rle_b (Rabs (a k - b k)) (atol + rtol * Rabs (b k))
  end.

(** ahkab/utilities.py 522-548 [custom_convergence_check] with [debug] false:
    [convergence_check] never passes its own [debug] on. *)
Definition custom_check (n : nat) (x dx residuum : vec) (er ea eresiduum : R) : bool :=
  if (n =? 0)%nat then true
  else allclose n x (fun i => x i + dx i) er ea && allclose n residuum vzero 0 eresiduum.

(** The tolerances (ahkab/options.py). *)
Record tols := mkTols { t_vea : R; t_ver : R; t_iea : R; t_ier : R }.

Definition voltage_check (t : tols) (n : nat) (x dx r : vec) : bool :=
  custom_check n x dx r (t_ver t) (t_vea t) (t_iea t).
Definition current_check (t : tols) (n : nat) (x dx r : vec) : bool :=
  custom_check n x dx r (t_ier t) (t_iea t) (t_vea t).

(** [x[k:]] of a vector. *)
Definition vdrop (k : nat) (v : vec) : vec := fun i => v (k + i)%nat.

(** ahkab/utilities.py 392-429 [convergence_check]: the vectors have [size]
    components, the first [k] of which are voltages. *)
Definition convergence_check (t : tols) (size : nat) (x dx r : vec) (k : nat) : bool :=
  voltage_check t (Nat.min k size) x dx r &&
  current_check t (size - k) (vdrop k x) (vdrop k dx) (vdrop k r).

(** ** Nonlinear elements *)

(** The interface of a nonlinear element without [gstamp]/[istamp]: output
    ports, and for every output port its drive ports, its current and its
    derivatives with respect to the drive voltages (at the current time). *)
Record nlport := mkPort {
  np_out : nat * nat;
  np_drive : list (nat * nat);
  np_i : list R -> R;
  np_g : list R -> nat -> R }.

(** ahkab/dc_analysis.py 851-858: the voltage of a drive port. *)
Definition drive_v (x : vec) (p : nat * nat) : R :=
  (if (fst p =? 0)%nat then 0 else x (fst p - 1)%nat)
  - (if (snd p =? 0)%nat then 0 else x (snd p - 1)%nat).

(** ahkab/dc_analysis.py 866-869. *)
Definition upd_T (p : nlport) (x : vec) (t : vec) : vec :=
  let '(n1, n2) := np_out p in
  let iel := np_i p (map (drive_v x) (np_drive p)) in
  let t1 := if (n1 =? 0)%nat then t else vset t (n1 - 1) (t (n1 - 1)%nat + iel) in
  if (n2 =? 0)%nat then t1 else vset t1 (n2 - 1) (t1 (n2 - 1)%nat - iel).

(** ahkab/dc_analysis.py 870-881; [k] is [iindex]. *)
Fixpoint upd_J (n1 n2 : nat) (g : nat -> R) (dports : list (nat * nat)) (k : nat) (j : mat) : mat :=
  match dports with
  | [] => j
  | (p0, p1) :: ds =>
      let j1 := if (n1 =? 0)%nat then j else
                let ja := if (p0 =? 0)%nat then j else madd j (n1 - 1) (p0 - 1) (g k) in
                if (p1 =? 0)%nat then ja else madd ja (n1 - 1) (p1 - 1) (- g k) in
      let j2 := if (n2 =? 0)%nat then j1 else
                let jb := if (p0 =? 0)%nat then j1 else madd j1 (n2 - 1) (p0 - 1) (- g k) in
                if (p1 =? 0)%nat then jb else madd jb (n2 - 1) (p1 - 1) (g k) in
      upd_J n1 n2 g ds (S k) j2
  end.

(** ahkab/dc_analysis.py 843-881 [_update_J_and_Tx] on one port, and 801-806:
    the loop on all the ports of all the nonlinear elements, from zero. *)
Definition upd_port (x : vec) (st : mat * vec) (p : nlport) : mat * vec :=
  (upd_J (fst (np_out p)) (snd (np_out p)) (np_g p (map (drive_v x) (np_drive p))) (np_drive p) 0 (fst st),
   upd_T p x (snd st)).

Definition J_and_T (ports : list nlport) (x : vec) : mat * vec :=
  fold_left (upd_port x) ports (mzero, vzero).

(** ** The Newton loop *)

(** [np.linalg.solve(A, b)]; [None] is LinAlgError. *)
Section Newton.
  Variable size : nat.
  Variable solve : mat -> vec -> option vec.
  Variable nonlinear : bool.
  Variable JT : vec -> mat * vec.
  Variable td : vec -> nat -> R.
  Variable check : vec -> vec -> vec -> bool.

  (** ahkab/dc_analysis.py 807: [mna.dot(x) + T + nonlinear_circuit*Tx]. *)
  Definition residual (mna : mat) (T : vec) (x : vec) : vec := fun i =>
    row size mna i x + T i + (if nonlinear then snd (JT x) i else 0).

  (** ahkab/dc_analysis.py 810-813: the matrix of the linear system. *)
  Definition jac (mna : mat) (x : vec) : mat := fun i j =>
    mna i j + (if nonlinear then fst (JT x) i j else 0).

  (** ahkab/dc_analysis.py 795-826; [left = MAXIT - iteration]; [last] is the
      residual of the last round, unbound before the first one. *)
  Fixpoint newton_loop (left iteration : nat) (mna : mat) (T : vec) (x : vec) (last : option vec)
    : nout vec :=
    match left with
    | O => match last with
           | None => NOther UnboundLocal
           | Some r => NRet x r false iteration
           end
    | S left' =>
        let it := S iteration in
        let r := residual mna T x in
        match solve (jac mna x) (fun i => - r i) with
        | None => NCaught
        | Some dx =>
            let x' := fun i => x i + td dx it * dx i in
            if negb nonlinear then NRet x' r true it
            else if check x' dx r then NRet x' r true it
            else newton_loop left' it mna T x' (Some r)
        end
    end.

  (** ahkab/dc_analysis.py 690-840 [mdn_solver]; [len] is the length of the
      starting point, [None] no starting point. *)
  Definition mdn_solver (maxit : nat) (mna : mat) (T : vec) (x0 : option (nat * vec)) : nout vec :=
    match x0 with
    | None => newton_loop maxit 0 mna T vzero None
    | Some (len, x) =>
        if (len =? size)%nat then newton_loop maxit 0 mna T x None else NOther ValueError
    end.
End Newton.

(** ** The systems asked for by the driver *)

(** ahkab/dc_analysis.py 455-456. *)
Definition source_factor (k : nat) : R :=
  nth k [1/1000; 5/1000; 1/100; 3/100; 1/10; 3/10; 5/10; 7/10; 8/10; 9/10] 0.

(** ahkab/dc_analysis.py 452-453: the exponents are -1, -2, ... *)
Definition gmin_step (k : nat) : R := / (10 ^ (S k)).

(** ahkab/dc_analysis.py 259-279. *)
Definition sys_mat (nv : nat) (mna Gmin : mat) (r : req) : mat := fun i j =>
  match r with
  | RStd | RSrc _ => mna i j + Gmin i j
  | RGmin k => build_gmin_matrix nv (gmin_step k) i j + mna i j
  end.

Definition sys_vec (Ndc Ntran : vec) (r : req) : vec := fun i =>
  match r with
  | RStd | RGmin _ => Ndc i + Ntran i
  | RSrc k => source_factor k * Ndc i + Ntran i
  end.

(** ahkab/dc_analysis.py 128-320 [dc_solve], with the matrices; [newt i A b x]
    is the [i]-th Newton call. *)
Definition dc_solve_sys (o : dopts) (newt : nat -> mat -> vec -> vec -> nout vec)
    (nv : nat) (mna Gmin : mat) (Ndc Ntran : vec) (fuel : nat) (x0 : vec) : dres vec :=
  dc_solve o (fun i r x => newt i (sys_mat nv mna Gmin r) (sys_vec Ndc Ntran r) x) fuel x0.

(** ahkab/dc_analysis.py 598-687 [op_analysis] from the element list to the
    decision on which solution to return.  [x0] is the starting point (from the
    guess or supplied), [tv] gives the DC value of the time-dependent sources,
    [gmin] is options.gmin. *)
Definition op_analysis (o : dopts) (newt : nat -> mat -> vec -> vec -> nout vec)
    (gmin : R) (tv : lelem -> R) (nv : nat) (es : list lelem) (fuel : nat) (x0 : vec)
    : res (option (vec * bool)) :=
  bindr (generate_mna_and_N nv es) (fun mn =>
    let mna := reduce_mat (fst mn) in
    let Ndc := fun i => reduce_vec (snd mn) i + time_term nv tv es i in
    op_decide
      (dc_solve_sys o newt nv mna (build_gmin_matrix nv gmin) Ndc vzero fuel x0)
      (fun x1 => dc_solve_sys o newt nv mna mzero Ndc vzero fuel x1)).
