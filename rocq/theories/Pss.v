(** Model of the periodic steady state analyses: ahkab/shooting.py 40-380 and
    ahkab/bfpss.py 43-405.  Real arithmetic; [None] is LinAlgError.  Not modelled: the
    transient analysis that gives the shooting method its first samples (they are
    arbitrary here), printing, and the check of the matrices passed by the caller. *)
From Coq Require Import Reals List Bool Arith.
From Verif Require Import Base Rsum Mna Newton Sweep.
Import ListNotations.
Open Scope R_scope.

Definition vplus (a b : vec) : vec := fun i => a i + b i.
Definition vneg (a : vec) : vec := fun i => - a i.
Definition vscale (c : R) (a : vec) : vec := fun i => c * a i.
Definition mplus (a b : mat) : mat := fun i j => a i j + b i j.
Definition mneg (a : mat) : mat := fun i j => - a i j.
Definition mscale (c : R) (a : mat) : mat := fun i j => c * a i j.
Definition eye : mat := dlt.
(** [np.dot] of matrices and of a matrix and a vector, of size [n]. *)
Definition mmul (n : nat) (a b : mat) : mat := fun i j => rsum n (fun k => a i k * b k j).
Definition mvec (n : nat) (a : mat) (x : vec) : vec := fun i => row n a i x.

(** ahkab/implicit_euler.py 55-80. *)
Definition C1 (step : R) : R := 1 / step.
Definition C0 (step : R) : R := -1 / step.

Section Shooting.
  Variable n : nat.
  (** [np.linalg.solve] with a vector and with a matrix, [np.linalg.inv]. *)
  Variable solve : mat -> vec -> option vec.
  Variable msolve : mat -> mat -> option mat.
  Variable inv : mat -> option mat.

  (** ahkab/shooting.py 361-363; the list holds [MAass_vector] and [Tass_vector]. *)
  Fixpoint chain1 (MB : mat) (l : list (mat * vec)) (m : mat) : option mat :=
    match l with
    | [] => Some m
    | (A, _) :: l' => match msolve A (mmul n MB m) with None => None | Some y => chain1 MB l' (mneg y) end
    end.
  (** 367-368. *)
  Fixpoint chain3 (MB : mat) (l : list (mat * vec)) (v : vec) : option vec :=
    match l with
    | [] => Some v
    | (A, _) :: l' => match solve A (mvec n MB v) with None => None | Some y => chain3 MB l' (vneg y) end
    end.
  (** 364-369. *)
  Fixpoint sum2 (MB : mat) (l : list (mat * vec)) (acc : vec) : option vec :=
    match l with
    | [] => Some acc
    | (A, T) :: l' =>
        match solve A T with
        | None => None
        | Some y => match chain3 MB l' (vneg y) with None => None | Some t => sum2 MB l' (vplus acc t) end
        end
    end.
  (** 360-373 [_compute_dxN]. *)
  Definition compute_dxN (MB : mat) (l : list (mat * vec)) : option vec :=
    match chain1 MB l eye with
    | None => None
    | Some P =>
        match sum2 MB l vzero with
        | None => None
        | Some q => match inv (mplus eye (mneg P)) with None => None | Some W => Some (mvec n W q) end
        end
    end.
  (** 376-379 [_compute_dx]. *)
  Definition compute_dx (MB A : mat) (T prev : vec) : option vec :=
    match solve A (vplus (mvec n MB prev) T) with None => None | Some y => Some (vneg y) end.
  (** 208-214: the updates of all points but the last. *)
  Fixpoint dx_loop (MB : mat) (l : list (mat * vec)) (prev : vec) : option (list vec) :=
    match l with
    | [] => Some []
    | (A, T) :: l' =>
        match compute_dx MB A T prev with
        | None => None
        | Some d => match dx_loop MB l' d with None => None | Some ds => Some (d :: ds) end
        end
    end.
  (** 203-218: [dx]. *)
  Definition updates (MB : mat) (l : list (mat * vec)) : option (list vec) :=
    match compute_dxN MB l with
    | None => None
    | Some dN => match dx_loop MB (firstn (pred (length l)) l) dN with None => None | Some ds => Some (ds ++ [dN]) end
    end.

  Variables mna D : mat.
  Variable Tf : vec.
  (** The time-dependent sources at a given time, and the ports of the nonlinear
      elements. *)
  Variable Tt : R -> vec.
  Variable ports : list nlport.
  Variable step : R.

  (** 272-276, 279-308 and 311-357: the matrix and the constant term of sample [x] at time
      [t], after [xprev]. *)
  Definition MB : mat := mscale (C0 step) D.
  Definition point (t : R) (x xprev : vec) : mat * vec :=
    let '(J, T) := J_and_T ports x in
    (mplus J (mplus mna (mscale (C1 step) D)),
     vplus (vplus (vplus (vplus T (mvec n (mscale (C1 step) D) x)) (mvec n mna x)) (mvec n (mscale (C0 step) D) xprev)) (vplus Tf (Tt t))).
  (** 192-201; [k] is the index of the sample. *)
  Fixpoint points_from (k : nat) (xprev : vec) (xs : list vec) : list (mat * vec) :=
    match xs with
    | [] => []
    | x :: xs' => point (INR k * step) x xprev :: points_from (S k) x xs'
    end.
  Definition lin_points (xs : list vec) : list (mat * vec) := points_from 0 (last xs vzero) xs.

  (** 205-217: the damped update of every sample. *)
  Variable td : vec -> R.
  Fixpoint damp (dxs xs : list vec) : list vec :=
    match dxs, xs with
    | d :: dxs', x :: xs' => vplus (vscale (td d) d) x :: damp dxs' xs'
    | _, _ => []
    end.
  Definition shoot_step (xs : list vec) : option (list vec * list vec) :=
    match updates MB (lin_points xs) with None => None | Some dxs => Some (dxs, damp dxs xs) end.

  (** 41, 220-221 and 263-269: the default norm [max(abs(v))] of [n] components, the
      largest norm of a list, and the test; [er] is [min(ver, ier)], [ea] is
      [min(vea, iea)]. *)
  Fixpoint vmax (m : nat) (v : vec) : R := match m with O => 0 | S k => Rmax (vmax k v) (Rabs (v k)) end.
  Definition norm_all (l : list vec) : R := fold_left (fun m v => if Rlt_b m (vmax n v) then vmax n v else m) l 0.
  Definition small_test (er ea : R) (dxs xs : list vec) : bool := Rlt_b (norm_all dxs) (er * norm_all xs + ea).

  (** 188-243.  [small dx x] is the test of 220-221; the maximum number of iterations
      is not zero (options.py: 10000).  The outcome of a finished loop is the samples,
      or [None] ("failed"). *)
  Variable small : list vec -> list vec -> bool.
  Inductive sout := SSing | SDone (r : option (list vec)).
  Fixpoint shoot_loop (left conv : nat) (xs : list vec) : sout :=
    match shoot_step xs with
    | None => SSing
    | Some (dxs, xs') =>
        if small dxs xs' && (conv =? 3)%nat then SDone (Some xs')
        else match left with
             | O => SDone None
             | S left' => shoot_loop left' (if small dxs xs' then S conv else 0) xs'
             end
    end.
End Shooting.

(** ** Brute force *)
Section BruteForce.
  Variable n : nat.        (* n_of_var *)
  Variable points : nat.
  Variables mna D : mat.
  Variable step : R.

  (** ahkab/utilities.py 78-97 [set_submatrix] of an [n] by [n] matrix. *)
  Definition set_sub (r0 c0 : nat) (dest src : mat) : mat := fun r c =>
    if (r0 <=? r)%nat && (r <? r0 + n)%nat && ((c0 <=? c)%nat && (c <? c0 + n)%nat) then src (r - r0)%nat (c - c0)%nat else dest r c.

  (** ahkab/bfpss.py 312-325: the block at (li, ci), [None] for [continue]. *)
  Definition block (li ci : nat) : option mat :=
    if (li =? 0)%nat then
      if (ci =? 0)%nat then Some eye else if (ci =? points - 1)%nat then Some (mneg eye) else None
    else if (ci =? li)%nat then Some (mplus mna (mscale (C1 step) D))
    else if (S ci =? li)%nat then Some (mscale (C0 step) D)
    else None.
  (** 295-334 [_build_CMAT]: the two loops. *)
  Definition put (m : mat) (lc : nat * nat) : mat :=
    match block (fst lc) (snd lc) with Some b => set_sub (fst lc * n) (snd lc * n) m b | None => m end.
  Definition CMAT : mat := fold_left put (list_prod (seq 0 points) (seq 0 points)) mzero.

  Variable Tf : vec.
  Variable Tt : R -> vec.
  Variable ports : list nlport.

  (** Sample [k] of the vector of all samples. *)
  Definition sample (x : vec) (k : nat) : vec := fun i => x (k * n + i)%nat.
  (** 360-372 [_build_Tf], 375-405 [_build_Tt], 188-214 ([T]): all start at index 1.
      (Written block by block; the nodes of a sample stay inside its block.) *)
  Definition blocks (f : nat -> vec) : vec := fun r => if (r / n =? 0)%nat then 0 else f (r / n)%nat (r mod n).
  Definition big_Tf : vec := blocks (fun _ => Tf).
  Definition big_Tt : vec := blocks (fun k => Tt (INR k * step)).
  Definition big_T (x : vec) : vec := blocks (fun k => snd (J_and_T ports (sample x k))).
  (** 215-233: [J]. *)
  Definition big_J (x : vec) : mat := fun r c =>
    if (r / n =? 0)%nat then 0 else if (r / n =? c / n)%nat then fst (J_and_T ports (sample x (r / n))) (r mod n) (c mod n) else 0.

  (** 236, sparse: [*] is the product. *)
  Definition bf_residual (x : vec) : vec := fun r =>
    row (points * n) CMAT r x + big_T x r + big_Tf r + big_Tt r.
  (** 236, dense: [*] of arrays of shapes (m, m) and (m, 1) multiplies row [r] by
      [x[r]]; the result has [m] columns. *)
  Definition bf_residual_dense (x : vec) : mat := fun r c =>
    CMAT r c * x r + big_T x r + big_Tf r + big_Tt r.

  Variable solve : mat -> vec -> option vec.
  Variable msolve : mat -> mat -> option mat.
  Variable td : vec -> R.

  (** 244-248: [min(abs(td))]. *)
  Definition min_td (dx : vec) : R :=
    fold_left (fun a k => Rmin a (Rabs (td (sample dx k)))) (seq 1 (points - 1)) (Rabs (td (sample dx 0))).
  Definition bf_step (x : vec) : option (vec * vec) :=
    match solve (mplus (big_J x) CMAT) (vneg (bf_residual x)) with
    | None => None
    | Some dx => Some (dx, vplus x (vscale (min_td dx) dx))
    end.

  (** The built-in [max] on an array of [rows] rows of [cols] components (bfpss.py 45,
      283): rows are compared with each other, and the truth value of an array of
      several components is a ValueError; so is the maximum of no rows. *)
  Definition max_rows (rows cols : nat) : res unit :=
    match rows with
    | O => Err ValueError
    | 1%nat => Ok tt
    | _ => if (cols =? 1)%nat then Ok tt else Err ValueError
    end.

  (** 180-263.  The matrix with one row is not distinguished from the product.  The
      index lists of the convergence check are taken as integers (they hold floats,
      which newer releases of numpy reject). *)
  Variable check : vec -> vec -> bool.
  Inductive bout := BSing | BErr (e : exn) | BDone (r : option vec).
  Fixpoint bf_loop (left : nat) (x : vec) : bout :=
    match bf_step x with
    | None => BSing
    | Some (dx, x') =>
        if check dx x' then BDone (Some x')
        else match left with O => BDone None | S left' => bf_loop left' x' end
    end.
  (** The dense case: [dx] and then [x] have [points * n] columns. *)
  Definition bf_dense (left : nat) (x : vec) : bout :=
    match msolve (mplus (big_J x) CMAT) (mneg (bf_residual_dense x)) with
    | None => BSing
    | Some _ => match max_rows (points * n) (points * n) with
                | Err e => BErr e
                | Ok _ => bf_loop left x
                end
    end.
  (** 138: the choice; [limit] is [options.dense_matrix_limit]. *)
  Definition bf_solve (limit max_iter : nat) (x0 : vec) : bout :=
    if (limit <? n * points)%nat then bf_loop max_iter x0 else bf_dense max_iter x0.
End BruteForce.
