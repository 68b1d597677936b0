(** Model of the pole-zero analysis: ahkab/pz.py 104-343 and the result class
    ahkab/results.py 1159-1218.  Real arithmetic, complex numbers as pairs; numpy's
    [inv], [eigvals] and the test [np.linalg.det(..)] are parameters.  The names of
    the output port (178-189) and the matrix (199-216) are in SimulatePz.v.  Not modelled:
    the saved file, the sorting of the results. *)
From Coq Require Import Reals String List Bool Arith.
From Verif Require Import Base Rsum Mna Newton Pss.
Import ListNotations.
Open Scope R_scope.

Definition cx : Type := R * R.
Definition cinv (z : cx) : cx :=
  let d := fst z * fst z + snd z * snd z in (fst z / d, - snd z / d).
Definition cabs (z : cx) : R := sqrt (fst z * fst z + snd z * snd z).
Definition is_zero (a : R) : bool := if Req_EM_T a 0 then true else false.

(** 226-227 (the same at 234-235 and 290-291): [MC] for an element between [n1] and
    [n2]; the ground adds 0 to the last entry. *)
Definition mc_nodes (n1 n2 : nat) : vec :=
  let v := if (n1 =? 0)%nat then vzero else vadd vzero (n1 - 1) 1 in
  if (n2 =? 0)%nat then v else vadd v (n2 - 1) (-1).
(** 247-251, 264-269, 297-301: the voltage between two nodes. *)
Definition read_nodes (n1 n2 : nat) (tv : vec) : R :=
  (if (n1 =? 0)%nat then 0 else tv (n1 - 1)%nat) - (if (n2 =? 0)%nat then 0 else tv (n2 - 1)%nat).

(** A reactive element: the vector [MC], how the results are read, the value. *)
Record react := mkReact { r_inj : vec; r_read : vec -> R; r_val : R }.

(** 223-229 and 243-255; [k] is the number of voltage-defined elements met. *)
Fixpoint reactives (nv : nat) (es : list lelem) (k : nat) : list react :=
  match es with
  | [] => []
  | e :: es' =>
      let rest := reactives nv es' (if is_vde e then S k else k) in
      match e with
      | EC _ n1 n2 c => mkReact (mc_nodes n1 n2) (read_nodes n1 n2) c :: rest
      | EL _ _ _ l => mkReact (vadd vzero (nv - 1 + k) (-1)) (fun tv => tv (nv - 1 + k)%nat) l :: rest
      | _ => rest
      end
  end.

(** 190-196 and 230-237: the vector [MC] of the input source, the first element of
    that name.  An unknown name is a ValueError; the [Exception] for an element which is
    no independent source is rendered as ValueError (a capacitor or inductor given as
    the input is not modelled and falls under this); it is raised after the inversion
    of the matrix, here before. *)
Fixpoint source_inj (nv : nat) (es : list lelem) (k : nat) (id : string) : res vec :=
  match es with
  | [] => Err ValueError
  | e :: es' =>
      if String.eqb (lid e) id
      then match e with
           | EV _ _ _ _ _ => Ok (vadd vzero (nv - 1 + k) (-1))
           | EI _ n1 n2 _ _ => Ok (mc_nodes n1 n2)
           | _ => Err ValueError
           end
      else source_inj nv es' (if is_vde e then S k else k) id
  end.

Inductive pzout : Type :=
| PSing                              (* LinAlgError *)
| PErr (e : exn)
| PAgain (shift : R)                 (* the function calls itself *)
| PDone (poles zeros : list cx).

Section Pz.
  Variable inv : mat -> option mat.
  Variable nonsing : nat -> mat -> bool.
  Variable eigvals : nat -> mat -> list cx.
  Variable pz_max : R.

  Variable N : nat.                  (* MNA.shape[0] - 1 *)
  Variables M D : mat.               (* MNA[1:, 1:] and D[1:, 1:] *)
  Variable rs : list react.
  (** The input and the output port, if the zeros are asked for. *)
  Variable io : option (vec * (nat * nat)).

  Definition r0 : react := mkReact vzero (fun _ => 0) 0.
  Section Inv.
    Variable W : mat.                (* MNAinv *)
    (** 240: [-1. * np.dot(MNAinv, MC)]. *)
    Definition TV (b : vec) : vec := fun i => -1 * mvec N W b i.
    (** 261: [TCM[dei_victim, dei_source]]. *)
    Definition TCM : mat := fun a b => r_read (nth a rs r0) (TV (r_inj (nth b rs r0))) * r_val (nth b rs r0).
    (** 256-257, 263-269, 302. *)
    Definition RIIN (src : vec) : vec := fun a => r_read (nth a rs r0) (TV src).
    Definition ROUTIN (src : vec) (o : nat * nat) : R := read_nodes (fst o) (snd o) (TV src).
    Definition ROUT (o : nat * nat) : vec := fun b => read_nodes (fst o) (snd o) (TV (r_inj (nth b rs r0))) * r_val (nth b rs r0).
    (** 306-308 and 317: the tiled [RIIN] times the diagonal [ROUT]. *)
    Definition ZTCM (src : vec) (o : nat * nat) : mat := fun a b => TCM a b - RIIN src a * ROUT o b / ROUTIN src o.
  End Inv.

  (** 276 and 325. *)
  Definition freq (shift : R) (l : cx) : cx :=
    (1 / (2 * PI) * (fst (cinv l) + shift), 1 / (2 * PI) * snd (cinv l)).
  (** 338-339. *)
  Definition cut (l : list cx) : list cx := filter (fun a => Rlt_b (cabs a) pz_max) l.

  (** 218-343, one call; [u] is the random number. *)
  Definition pz_once (shift u : R) : pzout :=
    match inv (mplus M (mscale shift D)) with
    | None => PSing
    | Some W =>
        let m := length rs in
        if (m =? 0)%nat then PDone [] []
        else if negb (nonsing m (TCM W)) then PAgain (shift + Rabs (1 + u) * 1000)
        else
          let poles := map (freq shift) (eigvals m (TCM W)) in
          match io with
          | None => PDone (cut poles) []
          | Some (src, o) =>
              if forallb (fun b => is_zero (ROUT W o b)) (seq 0 m)
              then if Rlt_b shift (10 ^ 12) then PAgain (shift * Rabs (u + 1) * 10) else PDone (cut poles) []
              else if is_zero (ROUTIN W src o) then PAgain (shift + Rabs (u + 1) * 1000)
              else let ev := eigvals m (ZTCM W src o) in
                   if existsb (fun l => is_zero (fst l) && is_zero (snd l)) ev
                   then PAgain (shift + Rabs (u + 1) * 1000)
                   else PDone (cut poles) (cut (map (freq shift) ev))
          end
    end.

  (** The recursion; [u k] is the random number of call [k]; [None] when the calls are
      used up (python raises RecursionError). *)
  Fixpoint pz_run (fuel : nat) (u : nat -> R) (shift : R) : option pzout :=
    match fuel with
    | O => None
    | S f => match pz_once shift (u O) with
             | PAgain s => pz_run f (fun k => u (S k)) s
             | r => Some r
             end
    end.
End Pz.

(** 137-343 [calculate_singularities] on a linear circuit; [M] is the reduced MNA
    matrix, [input] the name of the source and the internal numbers of the output
    nodes. *)
Definition calculate_singularities (inv : mat -> option mat) (nonsing : nat -> mat -> bool) (eigvals : nat -> mat -> list cx)
    (pz_max cmin : R) (nv : nat) (es : list lelem) (M : mat) (input : option (string * (nat * nat)))
    (fuel : nat) (u : nat -> R) (shift : R) : option pzout :=
  let go io := match generate_D cmin nv es with
               | Err e => Some (PErr e)
               | Ok d => pz_run inv nonsing eigvals pz_max (nv - 1 + n_vde es) M (reduce_mat d) (reactives nv es 0) io fuel u shift
               end in
  match input with
  | None => go None
  | Some (id, o) => match source_inj nv es 0 id with
                    | Err e => Some (PErr e)
                    | Ok src => go (Some (src, o))
                    end
  end.

(** ** ahkab/results.py 1159-1218 [pz_solution] *)

(** [variables], [units] (by number of the variable) and [data], which is not set
    ([None]) without zeros. *)
Inductive pzvar := Pvar (i : nat) | Zvar (i : nat).
Record pz_solution := mkPz {
  pz_poles : list cx; pz_zeros : list cx;
  pz_vars : list pzvar; pz_units : list (pzvar * string); pz_data : option (list (pzvar * cx)) }.
Definition make_pz (poles zeros : list cx) : pz_solution :=
  let vars := (map Pvar (seq 0 (length poles)) ++ map Zvar (seq 0 (length zeros)))%list in
  match zeros with
  | [] => mkPz poles zeros vars [] None
  | _ => mkPz poles zeros vars (map (fun v => (v, "rad/s"%string)) vars) (Some (combine vars (poles ++ zeros)%list))
  end.
Definition pzvar_eqb (a b : pzvar) : bool :=
  match a, b with Pvar i, Pvar j | Zvar i, Zvar j => (i =? j)%nat | _, _ => false end.
(** 1214-1218: subscript; a key which is no name of a variable is [None]. *)
Definition pz_getitem (s : pz_solution) (name : option pzvar) : res cx :=
  match pz_data s with
  | None => Err AttributeError
  | Some d => match name with
              | None => Err AttributeError
              | Some v => match find (fun p => pzvar_eqb (fst p) v) d with Some p => Ok (snd p) | None => Err KeyError end
              end
  end.
(** ahkab/pz.py 110-133 [calculate_poles]: the solution is subscripted with 0 (an
    integer has no [upper], ahkab/results.py 1313-1315). *)
Definition calculate_poles_of (poles : list cx) : res cx := pz_getitem (make_pz poles []) None.
