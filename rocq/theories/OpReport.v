(** Model of the report on the elements at the operating point: ahkab/results.py
    339-385 [_get_elements_op] (the total power is in Results.v) and the
    [get_op_info] methods of ahkab/components/Resistor.py 71-91, Capacitor.py 64-84,
    Inductor.py 54-77, sources/VSource.py 126-147, sources/ISource.py 127-147,
    TunnelJunction.py 150-173 and ahkab/diode.py 207-230.  Real arithmetic; the
    labels of the table are left out. *)
From Coq Require Import Reals String Ascii List Bool Arith.
From Verif Require Import Base Nodes Circuit Rsum Mna.
Import ListNotations.
Open Scope R_scope.

(** The lines of the table: R [R, V, I, P]; C [V, Q, E]; L [flux, I, E]; V and I
    [V, I, P]; diode and tunnel junction [V, I, P, gm]. *)
Inductive rep : Type :=
| RepR (r v i p : R)
| RepC (v q e : R)
| RepL (phi i e : R)
| RepV (v i p : R)
| RepI (v i p : R)
| RepD (v i p g : R).

(** ahkab/results.py 353-361 and 364-370: the voltage of a port; [x] is the vector of
    the solution, without the ground. *)
Definition port_v (x : vec) (n1 n2 : nat) : R :=
  let v := if (n1 =? 0)%nat then 0 else x (n1 - 1)%nat in
  if (n2 =? 0)%nat then v else v - x (n2 - 1)%nat.

Section Report.
  (** Current and conductance of the diode or tunnel junction with that id at that
      voltage. *)
  Variable nl : string -> R -> R * R.

  (** ahkab/results.py 371-376 with the [get_op_info] of the element; [None]: the
      element has no such method.  [nv_1] counts the nodes without ground. *)
  Definition get_op_info (nv_1 : nat) (all : list lelem) (x : vec) (e : lelem) : option (res rep) :=
    match e with
    | ER _ n1 n2 r => let v := port_v x n1 n2 in Some (Ok (RepR r v (v / r) (v ^ 2 / r)))
    | EC _ n1 n2 c => let v := port_v x n1 n2 in Some (Ok (RepC v (v * c) (1/2 * v ^ 2 * c)))
    | EL id _ _ l =>
        Some (bindr (vde_index all id) (fun k => let i := x (nv_1 + k)%nat in Ok (RepL (l * i) i (1/2 * l * i ^ 2))))
    | EV id _ _ dc _ =>
        Some (bindr (vde_index all id) (fun k => let i := x (nv_1 + k)%nat in Ok (RepV dc i (dc * i))))
    | EI _ n1 n2 dc _ => let v := port_v x n1 n2 in Some (Ok (RepI v dc (v * dc)))
    | ENL id n1 n2 => let v := port_v x n1 n2 in let i := fst (nl id v) in Some (Ok (RepD v i (v * i) (snd (nl id v))))
    | EK _ _ _ _ _ | EE _ _ _ _ _ _ | EG _ _ _ _ _ _ | EF _ _ _ _ _ | EH _ _ _ _ _ => None
    end.

  (** The lines of all the elements, in the order of the circuit. *)
  Fixpoint reports (nv_1 : nat) (all : list lelem) (x : vec) (es : list lelem) : res (list (string * rep)) :=
    match es with
    | [] => Ok []
    | e :: es' =>
        match get_op_info nv_1 all x e with
        | None => reports nv_1 all x es'
        | Some r => bindr r (fun r => bindr (reports nv_1 all x es') (fun l => Ok ((lid e, r) :: l)))
        end
    end.
End Report.

(** ahkab/results.py 377-388: the tables, one for each first letter, one for each
    transistor. *)
Definition group1 {A} (d : list (string * list A)) (ir : string * A) : res (list (string * list A)) :=
  match fst ir with
  | EmptyString => Err IndexError
  | String c _ =>
      let key := String (upper_ascii c) EmptyString in
      if String.eqb key "M" then Ok (dset String.eqb d (upper (fst ir)) [snd ir])
      else Ok (dset String.eqb d key
                 (match dget String.eqb d key with Some l => l ++ [snd ir] | None => [snd ir] end))
  end.
Fixpoint group {A} (d : list (string * list A)) (l : list (string * A)) : res (list (string * list A)) :=
  match l with [] => Ok d | ir :: l' => bindr (group1 d ir) (fun d => group d l') end.
