(** Model of the initial guess of the operating point, ahkab/dc_guess.py 40-228
    ([get_dc_guess]).  The linear solver is an oracle; real arithmetic is exact. *)
From Coq Require Import Reals List Bool Arith.
From Verif Require Import Base Newton Diode.
Import ListNotations.
Open Scope R_scope.

(** The attribute [dc_guess]: a list (diode.py 79, mosq.py 131-133, ekv.py 166-167,
    switch.py 119, VSource.py 62, TunnelJunction.py 47), or whatever the user gave as
    [ic], a number (diode.py 93-95, TunnelJunction.py 56-58). *)
Inductive guess : Type := GList (l : list R) | GNum (r : R).

(** [g_ports]: [ports] of a nonlinear element, [(n1, n2)] of a linear one. *)
Record gelem := mkG { g_vde : bool; g_nl : bool; g_ports : list (nat * nat); g_guess : option guess }.

(** [elem.dc_guess[k]]. *)
Definition guess_at (g : guess) (k : nat) : res R :=
  match g with
  | GList l => match nth_error l k with Some r => Ok r | None => Err IndexError end
  | GNum _ => Err TypeError
  end.

(** ** The equations *)

(** (n1, n2, T): the voltage between the nodes n1 and n2 is T. *)
Definition eqn : Type := (nat * nat * R)%type.

(** ahkab/dc_guess.py 91-106 and 107-119 (with one port and [port_index] 0): the
    equations of an element; [k] is [port_index]. *)
Fixpoint port_eqns (g : guess) (k : nat) (ports : list (nat * nat)) : res (list eqn) :=
  match ports with
  | [] => Ok []
  | (n1, n2) :: ps =>
      if (n1 =? n2)%nat then port_eqns g k ps
      else bindr (guess_at g k) (fun t => bindr (port_eqns g (S k) ps) (fun es => Ok ((n1, n2, t) :: es)))
  end.

(** ahkab/dc_guess.py 81-119. *)
Fixpoint equations (es : list gelem) : res (list eqn) :=
  match es with
  | [] => Ok []
  | e :: es' =>
      match g_guess e with
      | None => equations es'
      | Some g => bindr (port_eqns g 0 (g_ports e)) (fun a => bindr (equations es') (fun b => Ok (a ++ b)))
      end
  end.
Definition has_guess (es : list gelem) : bool := existsb (fun e => match g_guess e with Some _ => true | None => false end) es.
Definition v_eq (es : list gelem) : nat := List.length (filter g_vde es).

(** ** The system *)

(** ahkab/dc_guess.py 100-101 and 125: the line without the column of ground;
    [M[index, n2]] is set last. *)
Definition line (nv n1 n2 : nat) : list R :=
  map (fun c => if (c =? n2)%nat then -1 else if (c =? n1)%nat then 1 else 0) (seq 1 (nv - 1)).
(** ahkab/dc_guess.py 75-76: without equations there is one line of zeros. *)
Definition system (nv : nat) (eqs : list eqn) : list (list R * R) :=
  match eqs with
  | [] => [(repeat 0 (nv - 1), 0)]
  | _ => map (fun '(n1, n2, t) => (line nv n1 n2, t)) eqs
  end.

(** ahkab/dc_guess.py 151-153: L1 - L2 or L1 + L2 is zero. *)
Fixpoint all0 (f : R -> R -> R) (a b : list R) : bool :=
  match a, b with
  | x :: a', y :: b' => Req_b (f x y) 0 && all0 f a' b'
  | _, _ => true
  end.
Definition dependent (a b : list R) : bool := all0 Rminus a b || all0 Rplus a b.

Definition remove_nth {A} (i : nat) (l : list A) : list A := firstn i l ++ skipn (S i) l.

(** ahkab/dc_guess.py 148-157: the lines from the last to the first; a line that
    depends on one above is removed. *)
Fixpoint dedup (i : nat) (rows : list (list R * R)) : list (list R * R) :=
  match i with
  | O => rows
  | S k =>
      let r := nth k rows ([], 0) in
      dedup k (if existsb (fun s => dependent (fst r) (fst s)) (firstn k rows) then remove_nth k rows else rows)
  end.

(** ahkab/dc_guess.py 167-171: the columns from the last to the first; an empty one
    is removed and noted. *)
Fixpoint drop_columns (i : nat) (rows : list (list R * R)) : list (list R * R) * list nat :=
  match i with
  | O => (rows, [])
  | S k =>
      if forallb (fun r => Req_b (nth k (fst r) 0) 0) rows
      then let '(rows', rem) := drop_columns k (map (fun r => (remove_nth k (fst r), snd r)) rows) in (rows', k :: rem)
      else drop_columns k rows
  end.

(** ahkab/dc_guess.py 210-213. *)
Definition ins (l : list R) (i : nat) : list R := firstn i l ++ 0 :: skipn i l.
Definition reinsert (rem : list nat) (rp : list R) : list R := fold_left ins rem rp.

(** ahkab/dc_guess.py 40-228.  [solve] is the code at 189-204: [None] if the matrix
    is singular. *)
Definition get_dc_guess (solve : list (list R) -> list R -> option (list R)) (nv : nat) (es : list gelem) : res (option (list R)) :=
  if negb (existsb g_nl es) then Ok None
  else
    bindr (equations es) (fun eqs =>
      if negb (has_guess es) then Ok None
      else
        let rows := system nv eqs in
        let rows1 := dedup (List.length rows) rows in
        let '(rows2, rem) := drop_columns (nv - 1) rows1 in
        match solve (map fst rows2) (map snd rows2) with
        | None => Ok None
        | Some rp => Ok (Some (reinsert rem rp ++ repeat 0 (v_eq es)))
        end).
