(** Model of the analysis queue and of the stored starting points,
    ahkab/ahkab.py 195-199, 661-720 ([queue], [run]) and 962-975
    ([_handle_netlist_ics]), and of the analysis part of [main] (908-928).
    The analyses themselves are oracles. *)
From Coq Require Import Ascii String List Bool Arith.
From Verif Require Import Base Str.
Import ListNotations.
Open Scope nat_scope.

Section Run.
  (** Circuits, the parameters of an analysis other than its type and its starting
      point, and results ([None] included; starting points are results, too). *)
  Variables C P X : Type.
  (** The analyses: [analysis] (ahkab.py 857-860); [None]: no analysis of that type. *)
  Variable known : str -> bool.
  Variable exec : C -> str -> P -> option X -> res X.
  (** [icmodified_x0]. *)
  Variable icmod : C -> X -> res X.

  (** A starting point: absent, a name, or a vector. *)
  Inductive x0v : Type := XNone | XText (s : str) | XVal (x : X).
  (** An analysis; [a_x0 = None] if there is no key 'x0'. *)
  Record an := mkAn { a_type : str; a_x0 : option x0v; a_par : P }.

  (** What happened: the analyses called, in order, with the starting point they
      got. *)
  Definition call : Type := (C * str * P * option X)%type.

  Record state := mkSt { queue_ : list an; x0s : list (str * X); log : list call }.

  (** ahkab/ahkab.py 967-975.  The names known to [_x0s]; [None: None] cannot be
      looked up by a text.  An unknown name is an error in the first analysis only.
      ([an_list.index(an) == 0] is read as "is the first"; a later analysis equal to
      the first one has the same [x0].) *)
  Definition resolve_one (xs : list (str * X)) (a : an) : an :=
    match a_x0 a with
    | Some (XText s) => match dget streqb xs s with Some x => mkAn (a_type a) (Some (XVal x)) (a_par a) | None => a end
    | _ => a
    end.
  Definition unresolved (a : an) : bool := match a_x0 a with Some (XText _) => true | _ => false end.
  Definition handle (xs : list (str * X)) (l : list an) : res (list an) :=
    match l with
    | [] => Ok []
    | a :: _ => if unresolved (resolve_one xs a) then Err ValueError else Ok (map (resolve_one xs) l)
    end.

  (** ahkab/ahkab.py 703-719: one turn of the loop.  [l] is the list after the pop. *)
  Definition starting (a : an) : option X := match a_x0 a with Some (XVal x) => Some x | _ => None end.
  Definition op : str := lit "op".
  Definition opic : str := lit "op+ic".

  Fixpoint loop (c : C) (l : list an) (xs : list (str * X)) (lg : list call) (rs : list (str * X)) (fuel : nat)
    : res (list (str * X)) * list an * list (str * X) * list call :=
    match fuel, l with
    | _, [] => (Ok rs, [], xs, lg)
    | O, _ => (Err OutOfFuel, l, xs, lg)
    | S f, a :: l' =>
        if negb (known (a_type a)) then (Err KeyError, l', xs, lg)
        else
          let x0 := starting a in
          let lg' := lg ++ [(c, a_type a, a_par a, x0)] in
          match exec c (a_type a) (a_par a) x0 with
          | Err e => (Err e, l', xs, lg')
          | Ok r =>
              let rs' := dset streqb rs (a_type a) r in
              if streqb (a_type a) op then
                match icmod c r with
                | Err e => (Err e, l', dset streqb xs op r, lg')
                | Ok ri =>
                    let xs' := dset streqb (dset streqb xs op r) opic ri in
                    match handle xs' l' with
                    | Err e => (Err e, l', xs', lg')
                    | Ok l2 => loop c l2 xs' lg' rs' f
                    end
                end
              else loop c l' xs lg' rs' f
          end
    end.

  (** ahkab/ahkab.py 674-720.  [None]: no list was given. *)
  Definition run (c : C) (arg : option (list an)) (s : state) : res (list (str * X)) * state :=
    match arg with
    | Some (a :: l) =>
        let '(r, _, xs, lg) := loop c (a :: l) (x0s s) (log s) [] (List.length (a :: l)) in
        (r, mkSt (queue_ s) xs lg)
    | _ =>
        let '(r, q, xs, lg) := loop c (queue_ s) (x0s s) (log s) [] (List.length (queue_ s)) in
        (r, mkSt q xs lg)
    end.

  (** ahkab/ahkab.py 660-671. *)
  Definition queue (l : list an) (s : state) : state := mkSt (queue_ s ++ l) (x0s s) (log s).

  (** ahkab/ahkab.py 914-926, the analyses of a netlist one by one. *)
  Fixpoint main_loop (c : C) (l : list an) (s : state) (rs : list (str * X)) : res (list (str * X)) * state :=
    match l with
    | [] => (Ok rs, s)
    | a :: l' =>
        match handle (x0s s) [a] with
        | Err e => (Err e, s)
        | Ok l1 =>
            let '(r, s') := run c (Some l1) s in
            match r with
            | Err e => (Err e, s')
            | Ok d => main_loop c l' s' (fold_left (fun acc kv => dset streqb acc (fst kv) (snd kv)) d rs)
            end
        end
    end.
  (** [ics]: the .ic sets of the netlist, as vectors. *)
  Definition main (c : C) (ics : list (str * X)) (l : list an) (s : state) : res (list (str * X)) * state :=
    main_loop c l (mkSt (queue_ s) (fold_left (fun acc kv => dset streqb acc (fst kv) (snd kv)) ics (x0s s)) (log s)) [].
End Run.

(** ahkab/transient.py 188-199: the vector a transient analysis starts from;
    [zeros] is the zero vector. *)
Definition tran_start {X : Type} (zeros : X) (x0 : option X) : X := match x0 with None => zeros | Some x => x end.
