(** Model of the iterator class [combinations], ahkab/utilities.py 186-243. *)
From Coq Require Import List Bool Arith.
From Verif Require Import Base.
Import ListNotations.

Section Combos.
  Context {A : Type}.

  (** The attributes L, k, _i, _sub_iter.  [k] is a natural number: a negative
      one is refused by the constructor like 0. *)
  Inductive comb := Comb (L : list A) (k i : nat) (sub : option comb).

  (** ahkab/utilities.py 205-214. *)
  Definition comb_init (L : list A) (k : nat) : res comb :=
    if length L <? k then Err ValueError
    else if k =? 0 then Err ValueError
    else Ok (Comb L k 0 None).

  (** What [__next__] did: a value, StopIteration, or another exception; the
      object after the call goes with the first two. *)
  Inductive nres := Yield (x : list A) (c : comb) | Stop (c : comb) | Raise (e : exn).

  (** ahkab/utilities.py 222-243; [fuel] bounds the recursion depth. *)
  Fixpoint comb_next (fuel : nat) (c : comb) {struct fuel} : nres :=
    match fuel with
    | O => Raise OutOfFuel
    | S fuel' =>
        let '(Comb L k i sub) := c in
        if 1 <? k then
          match (match sub with Some s => Ok s | None => comb_init (skipn (i + 1) L) (k - 1) end) with
          | Err e => Raise e
          | Ok s =>
              match comb_next fuel' s with
              | Yield nxt s' =>
                  match nth_error L i with
                  | Some cur => Yield (cur :: nxt) (Comb L k i (Some s'))
                  | None => Raise IndexError
                  end
              | Stop s' =>
                  if i <? length L - k
                  then match comb_init (skipn (i + 1 + 1) L) (k - 1) with
                       | Err e => Raise e
                       | Ok s2 => comb_next fuel' (Comb L k (i + 1) (Some s2))
                       end
                  else Stop (Comb L k i (Some s'))
              | Raise e => Raise e
              end
          end
        else match nth_error L i with
             | Some cur => Yield [cur] (Comb L k (i + 1) sub)
             | None => Stop c
             end
    end.

  (** [for x in it]: at most [n] values are asked for. *)
  Fixpoint comb_iter (n fuel : nat) (c : comb) : res (list (list A) * bool * comb) :=
    match n with
    | O => Ok ([], false, c)
    | S n' =>
        match comb_next fuel c with
        | Yield x c' => bindr (comb_iter n' fuel c') (fun r => Ok (x :: fst (fst r), snd (fst r), snd r))
        | Stop c' => Ok ([], true, c')
        | Raise e => Err e
        end
    end.
End Combos.
Arguments comb : clear implicits.
Arguments nres : clear implicits.
