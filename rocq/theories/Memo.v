(** Model of the decorator [memoize], ahkab/utilities.py 693-727.  The cache is
    an OrderedDict from the tuple of arguments to the value; [popitem()] takes
    the entry added last (CPython >= 3.10; the comment in the code says FIFO).
    Keys are compared with [eqb]: == on floats, identity on objects without
    __eq__. *)
From Coq Require Import List Bool Arith.
From Verif Require Import Base.
Import ListNotations.

Section Memo.
  Context {K V : Type}.
  Variable eqb : K -> K -> bool.

  Definition cache := list (K * V).

  Definition popitem (c : cache) : cache := removelast c.

  (** [limit] is options.cache_len, read at the time of the call; [f] is the
      function, as it acts at the time of the call.  The answer, the cache
      after, and whether [f] was called. *)
  Definition memo_call (f : K -> res V) (limit : option nat) (c : cache) (k : K) : res V * cache * bool :=
    match dget eqb c k with
    | Some v => (Ok v, c, false)
    | None =>
        match f k with
        | Err e => (Err e, c, true)
        | Ok v =>
            let c1 := dset eqb c k v in
            (Ok v, match limit with
                   | Some n => if n <? length c1 then popitem c1 else c1
                   | None => c1
                   end, true)
        end
    end.

  (** A history of calls. *)
  Fixpoint memo_calls (f : K -> res V) (limit : option nat) (c : cache) (ks : list K) : list (res V) * cache :=
    match ks with
    | [] => ([], c)
    | k :: ks' =>
        let '(r, c1, _) := memo_call f limit c k in
        let '(rs, c2) := memo_calls f limit c1 ks' in (r :: rs, c2)
    end.
End Memo.
