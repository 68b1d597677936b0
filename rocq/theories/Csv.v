(** Model of ahkab/csvlib.py 61-275.  A number is printed with 19 significant
    digits and read back unchanged, so a line of data is the list of its values;
    the header line is a string (a header name holding a line break would make two
    lines: it is not represented).  Writing to the standard output, warnings and
    file errors are left out. *)
From Coq Require Import Ascii String List Bool Arith.
From Verif Require Import Base Str.
Import ListNotations.

Definition tab : ascii := ascii_of_nat 9.
Definition hash : ascii := "#"%char.

(** [SEPARATOR.join(l)] and [s.split(SEPARATOR)]. *)
Fixpoint join (c : ascii) (l : list str) : str :=
  match l with
  | [] => []
  | [s] => s
  | s :: l' => s ++ c :: join c l'
  end.
Fixpoint split_on (c : ascii) (s : str) : list str :=
  match s with
  | [] => [[]]
  | x :: s' =>
      if Ascii.eqb x c then [] :: split_on c s'
      else match split_on c s' with
           | w :: ws => (x :: w) :: ws
           | [] => [[x]]
           end
  end.

Section Csv.
  Context {V : Type}.
  Variable dflt : V.

  Inductive line := LText (s : str) | LData (row : list V).

  (** [data.T]: [data] has one list per variable, of [n] samples each. *)
  Definition transpose (n : nat) (data : list (list V)) : list (list V) :=
    map (fun s => map (fun var => nth s var dflt) data) (seq 0 n).

  (** ahkab/csvlib.py 64-100 [write_csv] with [numpy.savetxt]: a header that is not
      empty is written after '#'; [append] keeps the file and writes none. *)
  Definition write_csv (file : list line) (n : nat) (data : list (list V)) (headers : list str) (append : bool)
    : list line :=
    let header := if append then [] else join tab headers in
    (if append then file else []) ++
    (match header with [] => [] | _ => [LText (hash :: header)] end) ++
    map LData (transpose n data).

  (** ahkab/csvlib.py 151-180 [get_headers_index]: the first header equal up to
      case; headers that are not found are skipped. *)
  Fixpoint find_header (headers : list str) (h : str) (k : nat) : option nat :=
    match headers with
    | [] => None
    | x :: l => if streqb (slower x) (slower h) then Some k else find_header l h (S k)
    end.
  Definition headers_index (headers load : list str) : list nat :=
    match load with
    | [] => seq 0 (length headers)
    | _ => flat_map (fun h => match find_header headers h 0 with Some k => [k] | None => [] end) load
    end.

  (** ahkab/csvlib.py 183-209 [get_headers].  The first line of a file is a text
      line; that of a file without one is not interpreted here. *)
  Fixpoint get_headers (file : list line) : res (list str) :=
    match file with
    | LText s :: file' =>
        match strip s with
        | [] => Err IndexError
        | c :: s' =>
            let l := if Ascii.eqb c hash then s' else c :: s' in
            match l with [] => get_headers file' | _ => Ok (split_on tab l) end
        end
    | _ => Err RuntimeError
    end.

  (** [numpy.loadtxt]: [skip] lines are dropped, comments included; then the
      columns [his] of the lines that are not comments, one list per column. *)
  Definition data_rows (file : list line) : list (list V) :=
    flat_map (fun l => match l with LData r => [r] | LText _ => [] end) file.
  Definition loadtxt (file : list line) (his : list nat) (skip : nat) : res (list (list V)) :=
    let rows := data_rows (skipn skip file) in
    if forallb (fun r => forallb (fun k => k <? length r) his) rows
    then Ok (map (fun k => map (fun r => nth k r dflt) rows) his)
    else Err ValueError.

  (** ahkab/csvlib.py 212-275 [load_csv]: data, headers, position, end of file.
      The number of samples is that of the lines read. *)
  Definition load_csv (file : list line) (load : list str) (nsamples : option nat) (skip : nat)
    : res (list (list V) * list str * nat * bool) :=
    bindr (get_headers file) (fun headers =>
    let his := headers_index headers load in
    if (0 <? length load) && negb (length his =? length load) then Err ValueError
    else
      bindr (loadtxt file his skip) (fun data =>
      let avail := length (data_rows (skipn skip file)) in
      let eof := match nsamples with None => true | Some n => n =? avail end in
      let got := match nsamples with None => avail | Some n => Nat.min n avail end in
      let data := match nsamples with None => data | Some _ => map (firstn got) data end in
      Ok (data, map (fun k => nth k headers []) his, skip + got, eof))).
End Csv.
Arguments line V : clear implicits.
