(** Model of the post-processing directives: ahkab/plotting.py 49-75
    ([_split_netlist_label]), 161-172 ([_data_abs_arg_pass]) and 203-228
    ([plot_results], the curves that are drawn), ahkab/netlist_parser.py 1311-1415
    ([parse_postproc]) and ahkab/ahkab.py 806-861 ([process_postproc]).  Strings are
    ASCII; drawing, colours and messages are left out. *)
From Coq Require Import Ascii String List Bool Arith ZArith Reals.
From Verif Require Import Base Str Units Directive Csv Rsum Newton Mna Results.
Import ListNotations.
Open Scope list_scope.

(** ** Labels *)

(** [\w] and [\s] of the module [re] on ASCII characters ([\s] is [is_ws]). *)
Definition is_word (c : ascii) : bool :=
  let n := nat_of_ascii c in
  ((48 <=? n) && (n <=? 57)) || ((65 <=? n) && (n <=? 90)) || ((97 <=? n) && (n <=? 122)) || (n =? 95).

Definition c_open : ascii := "("%char.
Definition c_close : ascii := ")"%char.
Definition c_comma : ascii := ","%char.

(** One character, and a run of blanks followed by one character. *)
Definition eat (c : ascii) (s : str) : option str :=
  match s with x :: s' => if Ascii.eqb x c then Some s' else None | [] => None end.
Definition eat_ws (c : ascii) (s : str) : option str := eat c (snd (span is_ws s)).
(** Blanks and the word that follows: the three kinds of characters are disjoint, so that the first way to
    match is the only one and no backtracking is needed. *)
Definition word_ws (s : str) : str * str := span is_word (snd (span is_ws s)).

(** The regular expressions of ahkab/plotting.py 52, 61 and 67, at the beginning of
    the string (which is in upper case when they are applied). *)
Definition m_pair (s : str) : option ((str * str) * str) :=
  match eat "V"%char s with
  | None => None
  | Some s1 =>
      match eat_ws c_open s1 with
      | None => None
      | Some s2 =>
          let '(a, s3) := word_ws s2 in
          match eat_ws c_comma s3 with
          | None => None
          | Some s4 =>
              let '(b, s5) := word_ws s4 in
              match eat_ws c_close s5 with None => None | Some s6 => Some ((a, b), s6) end
          end
      end
  end.
Definition m_single (first : ascii) (s : str) : option (str * str) :=
  match eat first s with
  | None => None
  | Some s1 =>
      match eat_ws c_open s1 with
      | None => None
      | Some s2 =>
          let '(a, s3) := word_ws s2 in
          match eat_ws c_close s3 with None => None | Some s4 => Some (a, s4) end
      end
  end.

(** [re.findall]: after a match the search goes on behind it. *)
Fixpoint findall {A : Type} (m : str -> option (A * str)) (fuel : nat) (s : str) : list A :=
  match fuel with
  | O => []
  | S fuel' =>
      match s with
      | [] => []
      | _ :: s' =>
          match m s with
          | Some (a, r) => a :: findall m fuel' r
          | None => findall m fuel' s'
          end
      end
  end.
Definition re_findall {A : Type} (m : str -> option (A * str)) (s : str) : list A := findall m (S (List.length s)) s.

(** A label: the tuple [(l2, l1)], where [l1] may be [None], or the tuple [(l2,)]. *)
Inductive lab : Type := Two (l2 : str) (l1 : option str) | One (l2 : str).

(** ahkab/plotting.py 49-75. *)
Definition split_label (labels : str) : res (list lab) :=
  let s := supper (strip labels) in
  let pairs := map (fun '(a, b) => if streqb (vname b) (lit "V0") then One (vname a) else Two (vname a) (Some (vname b))) (re_findall m_pair s) in
  let singles := map (fun a => Two (vname a) None) (re_findall (m_single "V"%char) s) in
  let currents := map (fun a => Two (lit "I(" ++ a ++ lit ")") None) (re_findall (m_single "I"%char) s) in
  match pairs ++ singles ++ currents with
  | [] => Err ValueError
  | l => Ok l
  end.

(** ** Directives *)

Inductive pp : Type :=
| PPlot (analysis : str) (l2l1 : list lab)
| PFour (fund : Units.dec) (variables : list lab)
| PFft (args : list (str * val)) (label : lab).

(** ahkab/netlist_parser.py 1333-1337: each word after a blank. *)
Definition join_blank (ws : list str) : str := flat_map (fun w => " "%char :: w) ws.

(** ahkab/netlist_parser.py 1339-1351: [for l2, l1 in l2l1] fails on a tuple of one. *)
Fixpoint bar_labels (l : list lab) : res (list lab) :=
  match l with
  | [] => Ok []
  | Two l2 l1 :: l' => bindr (bar_labels l') (fun r => Ok (Two (abs_head l2) (option_map abs_head l1) :: r))
  | One _ :: _ => Err ValueError
  end.

(** ahkab/netlist_parser.py 1320-1353 (an analysis that cannot be plotted gets an
    error message only). *)
Definition parse_plot (toks : list str) : res pp :=
  match toks with
  | [] => Err IndexError
  | an :: ws =>
      bindr (split_label (join_blank ws)) (fun l =>
      bindr (if streqb an (lit "ac") then bar_labels l else Ok l) (fun l' => Ok (PPlot an l')))
  end.

(** [split_label(w)[0]]. *)
Definition first_label (w : str) : res lab :=
  bindr (split_label w) (fun l => match l with x :: _ => Ok x | [] => Err IndexError end).

(** ahkab/netlist_parser.py 1355-1368. *)
Fixpoint four_vars (ws : list str) : res (list lab) :=
  match ws with
  | [] => Ok []
  | w :: ws' =>
      if starred w then Ok []
      else bindr (first_label w) (fun l => bindr (four_vars ws') (fun r => Ok (l :: r)))
  end.
Definition parse_four (toks : list str) : res pp :=
  match toks with
  | [] => Err IndexError
  | f :: ws => bindr (convert_units f) (fun fund => bindr (four_vars ws) (fun vs => Ok (PFour fund vs)))
  end.

(** ahkab/netlist_parser.py 1369-1391.  The message about a parameter that is not
    known is built with [fpv[type]], where [type] is the built-in class: KeyError. *)
Fixpoint fft_loop (i : nat) (toks : list str) (params : list spec) (an : list (str * val)) : res (list spec * list (str * val)) :=
  match toks with
  | [] => Ok (params, an)
  | tok :: toks' =>
      if starred tok then Ok (params, an)
      else
        let '(lb, v) := label_value tok in
        match take_first (matches i lb) params with
        | None => Err KeyError
        | Some (t, rest) => bindr (convert v (s_type t)) (fun x => fft_loop (S i) toks' rest (dset streqb an (s_dest t) x))
        end
  end.
(** ahkab/netlist_parser.py 1392-1401. *)
Definition fft_params (toks : list str) : res (list (str * val)) :=
  bindr (fft_loop 0 toks fft_table []) (fun '(params, an) =>
    if existsb s_needed params then Err NetlistParseError
    else Ok (fold_left (fun a t => dset streqb a (s_dest t) (s_default t)) params an)).
(** ahkab/netlist_parser.py 1402-1405; the label is a string by the table. *)
Definition parse_fft (toks : list str) : res pp :=
  bindr (fft_params toks) (fun an =>
    match dget streqb an (lit "label") with
    | Some (VStr w) => bindr (first_label w) (fun l => Ok (PFft an l))
    | Some _ => Err AttributeError
    | None => Err KeyError
    end).

(** ahkab/netlist_parser.py 1317-1414: one line that starts with a dot (an error is
    reported and raised again). *)
Definition parse_pp (line : str) : res pp :=
  match split line with
  | [] => Err IndexError
  | d :: toks =>
      if streqb d (lit ".plot") then parse_plot toks
      else if streqb d (lit ".four") then parse_four toks
      else if streqb d (lit ".fft") then parse_fft toks
      else Err NetlistParseError
  end.
(** ahkab/netlist_parser.py 1311-1415. *)
Fixpoint parse_postproc (lines : list str) : res (list pp) :=
  match lines with
  | [] => Ok []
  | [] :: _ => Err IndexError
  | (c :: s) :: lines' =>
      if Ascii.eqb c c_dot then bindr (parse_pp (c :: s)) (fun p => bindr (parse_postproc lines') (fun r => Ok (p :: r)))
      else parse_postproc lines'
  end.

(** ** Curves *)
Open Scope R_scope.

(** A complex number, and the values of a variable. *)
Definition cpx := (R * R)%type.
Definition cabs (z : cpx) : cpx := (sqrt (fst z * fst z + snd z * snd z), 0).
Definition csub (z w : cpx) : cpx := (fst z - fst w, snd z - snd w).
Fixpoint dsub (a b : list cpx) : list cpx :=
  match a, b with x :: a', y :: b' => csub x y :: dsub a' b' | _, _ => [] end.

(** What is asked of a solution: the values ([res[label]]) and the units. *)
Record sol := mkSol { get : str -> res (list cpx); unit_of : str -> res str }.

Section Plot.
  (** [np.angle]. *)
  Variable angle : cpx -> cpx.

  Definition c_bar : ascii := "|"%char.
  (** [label[i:-1]]. *)
  Definition inner (i : nat) (label : str) : str := removelast (skipn i label).
  (** ahkab/plotting.py 161-172. *)
  Definition data_abs_arg_pass (r : sol) (label : str) : res (list cpx * str) :=
    match label with
    | [] => Err IndexError
    | c :: _ =>
        let last := List.last label c in
        if (Ascii.eqb c c_bar && Ascii.eqb last c_bar)%bool then
          bindr (get r (inner 1 label)) (fun d => bindr (unit_of r (inner 1 label)) (fun u => Ok (map cabs d, u)))
        else if (streqb (firstn 4 label) (lit "arg(") && Ascii.eqb last c_close)%bool then
          bindr (get r (inner 4 label)) (fun d => bindr (unit_of r (inner 4 label)) (fun u => Ok (map angle d, u)))
        else bindr (get r label) (fun d => bindr (unit_of r label) (fun u => Ok (d, u)))
    end.

  (** ahkab/plotting.py 211-228: the curves, with their labels and units.  A ValueError
      skips the curve; numpy refuses to subtract arrays of different lengths (the
      arrays of one solution have the same length). *)
  Definition curve := (str * list cpx * str)%type.
  Fixpoint plot_curves (r : sol) (l : list lab) : res (list curve) :=
    match l with
    | [] => Ok []
    | One _ :: _ => Err ValueError
    | Two y2 y1 :: l' =>
        let snd_part (d1 : option (list cpx)) (name : str) :=
          match data_abs_arg_pass r y2 with
          | Err ValueError => plot_curves r l'
          | Err e => Err e
          | Ok (d2, u) =>
              let d := match d1 with Some d1 => dsub d2 d1 | None => d2 end in
              bindr (plot_curves r l') (fun cs => Ok ((name, d, u) :: cs))
          end in
        match y1 with
        | None | Some [] => snd_part None y2
        | Some y =>
            match data_abs_arg_pass r y with
            | Err ValueError => plot_curves r l'
            | Err e => Err e
            | Ok (d1, _) => snd_part (Some d1) (y2 ++ lit "-" ++ y)%list
            end
        end
    end.
End Plot.

(** ** Running the post-processing *)
Inductive action : Type :=
| APlot (file : str) (analysis : str) (l : list lab)
| AFour (v : lab) (fund : Units.dec)
| AFft (args : list (str * val)) (label : lab) (file : str).

Section Process.
  (** The calls: [plotting.plot_results], [fourier.fourier] with
      [printing.print_fourier], and [fourier.spicefft] with [printing.print_spicefft].
      They may raise. *)
  Variable call : action -> option exn.
  (** The analyses that have been run, [options.plotting_outtype], the base name. *)
  Variable results : list str.
  Variable outtype : str.
  Variable outfile : str.

  Definition is_plot (p : pp) : bool := match p with PPlot _ _ => true | _ => false end.
  Definition to_stdout : bool := streqb outfile (lit "stdout").

  (** What one entry does: the calls in order, with the exception that is raised
      before a call ([results[...]] of an analysis that was not run). *)
  Definition plan (skip : bool) (i : nat) (p : pp) : list (option exn * action) :=
    let need (an : str) := if existsb (streqb an) results then None else Some KeyError in
    match p with
    | PPlot an l => if skip then [] else [(need an, APlot (outfile ++ lit "-" ++ Results.dec i ++ lit "." ++ outtype)%list an l)]
    | PFour fund vs => map (fun v => (need (lit "tran"), AFour v fund)) vs
    | PFft args l => [(need (lit "tran"), AFft args l (outfile ++ (if to_stdout then [] else lit ".lis"))%list)]
    end.

  (** The calls up to the first exception. *)
  Fixpoint perform (l : list (option exn * action)) : list action * option exn :=
    match l with
    | [] => ([], None)
    | (Some e, _) :: _ => ([], Some e)
    | (None, a) :: l' =>
        match call a with
        | Some e => ([a], Some e)
        | None => let '(done, e) := perform l' in (a :: done, e)
        end
    end.

  (** ahkab/ahkab.py 806-861. *)
  Definition process_postproc (l : list pp) : list action * option exn :=
    let skip := (to_stdout && existsb is_plot l)%bool in
    perform (concat (map (fun '(i, p) => plan skip i p) (combine (seq 0 (List.length l)) l))).
End Process.
