(** Model of the first half of [parse_circuit], ahkab/netlist_parser.py 145-244: the
    physical lines of the netlist and of the included files are joined, stripped,
    put in lower case and sorted into groups.  Also 319-327
    ([get_next_file_and_close_current]) and 1794-1812 ([parse_include_directive]).

    A file is the list of its lines without the newlines (every line ends with one);
    the file system is a function from paths to files.  Paths are compared as they
    are, i.e. the file system is case sensitive. *)
From Coq Require Import Ascii String List Bool Arith.
From Verif Require Import Base Str Lines.
Import ListNotations.
Open Scope nat_scope.

Definition numbered := (str * nat)%type.

(** The local variables of [parse_circuit], 172-181 (the circuit's title is one of
    them here); [r_files] are the paths in [file_list] that are still to be opened. *)
Record rstate := mkR {
  r_title : str; r_dirs : list numbered; r_models : list numbered; r_post : list numbered;
  r_subs : list (list numbered); r_lines : list numbered; r_cur : list numbered; r_within : bool;
  r_n : nat; r_files : list str }.

Definition r_init : rstate := mkR [] [] [] [] [] [] [] false 0 [].

Definition at_line (s : rstate) (n : nat) : rstate :=
  mkR (r_title s) (r_dirs s) (r_models s) (r_post s) (r_subs s) (r_lines s) (r_cur s) (r_within s) n (r_files s).
Definition with_title (s : rstate) (t : str) : rstate :=
  mkR t (r_dirs s) (r_models s) (r_post s) (r_subs s) (r_lines s) (r_cur s) (r_within s) (r_n s) (r_files s).
Definition add_dir (s : rstate) (l : numbered) : rstate :=
  mkR (r_title s) (r_dirs s ++ [l]) (r_models s) (r_post s) (r_subs s) (r_lines s) (r_cur s) (r_within s) (r_n s) (r_files s).
Definition add_model (s : rstate) (l : numbered) : rstate :=
  mkR (r_title s) (r_dirs s) (r_models s ++ [l]) (r_post s) (r_subs s) (r_lines s) (r_cur s) (r_within s) (r_n s) (r_files s).
Definition add_post (s : rstate) (l : numbered) : rstate :=
  mkR (r_title s) (r_dirs s) (r_models s) (r_post s ++ [l]) (r_subs s) (r_lines s) (r_cur s) (r_within s) (r_n s) (r_files s).
Definition add_line (s : rstate) (l : numbered) : rstate :=
  mkR (r_title s) (r_dirs s) (r_models s) (r_post s) (r_subs s) (r_lines s ++ [l]) (r_cur s) (r_within s) (r_n s) (r_files s).
Definition add_cur (s : rstate) (l : numbered) : rstate :=
  mkR (r_title s) (r_dirs s) (r_models s) (r_post s) (r_subs s) (r_lines s) (r_cur s ++ [l]) (r_within s) (r_n s) (r_files s).
Definition open_sub (s : rstate) (l : numbered) : rstate :=
  mkR (r_title s) (r_dirs s) (r_models s) (r_post s) (r_subs s) (r_lines s) (r_cur s ++ [l]) true (r_n s) (r_files s).
Definition close_sub (s : rstate) : rstate :=
  mkR (r_title s) (r_dirs s) (r_models s) (r_post s) (r_subs s ++ [r_cur s]) (r_lines s) [] false (r_n s) (r_files s).
Definition add_file (s : rstate) (p : str) : rstate :=
  mkR (r_title s) (r_dirs s) (r_models s) (r_post s) (r_subs s) (r_lines s) (r_cur s) (r_within s) (r_n s) (r_files s ++ [p]).
Definition with_files (s : rstate) (l : list str) : rstate :=
  mkR (r_title s) (r_dirs s) (r_models s) (r_post s) (r_subs s) (r_lines s) (r_cur s) (r_within s) (r_n s) l.

Definition c_slash : ascii := "/"%char.
Definition c_comment : ascii := "*"%char.
Definition c_point : ascii := "."%char.
Definition first_is (c : ascii) (s : str) : bool := match s with x :: _ => if ascii_dec x c then true else false | [] => false end.

(** [os.path.join(wd, path)] (POSIX). *)
Definition path_join (wd path : str) : str :=
  if first_is c_slash path then path
  else match wd with [] => path | _ => if first_is c_slash (rev wd) then wd ++ path else wd ++ c_slash :: path end.

(** The directory part of [os.path.split(filename)] (POSIX): up to the last slash,
    without trailing slashes unless it is made of slashes only. *)
Fixpoint drop_while (p : ascii -> bool) (s : str) : str := match s with c :: s' => if p c then drop_while p s' else s | [] => [] end.
Definition is_slash (c : ascii) : bool := if ascii_dec c c_slash then true else false.
Definition path_dir (f : str) : str :=
  let d := drop_while (fun c => negb (is_slash c)) (rev f) in
  match drop_while is_slash d with [] => rev d | d' => rev d' end.

Section Files.
  Variable fs : str -> option (list str).

  (** 1794-1812; [utilities.check_file] (utilities.py 157-177) raises IOError if there is no
      such file; it never returns False, so the RuntimeError of 1807-1809 is never raised. *)
  Definition parse_include (wd line : str) : res str :=
    match split line with
    | _ :: path :: rest =>
        match rest with
        | c :: _ => if first_is c_comment c then
                      let p := path_join wd path in match fs p with Some _ => Ok p | None => Err IOError end
                    else Err NetlistParseError
        | [] => let p := path_join wd path in match fs p with Some _ => Ok p | None => Err IOError end
        end
    | _ => Err NetlistParseError
    end.

  (** 202-240 on one joined line, not empty; the flag tells that the file ends here. *)
  Definition take_line (wd : str) (s : rstate) (line : str) : res (rstate * bool) :=
    if first_is c_comment line then Ok (s, false)
    else if first_is c_point line then
      let key := hd [] (split line) in
      let l := (line, r_n s) in
      if streqb key (lit ".subckt") then if r_within s then Err NetlistParseError else Ok (open_sub s l, false)
      else if streqb key (lit ".ends") then if r_within s then Ok (close_sub s, false) else Err NetlistParseError
      else if streqb key (lit ".include") then bindr (parse_include wd line) (fun p => Ok (add_file s p, false))
      else if streqb key (lit ".end") then Ok (s, true)
      else if streqb key (lit ".plot") then Ok (add_post s l, false)
      else if streqb key (lit ".four") then Ok (add_post s l, false)
      else if streqb key (lit ".fft") then Ok (add_post s l, false)
      else if streqb key (lit ".model") then Ok (add_model s l, false)
      else Ok (add_dir s l, false)
    else if r_within s then Ok (add_cur s (line, r_n s), false)
    else Ok (add_line s (line, r_n s), false).

  (** 185-240, the inner loop.  Every turn takes at least one line, so the number of
      lines is fuel enough. *)
  Fixpoint read_file (fuel : nat) (wd : str) (s : rstate) (fp : list str) : res rstate :=
    match fuel, fp with
    | _, [] => Ok s
    | 0, _ => Err OutOfFuel
    | S fuel, l :: fp' =>
        let s := at_line s (S (r_n s)) in
        let line := slower (strip l) in
        if r_n s =? 1 then read_file fuel wd (with_title s line) fp'
        else match line with
             | [] => read_file fuel wd s fp'
             | _ =>
                 let '(line, fp2) := join_lines fp' line in
                 bindr (take_line wd s line) (fun '(s', stop) => if stop then Ok s' else read_file fuel wd s' fp2)
             end
    end.

  (** 184-246, the outer loop: one file after the other.  A file that includes itself
      never ends, hence the fuel. *)
  Fixpoint read_files (fuel : nat) (wd : str) (s : rstate) (fp : list str) : res rstate :=
    match fuel with
    | 0 => Err OutOfFuel
    | S fuel =>
        bindr (read_file (List.length fp) wd s fp) (fun s' =>
          if r_within s' then Err NetlistParseError
          else match r_files s' with
               | [] => Ok s'
               | p :: ps => match fs p with Some fp' => read_files fuel wd (with_files s' ps) fp' | None => Err IOError end
               end)
    end.

  (** 161-171 and the loop, for a netlist in a file.  [open] fails with an OSError if
      there is none. *)
  Definition read_netlist (fuel : nat) (filename : str) : res rstate :=
    match fs filename with
    | None => Err IOError
    | Some fp => read_files fuel (path_dir filename) r_init fp
    end.

  (** The same with the netlist on the standard input, 163-167: each line gets one more
      newline.  [os.path.split(None)] raises TypeError (ahkab.py 919-921 passes on the
      [None] that means the standard input). *)
  Definition stdin_lines (fp : list str) : list str := flat_map (fun l => [l; []]) fp.
  Definition read_stdin (fuel : nat) (filename : option str) (fp : list str) : res rstate :=
    match filename with
    | None => Err TypeError
    | Some f => read_files fuel (path_dir f) r_init (stdin_lines fp)
    end.
End Files.
