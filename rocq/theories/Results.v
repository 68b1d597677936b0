(** Model of the solution objects: ahkab/results.py 118-1337 (time stamps, titles,
    tables and the symbolic solution are left out). *)
From Coq Require Import Ascii String Reals List Bool Arith DecimalString.
From Verif Require Import Base Str Csv Rsum Newton Mna.
Import ListNotations.

(** [str.upper] membership and [list.index] on upper-case names. *)
Definition upper_mem (l : list str) (name : str) : bool := existsb (fun v => streqb (supper v) (supper name)) l.

(** ** Dictionaries with case-insensitive keys *)

(** ahkab/results.py 1267-1337 [case_insensitive_dict]: the entries live in a plain
    dictionary.  1329-1332 [update]: exact keys. *)
Definition cid (V : Type) := list (str * V).
Definition cid_update {V} (d : cid V) (k : str) (v : V) : cid V := dset streqb d k v.
(** ahkab/results.py 1288-1295 [__getitem__] ([get] with a default): the first key
    that is equal in upper case. *)
Fixpoint cid_get {V} (d : cid V) (name : str) : res V :=
  match d with
  | [] => Err KeyError
  | (k, v) :: d' => if streqb (supper k) (supper name) then Ok v else cid_get d' name
  end.
(** ahkab/results.py 1309-1317 [has_key], [__contains__]. *)
Definition cid_mem {V} (d : cid V) (name : str) : bool := upper_mem (map fst d) name.

(** ** Names of the variables *)

(** [nodes]: the external names of the nodes 1, 2, ... ([circ.nodes_dict]); [ids]:
    the ids of the voltage-defined elements in circuit order. *)
Definition vname (n : str) : str := "V"%char :: n.
Definition iname (id : str) : str := lit "I(" ++ supper id ++ lit ")".

(** ahkab/results.py 278-295 (operating point). *)
Definition op_vars (nodes ids : list str) : list str :=
  map (fun n => supper (vname n)) nodes ++ map (fun id => supper (iname id)) ids.
(** ahkab/results.py 740-758 (DC sweep). *)
Definition dc_vars (sweepvar : str) (nodes ids : list str) : list str :=
  sweepvar :: map vname nodes ++ map iname ids.
(** ahkab/results.py 813-827 (transient). *)
Definition tran_vars (nodes ids : list str) : list str := lit "T" :: op_vars nodes ids.
(** ahkab/results.py 885-899 (PSS). *)
Definition pss_vars (nodes ids : list str) : list str := lit "T" :: map vname nodes ++ map iname ids.
(** ahkab/results.py 582-602 (AC), variables and headers of the data file. *)
Definition ac_vars (nodes ids : list str) : list str := lit "f" :: map vname nodes ++ map iname ids.
Definition abs_head (v : str) : str := lit "|" ++ v ++ lit "|".
Definition arg_head (v : str) : str := lit "arg(" ++ v ++ lit ")".
Definition ac_headers (nodes ids : list str) : list str :=
  lit "f" :: flat_map (fun v => [abs_head v; arg_head v]) (map vname nodes ++ map iname ids).

(** ** Looking a variable up *)

(** ahkab/results.py 307-312 (operating point): [self.x[his]] has one row. *)
Definition op_getitem {V} (d : V) (vars : list str) (x : list V) (name : str) : res V :=
  if upper_mem vars name then
    match find_header vars name 0 with
    | Some k => match nth_error x k with Some v => Ok v | None => Err IndexError end
    | None => Ok d
    end
  else Err KeyError.

(** ahkab/results.py 178-186 (DC, transient, PSS): the data come from the file. *)
Definition sol_getitem {V} (d : V) (file : list (line V)) (name : str) : res (list V) :=
  match load_csv d file [name] None 0 with
  | Ok (data, _, _, _) => Ok (concat data)
  | Err ValueError => Err KeyError
  | Err e => Err e
  end.

(** ahkab/results.py 666-685 (AC): the frequencies, or magnitudes and phases, which
    the caller gets as [magnitude * exp(j * phase)]. *)
Inductive acval (V : Type) := AcReal (l : list V) | AcPolar (mag phase : list V).
Arguments AcReal {V}. Arguments AcPolar {V}.
Definition ac_getitem {V} (d : V) (file : list (line V)) (name : str) : res (acval V) :=
  let hs := if streqb (supper name) (lit "F") then [name] else [abs_head name; arg_head name] in
  match load_csv d file hs None 0 with
  | Ok (data, got, _, _) =>
      if length got =? 2 then Ok (AcPolar (nth 0 data []) (nth 1 data [])) else Ok (AcReal (concat data))
  | Err ValueError => Err KeyError
  | Err e => Err e
  end.

Open Scope R_scope.

(** ahkab/results.py 616-624 [add_line]: what is stored for one complex value.
    [angle] is [numpy.angle] in radians. *)
Definition ac_store (angle : R * R -> R) (in_deg : bool) (z : R * R) : R * R :=
  (sqrt (fst z * fst z + snd z * snd z), if in_deg then angle z * 180 / PI else angle z).
(** ahkab/results.py 682: [data[0] * exp(1j*data[1])]. *)
Definition ac_read (m : R * R) : R * R := (fst m * cos (snd m), fst m * sin (snd m)).

(** ** Operating points *)

(** ahkab/results.py 262-297: variables, values and units. *)
Record op_sol := mkOp { op_variables : list str; op_results : cid R; op_units : cid str }.
Definition op_new (nodes ids : list str) (x : vec) : op_sol :=
  let vars := op_vars nodes ids in
  let nv_1 := length nodes in
  let step := fun (s : cid R * cid str) (vk : str * nat) =>
    (cid_update (fst s) (fst vk) (x (snd vk)),
     cid_update (snd s) (fst vk) (if (snd vk <? nv_1)%nat then lit "V" else lit "A")) in
  let s := fold_left step (combine vars (seq 0 (length vars))) ([], []) in
  mkOp vars (fst s) (snd s).

Section Gmin.
  (** ahkab/options.py: tolerances. *)
  Variables vea ver iea ier : R.
  (** ahkab/results.py 493-523 [gmin_check]. *)
  Fixpoint gmin_loop (op2 op1 : op_sol) (vars : list str) : res (list str) :=
    match vars with
    | [] => Ok []
    | v :: vars' =>
        bindr (cid_get (op_results op2) v) (fun b =>
        bindr (cid_get (op_results op1) v) (fun a =>
        bindr (cid_get (op_units op1) v) (fun u =>
        let abserr := Rabs (b - a) in
        let over := if streqb u (lit "V") then Rlt_b (ver * Rmax (Rabs a) (Rabs b) + vea) abserr
                    else if streqb u (lit "A") then Rlt_b (ier * Rmax (Rabs a) (Rabs b) + iea) abserr
                    else false in
        bindr (gmin_loop op2 op1 vars') (fun l => Ok (if over then v :: l else l)))))
    end.
  Definition gmin_check (op2 op1 : op_sol) : res (list str) := gmin_loop op2 op1 (op_variables op1).
End Gmin.

(** ** Total power *)

(** [x] is the reduced vector of the solution: nodes 1, 2, ... then the currents. *)
Definition node_v (x : vec) (n : nat) : R := if (n =? 0)%nat then 0 else x (n - 1)%nat.
(** [v = 0; v = v + x[a-1] if c != 0 else v; v = v - x[b-1] if d != 0 else v]. *)
Definition guarded_v (x : vec) (a c b d : nat) : R :=
  (if (c =? 0)%nat then 0 else x (a - 1)%nat) - (if (d =? 0)%nat then 0 else x (b - 1)%nat).

(** ahkab/results.py 410-421: the number of the independent voltage source with the
    id [src] among the voltage-defined elements. *)
Fixpoint find_vsource (es : list lelem) (src : string) (k : nat) : res nat :=
  match es with
  | [] => Err RuntimeError
  | e :: es' =>
      if is_vde e then
        match e with
        | EV id _ _ _ _ => if String.eqb (lower id) (lower src) then Ok k else find_vsource es' src (S k)
        | _ => find_vsource es' src (S k)
        end
      else find_vsource es' src k
  end.

(** ahkab/results.py 339-439 [_get_elements_op], the total power only.  [nv_1]
    counts the nodes without ground, [ii] is [i_index].  An index that is not
    negative is supposed to be in range. *)
Fixpoint power_loop (nv_1 : nat) (all es : list lelem) (x : vec) (ii : nat) (p : R) : res R :=
  match es with
  | [] => Ok p
  | e :: es' =>
      match e with
      | EG _ n1 n2 s1 s2 a =>
          power_loop nv_1 all es' x ii (p - guarded_v x n1 n1 n2 n2 * guarded_v x n1 s1 n2 s2 * a)
      | EI _ n1 n2 dc _ => power_loop nv_1 all es' x ii (p - guarded_v x n1 n1 n2 n2 * dc)
      | EV _ n1 n2 _ _ | EE _ n1 n2 _ _ _ =>
          power_loop nv_1 all es' x (S ii) (p - guarded_v x n1 n1 n2 n2 * x (nv_1 + ii)%nat)
      | EF _ n1 n2 src a =>
          bindr (find_vsource all src 0) (fun j =>
          power_loop nv_1 all es' x ii (p - guarded_v x n1 n1 n2 n2 * a * x (nv_1 + j)%nat))
      | EH id _ _ src a =>
          match vde_index all src with
          | Err _ => Err RuntimeError
          | Ok j =>
              bindr (vde_index all id) (fun j2 =>
              power_loop nv_1 all es' x ii (p - a * x (nv_1 + j)%nat * x (nv_1 + j2)%nat))
          end
      | EL _ _ _ _ => power_loop nv_1 all es' x (S ii) p
      | ER _ _ _ _ | EC _ _ _ _ | EK _ _ _ _ _ | ENL _ _ _ => power_loop nv_1 all es' x ii p
      end
  end.
Definition tot_power (nv_1 : nat) (es : list lelem) (x : vec) : res R := power_loop nv_1 es es x 0 0.

(** ** Pole-zero results *)

(** [%d]. *)
Definition dec (n : nat) : str := lit (NilEmpty.string_of_uint (Nat.to_uint n)).

(** ahkab/results.py 1173-1200: [self.data] is only set when there are zeros.
    [poles] and [zeros] are already sorted; the data file is left out. *)
Record pz_sol (V : Type) := mkPz { pz_vars : list str; pz_data : option (cid V) }.
Arguments mkPz {V}. Arguments pz_vars {V}. Arguments pz_data {V}.
Definition pz_new {V} (poles zeros : list V) : pz_sol V :=
  let pv := map (fun i => "p"%char :: dec i) (seq 0 (length poles)) in
  let zv := map (fun i => "z"%char :: dec i) (seq 0 (length zeros)) in
  let vars := pv ++ zv in
  mkPz vars
    (match zeros with
     | [] => None
     | _ => Some (fold_left (fun d kv => cid_update d (fst kv) (snd kv)) (combine vars (poles ++ zeros)) [])
     end).
(** ahkab/results.py 1214-1218 [__getitem__]. *)
Definition pz_getitem {V} (s : pz_sol V) (name : str) : res V :=
  match pz_data s with
  | None => Err AttributeError
  | Some d => if cid_mem d name then cid_get d name else Err KeyError
  end.
