(** Model of the Fourier analysis of the .FOUR directive: ahkab/fourier.py 141-213
    ([fourier]) and ahkab/printing.py 328-378 ([print_fourier]).  Real arithmetic is
    exact; the interpolation of the data is an oracle. *)
From Coq Require Import Ascii String List Bool Arith ZArith Reals.
From Verif Require Import Base Str Rsum Newton Postproc.
Import ListNotations.
Open Scope R_scope.

(** ahkab/fourier.py 184-193: the data of a label (a tuple; [None] as second entry). *)
Fixpoint rsub (a b : list R) : list R := match a, b with x :: a', y :: b' => (x - y) :: rsub a' b' | _, _ => [] end.
Definition four_data (get : str -> res (list R)) (l : lab) : res (list R) :=
  match l with
  | One l2 | Two l2 None => get l2
  | Two l2 (Some l1) => bindr (get l2) (fun d2 => bindr (get l1) (fun d1 => Ok (rsub d2 d1)))
  end.

(** ahkab/fourier.py 194-198: the number of periods; [//] of floats is the floor of the
    quotient.  [ps[-1]] of an empty list fails. *)
Definition floordiv (x y : R) : Z := Int_part (x / y).
Definition periods (tstart tstop fund : R) : res Z :=
  let ps := filter (fun k => (0 <? k)%Z) (map (fun i => floordiv (tstop - tstart) (IZR i / fund)) [1; 3; 5; 7; 9]%Z) in
  match rev ps with [] => Err IndexError | k :: _ => Ok k end.

(** [l[::m]]. *)
Fixpoint stride {A : Type} (fuel m : nat) (l : list A) : list A :=
  match fuel, l with
  | S fuel', x :: l' => x :: stride fuel' m (skipn (m - 1) l')
  | _, _ => []
  end.

(** [numpy.fft.fftfreq(n, d)] and [numpy.fft.rfft] of [n] samples. *)
Definition fftfreq (n : nat) (d : R) : list R :=
  map (fun k => (if (k <? (n + 1) / 2)%nat then INR k else INR k - INR n) / (INR n * d)) (seq 0 n).
Definition dft (n : nat) (x : nat -> R) (m : nat) : cpx :=
  (rsum n (fun s => x s * cos (2 * PI * INR m * INR s / INR n)), - rsum n (fun s => x s * sin (2 * PI * INR m * INR s / INR n))).
Definition rfft (n : nat) (x : nat -> R) : list cpx := map (dft n x) (seq 0 (n / 2 + 1)).

Definition cnorm2 (z : cpx) : R := fst z * fst z + snd z * snd z.
Definition cmod (z : cpx) : R := sqrt (cnorm2 z).

(** ahkab/fourier.py 212: the division by a vanishing fundamental gives inf or nan. *)
Definition thd_of (F : list cpx) : res R :=
  match F with
  | _ :: F1 :: F2 => Ok (sqrt (fold_right Rplus 0 (map cnorm2 F2)) / cmod F1)
  | _ => Err IndexError
  end.

(** ahkab/fourier.py 199-213.  [idata] is the interpolated signal.  [slices] says
    whether a float is accepted as a slice index and as a number of points (see
    [Fourier.spectrum]); the frequencies, the lines and the THD. *)
Definition fourier (slices : bool) (idata : R -> R) (tstart tstop fund : R) : res (list R * list cpx * R) :=
  bindr (periods tstart tstop fund) (fun k =>
  if negb slices then Err TypeError
  else
    let nperiods := Z.to_nat k in
    let start := tstop - IZR k / fund in
    let sampling := 1 / (2 * 10 * fund) in
    let n := Z.to_nat (floordiv (tstop - start) sampling) in
    let x := fun s => idata (start + INR s * ((tstop - start) / INR n)) in
    let f := stride n nperiods (fftfreq n sampling) in
    let F := stride n nperiods (removelast (rfft n x)) in
    let f := firstn (List.length f / 2) f in
    bindr (thd_of F) (fun thd => Ok (f, F, thd))).

(** ** [print_fourier] *)

(** [np.argmax]: the place of the first largest value. *)
Fixpoint argmax_from (k best : nat) (v : R) (l : list R) : nat :=
  match l with
  | [] => best
  | x :: l' => if Rlt_b v x then argmax_from (S k) k x l' else argmax_from (S k) best v l'
  end.
Definition argmax (l : list R) : nat := match l with [] => O | x :: l' => argmax_from 1 0 x l' end.

(** The DC component, the line taken as reference, and the rows of the table: number,
    frequency, magnitude, normalized magnitude (ahkab/printing.py 358-374; the phases
    and the layout are left out). *)
Record fourier_table := mkTable { ft_dc : R; ft_ref : nat; ft_rows : list (nat * R * R * R) }.
Definition print_fourier (f : list R) (F : list cpx) : fourier_table :=
  let mags := map cmod F in
  let i := argmax mags in
  let ref_amplitude := nth i mags 0 in
  mkTable (fst (nth 0 F (0, 0))) i
    (map (fun j => (j, nth j f 0, nth j mags 0, nth j mags 0 / ref_amplitude)) (seq 1 (List.length F - 1))).
