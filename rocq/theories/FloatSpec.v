(** What a user expects of the r grid and of the indices, in real numbers. *)
From Coq Require Import List ZArith Bool Reals.
From Flocq Require Import Core.Core IEEE754.BinarySingleNaN.
From Verif Require Import Base FloatModel.
Local Open Scope R_scope.

(** the real number a finite double stands for *)
Definition val (x : f64) : R := B2R x.
Definition fin (x : f64) : Prop := is_finite x = true.

(** the data sets a program can hold: made by alloc or by reading data, changed by
    any number of accepted pdfrange calls and calculations *)
Inductive reached : fset -> Prop :=
| re_alloc q a b n s : falloc q a b n = Ok s -> reached s
| re_arrays q r s : fread_arrays q r = Ok s -> reached s
| re_stream q r s : fread_stream q r = Ok s -> reached s
| re_range s a b s' : reached s -> frange s a b = Ok s' -> reached s'
| re_calc s s' c : reached s -> fdetermine s = Ok (s', c) -> reached s'.

(** width of the range, number of steps, and the step, exactly *)
Definition width (s : fset) : R := val (fs_rmax s) - val (fs_rmin s).
Definition steps (s : fset) : R := IZR (fs_bin s - 1).
Definition step (s : fset) : R := width s / steps s.
(** the k-th point, exactly *)
Definition point (s : fset) (k : Z) : R := val (fs_rmin s) + IZR k * step s.

(** the ends of the range are finite, different, far from the limits of the format,
    and the number of points is an int *)
Definition apart (s : fset) : Prop :=
  fin (fs_rmin s) /\ fin (fs_rmax s) /\
  Rabs (val (fs_rmin s)) <= bpow radix2 900 /\ Rabs (val (fs_rmax s)) <= bpow radix2 900 /\
  bpow radix2 (-900) <= width s /\ (fs_bin s <= 2147483647)%Z.
(** the step is not lost beside the values of r: both ends are at most 2^46 steps
    from zero *)
Definition resolved (s : fset) : Prop :=
  Rabs (val (fs_rmin s)) <= bpow radix2 46 * step s /\ Rabs (val (fs_rmax s)) <= bpow radix2 46 * step s.
(** at most 2^29 points, and rmin at most 2^29 steps from zero *)
Definition roomy (s : fset) : Prop :=
  (fs_bin s <= 536870912)%Z /\ Rabs (val (fs_rmin s)) <= bpow radix2 29 * step s.

(** the indices of the fit range: inside the data, at the nearest point, and at
    the two ends for the full range *)
Definition good_fit_range (s : fset) (a b : Z) : Prop :=
  findex s (fs_rfmin s) = Ok a /\ findex s (fs_rfmax s) = Ok b /\
  (0 <= a <= b)%Z /\ (b <= fs_bin s - 1)%Z /\
  (val (fs_rfmin s) = val (fs_rmin s) -> a = 0%Z) /\
  (val (fs_rfmax s) = val (fs_rmax s) -> b = fs_bin s - 1)%Z /\
  Rabs (val (fs_rfmin s) - point s a) <= (/ 2 + bpow radix2 (-16)) * step s /\
  Rabs (val (fs_rfmax s) - point s b) <= (/ 2 + bpow radix2 (-16)) * step s.

(** a grid point is finite, near its exact place, and is found again by the index *)
Definition good_point (s : fset) (k : Z) : Prop :=
  fin (fgrid s k) /\ findex s (fgrid s k) = Ok k /\
  Rabs (val (fgrid s k) - point s k) <= bpow radix2 (-50) * (Rabs (val (fs_rmin s)) + Rabs (val (fs_rmax s))).

(** arguments of one peak: a distance that is NaN or at most 2^29 steps from rmin,
    a width that is not negative (NaN and infinity included) *)
Definition peak_args (s : fset) (dist sigma : f64) : Prop :=
  (dist = B754_nan \/ fin dist /\ Rabs (val dist - val (fs_rmin s)) <= bpow radix2 29 * step s) /\
  flt sigma fzero = false.
(** termination ripples narrower than 2^29 steps *)
Definition ripples_ok (s : fset) : Prop :=
  fin (fs_qmax s) -> 0 < val (fs_qmax s) -> 38 / val (fs_qmax s) <= bpow radix2 29 * step s.

(** numbers a data file has *)
Definition usual (x : f64) : Prop := fin x /\ Rabs (val x) <= bpow radix2 20.
(** the mean step of a list of r values, exactly *)
Definition mean_step (r : list f64) : R :=
  (val (last r fzero) - val (hd fzero r)) / IZR (Z.of_nat (length r) - 1).
(** neighbours differ by the mean step, up to tol *)
Definition steps_within (tol : R) (r : list f64) : Prop :=
  forall i, (S i < length r)%nat -> Rabs (val (nth (S i) r fzero) - val (nth i r fzero) - mean_step r) <= tol.
(** the data set made of these r values, before any calculation *)
Definition placed (q : f64) (r : list f64) (s : fset) : Prop :=
  fs_rmin s = hd fzero r /\ fs_rmax s = last r fzero /\ fs_rfmin s = fs_rmin s /\ fs_rfmax s = fs_rmax s /\
  fs_bin s = Z.of_nat (length r) /\ fs_qmax s = q /\ fs_nfmin s = 0%Z.
