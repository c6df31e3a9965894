(** C65: the r grid and its indices in double arithmetic. *)
From Coq Require Import List ZArith Bool Reals Sorting.Sorted.
From Flocq Require Import Core.Core IEEE754.BinarySingleNaN.
From Verif Require Import Base PdfModel FloatModel FloatSpec FloatRead FloatFinal FloatEx.
Import ListNotations.
Local Open Scope R_scope.

(** The fit range of every reachable data set has indices inside the data, at the
    nearest points, and at the first and last point for the full range. *)
Theorem C65_fit_range : forall s, reached s -> apart s -> exists a b, good_fit_range s a b.
Proof. exact fit_range_all. Qed.
Print Assumptions C65_fit_range.
Example C65_fit_range_ex : exists s, reached s /\ good_fit_range s 4 16.
Proof. destruct ex_range as (s & _ & H). now exists s. Qed.

(** Every point of the grid is found again under its own index. *)
Theorem C65_grid : forall s k, reached s -> apart s -> resolved s -> (0 <= k < fs_bin s)%Z -> good_point s k.
Proof. exact grid_all. Qed.
Print Assumptions C65_grid.
Theorem C65_grid_order : forall s i j, reached s -> apart s -> resolved s -> (0 <= i < j)%Z -> (j < fs_bin s)%Z ->
  val (fgrid s i) < val (fgrid s j).
Proof. exact grid_order_all. Qed.
Print Assumptions C65_grid_order.
Example C65_grid_ex : reached ex_set /\ apart ex_set /\ resolved ex_set.
Proof. exact (conj ex_reached (conj ex_apart ex_resolved)). Qed.

(** A fit range given by two grid points before the last is accepted and has their indices. *)
Theorem C65_range_on_grid : forall s i j, reached s -> apart s -> resolved s -> (0 <= i < j)%Z -> (j < fs_bin s - 1)%Z ->
  exists s', frange s (fgrid s i) (fgrid s j) = Ok s' /\ findex s' (fs_rfmin s') = Ok i /\ findex s' (fs_rfmax s') = Ok j.
Proof. exact range_grid_all. Qed.
Print Assumptions C65_range_on_grid.

(** A calculation stores the indices of the fit range, extends them outwards, and each peak is
    written inside the extended range, for every distance, width and cutoff, NaN included. *)
Theorem C65_calc : forall s s' c, reached s -> apart s -> fdetermine s = Ok (s', c) ->
  good_fit_range s (fs_nfmin s') (fs_nfmax s') /\
  (0 <= fc_nmin c <= fs_nfmin s')%Z /\ (fs_nfmax s' <= fc_nmax c)%Z /\
  forall dist sigma stepcut ib ie, fpeak s' c dist sigma stepcut = Ok (ib, ie) ->
  exists l, fpeak_writes s' c dist sigma stepcut = Ok l /\ (forall i, In i l <-> (ib <= i <= ie)%Z) /\
  (forall i, In i l -> (fc_nmin c <= i <= fc_nmax c)%Z).
Proof. exact calc_all. Qed.
Print Assumptions C65_calc.
Example C65_calc_ex : exists s' c, fdetermine ex_set = Ok (s', c) /\ fs_nfmin s' = 0%Z /\ fs_nfmax s' = 25%Z /\
  (fc_nmin c, fc_nmax c) = (0%Z, 28%Z) /\ fpeak s' c (fofz 3) (flit 1 (-2)) fzero = Ok (3%Z, 8%Z).
Proof. exact ex_calc. Qed.

(** With at most 2^29 points and ripples of at most 2^29 steps no conversion is undefined. *)
Theorem C65_defined : forall s, reached s -> apart s -> roomy s -> ripples_ok s ->
  exists s' c, fdetermine s = Ok (s', c) /\
  forall dist sigma stepcut, peak_args s dist sigma -> exists l, fpeak_writes s' c dist sigma stepcut = Ok l.
Proof. exact no_undefined_all. Qed.
Print Assumptions C65_defined.
Example C65_defined_ex : roomy ex_set /\ ripples_ok ex_set /\
  peak_args ex_set (fofz 3) (flit 1 (-2)) /\ peak_args ex_set B754_nan B754_nan.
Proof. exact (conj ex_roomy (conj ex_ripples ex_peak_args)). Qed.

(** After a calculation getR lists the points of the fit range, strictly increasing. *)
Theorem C65_getr : forall s s' c, reached s -> apart s -> resolved s -> fdetermine s = Ok (s', c) -> (fs_nfmin s' < fs_nfmax s')%Z ->
  exists l, fget_r s' = Ok l /\ l = map (fgrid s') (zloop (fs_nfmin s') (fs_nfmax s')) /\
  Z.of_nat (length l) = (fs_nfmax s' - fs_nfmin s' + 1)%Z /\ StronglySorted (fun x y => val x < val y) l.
Proof. exact getr_calc. Qed.
Print Assumptions C65_getr.
(** Before one, or with a fit range of one point, it lists all points or all but the last. *)
Theorem C65_getr_fresh : forall s, reached s -> apart s -> fs_nfmin s = fs_nfmax s ->
  exists m, (m = fs_bin s \/ m = fs_bin s - 1)%Z /\ fget_r s = Ok (map (fgrid s) (zloop 0 (m - 1))).
Proof. exact getr_one. Qed.
Print Assumptions C65_getr_fresh.
(** The last point can indeed be missing. *)
Theorem C65_getr_refuted : exists q a b n s l, falloc q a b n = Ok s /\ apart s /\ resolved s /\
  fget_r s = Ok l /\ (Z.of_nat (length l) < n)%Z.
Proof.
  destruct ex_getr_short as (l & E & L). exists (fofz 25), (fofz 0), (fofz 14), 26%Z, ex_set, l.
  rewrite L. exact (conj ex_alloc (conj ex_apart (conj ex_resolved (conj E eq_refl)))).
Qed.
Print Assumptions C65_getr_refuted.
(** The last grid point can lie above rmax, and pdfrange then refuses the range of the grid. *)
Theorem C65_last_point_refuted : exists s, reached s /\ apart s /\ resolved s /\ good_point s (fs_bin s - 1) /\
  flt (fs_rmax s) (fgrid s (fs_bin s - 1)) = true /\
  frange s (fgrid s 0) (fgrid s (fs_bin s - 1)) = Err ErrValue.
Proof. exists ex_set. exact (conj ex_reached (conj ex_apart (conj ex_resolved ex_last_refused))). Qed.
Print Assumptions C65_last_point_refuted.
(** Accepted arguments of alloc can make the calculation convert a NaN or an oversized
    value to int: rmin = rmax, and a tiny positive qmax. *)
Theorem C65_defined_refuted : exists s1 s2, reached s1 /\ reached s2 /\
  fs_rmin s1 = fs_rmax s1 /\ apart s2 /\ roomy s2 /\ fdetermine s1 = UB /\ fdetermine s2 = UB.
Proof.
  exact ex_undefined.
Qed.
Print Assumptions C65_defined_refuted.
(** Which r values are read: neighbours that differ by the mean step, to one thousandth; the
    data set then starts and ends with them.  A single value is taken by read_data_lists
    only, and an empty list is not looked at there. *)
Theorem C65_read : forall q r,
  (r = [] -> fread_arrays q r = UB /\ fread_stream q r = Err ErrData) /\
  (length r = 1%nat -> (exists s, fread_arrays q r = Ok s /\ placed q r s /\ fs_nfmax s = 0%Z) /\ fread_stream q r = Err ErrData) /\
  ((2 <= length r)%nat -> Forall usual r -> (Z.of_nat (length r) <= 2147483648)%Z ->
     ((exists s1 s2, fread_arrays q r = Ok s1 /\ fread_stream q r = Ok s2 /\ placed q r s1 /\ placed q r s2 /\ fs_nfmax s1 = 0%Z /\ fs_nfmax s2 = (fs_bin s2 - 1)%Z) \/
      (fread_arrays q r = Err ErrData /\ fread_stream q r = Err ErrData)) /\
     (forall s, fread_arrays q r = Ok s \/ fread_stream q r = Ok s -> steps_within (/ 1000 + bpow radix2 (-28)) r) /\
     (steps_within (/ 1000 - bpow radix2 (-28)) r -> exists s, fread_arrays q r = Ok s)).
Proof. exact read_lists. Qed.
Print Assumptions C65_read.
Example C65_read_ex : Forall usual ex_r /\ steps_within (/ 1000 - bpow radix2 (-28)) ex_r /\ Forall usual ex_bad /\ ~ steps_within (/ 1000 + bpow radix2 (-28)) ex_bad.
Proof. exact ex_read. Qed.
(** read_data_lists takes an array of r values with NaN inside. *)
Theorem C65_regular_refuted : exists q r s, fread_arrays q r = Ok s /\ In B754_nan r.
Proof.
  destruct ex_nan as (s & E). exists (fofz 25), [fofz 1; B754_nan; fofz 3], s. split; [exact E|right; left; reflexivity].
Qed.
Print Assumptions C65_regular_refuted.
