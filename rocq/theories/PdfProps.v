(** Properties of the PDF calculation: C23, C24, C42, C43, C49, C56. *)
From Coq Require Import List Arith ZArith Reals Lra Lia Bool.
From Verif Require SessSpec.
From Verif Require Import Base RSum MathModel MetricModel MetricSpec SphereSpec PdfModel PdfSpec PdfSum PdfFft PdfEx PdfFinal.
Import ListNotations.
Local Open Scope R_scope.

(** ** C23: pairs *)
(** the loop over i <= j, off-diagonal pairs twice, with the skipping rule, is
    the sum over all ordered pairs that count *)
Theorem C23_half_loop :
  forall n igni ignj (f : nat -> nat -> R), (forall i j, (i < n)%nat -> (j < n)%nat -> f i j = f j i) ->
  lsum (fun ij : nat * nat => let (i, j) := ij in
          if skip_pair igni ignj i j then 0 else (if (i =? j)%nat then 1 else 2) * f i j) (half_loop n) =
  rsum n (fun i => rsum n (fun j => if counted igni ignj i j then f i j else 0)).
Proof. exact half_counted. Qed.
Print Assumptions C23_half_loop.

(** the rule is symmetric, counts every pair when nothing is excluded, nothing
    when one side excludes every atom, and follows the plain reading when both
    sides exclude the same atoms *)
Theorem C23_rule :
  forall igni ignj i j,
  (skip_pair igni ignj i j = true <-> (igni i = true \/ ignj j = true) /\ (igni j = true \/ ignj i = true)) /\
  skip_pair igni ignj i j = skip_pair igni ignj j i /\
  ((forall k, igni k = false) -> (forall k, ignj k = false) -> skip_pair igni ignj i j = false) /\
  ((forall k, igni k = true) \/ (forall k, ignj k = true) -> skip_pair igni ignj i j = true) /\
  ((forall k, igni k = ignj k) -> skip_pair igni ignj i j = igni i || igni j).
Proof. exact skip_rule. Qed.
Print Assumptions C23_rule.

(** the factor of the baseline is the share of the counted ordered pairs *)
Theorem C23_share :
  forall d p igni ignj, mean_sf d p <> 0 -> occ_sum p <> 0 -> rsum (natoms p) (fun i => at_sf (atom_no p i) (cd_type d)) <> 0 ->
  pair_norm igni ignj (weights (cd_type d) (occ_sum p) (cp_atoms p)) = Some (counted_share d p igni ignj).
Proof. exact share_ok. Qed.
Print Assumptions C23_share.

(** leaving out a site that is empty changes the PDF *)
Theorem C23_empty_site_refuted :
  exists d p de igni f0 t t', good_grid d /\ phase_lattice p = Ok de /\
  (forall i, igni i = true -> at_occ (atom_no p i) = 0) /\
  (forall fuel, (f0 <= fuel)%nat -> determine fuel d [Some (mkEnt p de (fun _ => false) (fun _ => false))] = Ok (2%Z, 3%Z, t)) /\
  (forall fuel, (f0 <= fuel)%nat -> determine fuel d [Some (mkEnt p de igni igni)] = Ok (2%Z, 3%Z, t')) /\
  el t 2 <> el t' 2.
Proof. exact empty_site_wit. Qed.
Print Assumptions C23_empty_site_refuted.

Example C23_case :
  lsum (fun ij : nat * nat => let (i, j) := ij in
          if skip_pair (fun i => (i =? 0)%nat) (fun j => (j =? 2)%nat) i j then 0 else (if (i =? j)%nat then 1 else 2) * (1 + INR i * INR j)) (half_loop 3) = 1 + 1 + (1 + 1) + 1 + 1 + (1 + 2) + (1 + 2).
Proof. cbn. lra. Qed.

(** ** C24: ranges *)
(** with a positive step, a fit range inside the data and any phases with an
    accepted cell, the calculation ends without an access outside the arrays, the
    ranges are ordered, and only calculated points are written *)
Theorem C24_ranges :
  forall d psel, good_grid d -> good_filter d -> (forall e, In e (selected_entries psel) -> cell_ok e) ->
  exists lo hi f1 f2 f0, point_ranges d lo hi f1 f2 /\ (forall n, (0 <= n)%Z -> cd_rfmax d <= grid d n -> (f2 <= n)%Z) /\
  forall fuel, (f0 <= fuel)%nat -> exists t, determine fuel d psel = Ok (f1, f2, t) /\ length t = Z.to_nat (hi + 1) /\ forall g, (0 <= g < lo)%Z -> el t g = Some 0.
Proof. exact ranges_any. Qed.
Print Assumptions C24_ranges.

(** the same for a whole calculation over all data sets, with the number of
    fitted points *)
Theorem C24_all_sets :
  forall ph, Forall calculable ph -> forall sets, Forall (fun s => good_grid (cs_data s) /\ good_filter (cs_data s)) sets ->
  exists f0, forall fuel, (f0 <= fuel)%nat -> exists ph' n r, fit_theory fuel ph sets = Ok (ph', n, r) /\
  Forall2 (fun s x => let '(f1, f2, t) := x in exists lo hi, point_ranges (cs_data s) lo hi f1 f2 /\ length t = Z.to_nat (hi + 1)) sets r /\
  n = fold_right (fun x s => (snd (fst x) - fst (fst x) + 1 + s)%Z) 0%Z r.
Proof. exact fit_theory_ok. Qed.
Print Assumptions C24_all_sets.

(** a step of zero is not caught: the index computation converts an infinite or
    undefined quotient to int *)
Theorem C24_zero_step :
  forall d psel fuel, cd_deltar d = 0 -> determine fuel d psel = UB.
Proof. exact zero_step. Qed.
Print Assumptions C24_zero_step.

(** alloc accepts rmin = rmax, which gives that step; pdf.cc:79-82 sets the fit
    range to the data range and deltar to (rmax - rmin)/(bin - 1) *)
Theorem C24_alloc_refuted :
  exists qmax qdamp rmin rmax bin, SessSpec.alloc_args qmax qdamp rmin rmax bin /\
  forall psel fuel tp, determine fuel (mkCd rmin rmin rmax ((rmax - rmin) / (IZR bin - 1)) qmax qdamp 0 1 tp) psel = UB.
Proof. exact alloc_wit. Qed.
Print Assumptions C24_alloc_refuted.

Example C24_case : exists de, good_grid qdata /\ good_filter qdata /\ 0 < cd_qmax qdata /\ cell_ok (ent (two (9 / 10) (1 / 10)) de) /\
  calculable (two (23 / 10) (- (1 / 10))).
Proof. exact ranges_case. Qed.

(** ** C42: the Qmax cutoff *)
Theorem C42_filter :
  forall qmax deltar y, 0 < qmax -> 0 < deltar -> (1 <= length y)%nat -> 4 * qmax * deltar * INR (length y) <= 1000000000 ->
  exists out, cutoff_fin qmax deltar y = Ok out /\ filtered qmax deltar y out.
Proof. exact cutoff_ok. Qed.
Print Assumptions C42_filter.

(** the padded length and the result are determined *)
Theorem C42_determined :
  (forall n P Q, is_pad n P -> is_pad n Q -> P = Q) /\
  (forall qmax deltar y o o', filtered qmax deltar y o -> filtered qmax deltar y o' -> o = o').
Proof. exact (conj pad_unique filtered_unique). Qed.
Print Assumptions C42_determined.

(** frequency k is treated as P - k *)
Theorem C42_symmetric :
  forall qmax deltar P k, (k <= P)%nat -> (kept qmax deltar P k <-> kept qmax deltar P (P - k)).
Proof. exact kept_sym. Qed.
Print Assumptions C42_symmetric.

(** no frequency from qmax up is left *)
Theorem C42_removed :
  forall qmax deltar P k, 0 < deltar -> (2 <= P)%nat -> (k <= P)%nat -> kept qmax deltar P k -> 0 < qmax -> below_qmax qmax deltar P k.
Proof. exact kept_below. Qed.
Print Assumptions C42_removed.

Theorem C42_linear :
  forall qmax deltar y z w oy oz ow a b, length z = length y -> length w = length y ->
  (forall j, (j < length y)%nat -> nth j w 0 = a * nth j y 0 + b * nth j z 0) ->
  filtered qmax deltar y oy -> filtered qmax deltar z oz -> filtered qmax deltar w ow ->
  forall m, (m < length y)%nat -> nth m ow 0 = a * nth m oy 0 + b * nth m oz 0.
Proof. exact filter_linear. Qed.
Print Assumptions C42_linear.

(** where nothing is cut nothing changes *)
Theorem C42_identity :
  forall qmax deltar y out, filtered qmax deltar y out -> (forall P k, is_pad (length y) P -> (k < P)%nat -> kept qmax deltar P k) -> out = y.
Proof. exact filter_id. Qed.
Print Assumptions C42_identity.

(** frequencies just below qmax are removed too *)
Theorem C42_kept_below_qmax_refuted :
  exists qmax deltar y out, 0 < qmax /\ 0 < deltar /\ cutoff_fin qmax deltar y = Ok out /\ ~ ideally_filtered qmax deltar y out.
Proof. exact cut_too_much. Qed.
Print Assumptions C42_kept_below_qmax_refuted.

Example C42_case : 4 * 25 * (1 / 100) * INR (length [1; 2; 3; 4; 5]) <= 1000000000 /\ is_pad 5 16 /\
  (forall P k, is_pad 2 P -> (k < P)%nat -> kept 10 1 P k).
Proof. exact filter_case. Qed.

(** ** C43: scale factors *)
(** one function per selected phase, independent of all scales *)
Theorem C43_linear :
  forall d psel, good_grid d -> off_origin d -> good_filter d ->
  (forall e, In e (selected_entries psel) -> up_to_date e /\ sane_phase d (en_ph e)) ->
  exists lo hi f1 f2 Fs f0, point_ranges d lo hi f1 f2 /\ length Fs = length (selected_entries psel) /\
  forall s xs, length xs = length Fs -> exists t, length t = Z.to_nat (hi + 1) /\
  (forall g, (0 <= g < lo)%Z -> el t g = Some 0) /\ (forall g, (lo <= g <= hi)%Z -> el t g = Some (mix s xs Fs g)) /\
  forall fuel, (f0 <= fuel)%nat -> determine fuel (with_dscale s d) (with_pscales xs psel) = Ok (f1, f2, t).
Proof. exact linear_ok. Qed.
Print Assumptions C43_linear.

(** phases that are not selected make no difference *)
Theorem C43_selected_only :
  forall fuel d psel psel', selected_entries psel = selected_entries psel' -> determine fuel d psel = determine fuel d psel'.
Proof. exact selected_same. Qed.
Print Assumptions C43_selected_only.

(** nothing beyond the stepcut *)
Theorem C43_stepcut :
  forall d e W g v, 0 < cp_stepcut (en_ph e) < grid d g -> phase_pdf d e W g v -> v = 0.
Proof. exact stepcut_zero. Qed.
Print Assumptions C43_stepcut.

Example C43_case : exists de, good_grid qdata /\ off_origin qdata /\ good_filter qdata /\
  up_to_date (ent (two (9 / 10) (1 / 10)) de) /\ sane_phase qdata (two (9 / 10) (1 / 10)) /\
  selected_entries [None; Some (ent (two (9 / 10) (1 / 10)) de)] = selected_entries [Some (ent (two (9 / 10) (1 / 10)) de); None; None].
Proof. exact linear_case. Qed.

(** ** C49: coordinates are moved into the block of cells *)
Theorem C49_wrapped :
  forall fuel ph sets ph' n r, (forall p, In p ph -> forall k, (1 <= cp_icc p k)%Z) -> fit_theory fuel ph sets = Ok (ph', n, r) ->
  Forall2 wrapped ph ph' /\ fit_theory fuel ph' sets = Ok (ph', n, r).
Proof. exact theory_wraps. Qed.
Print Assumptions C49_wrapped.

Example C49_case : exists fuel ph' n r, fit_theory fuel [two (23 / 10) (- (1 / 10))] [mkCset xdata [Some (none, none)]] = Ok (ph', n, r).
Proof. exact wrap_case. Qed.

(** ** C56: the calculated PDF *)
(** each calculated point is the sum of the pair peaks less the baseline *)
Theorem C56_pdf :
  forall d psel, good_grid d -> off_origin d -> good_filter d ->
  (forall e, In e (selected_entries psel) -> up_to_date e /\ sane_phase d (en_ph e)) ->
  exists lo hi f1 f2 Ws V t f0, point_ranges d lo hi f1 f2 /\ Forall2 (pair_list d) (selected_entries psel) Ws /\
  (forall g, (lo <= g <= hi)%Z -> total_is d (selected_entries psel) Ws g (V g)) /\ holds_pdf d lo hi V t /\
  forall fuel, (f0 <= fuel)%nat -> determine fuel d psel = Ok (f1, f2, t).
Proof. exact pdf_ok. Qed.
Print Assumptions C56_pdf.

(** moving an atom by a lattice translation can change the PDF, even when all
    coordinates stay between -1 and 1 *)
Theorem C56_translated_atom_refuted :
  exists d p p' de de' f0 t t', good_grid d /\ off_origin d /\ good_filter d /\ sane_phase d p /\ sane_phase d p' /\
  translated p p' /\ (forall a k, In a (cp_atoms p) \/ In a (cp_atoms p') -> Rabs (at_pos a k) < 1) /\
  phase_lattice p = Ok de /\ phase_lattice p' = Ok de' /\
  (forall fuel, (f0 <= fuel)%nat -> determine fuel d [Some (mkEnt p de (fun _ => false) (fun _ => false))] = Ok (2%Z, 3%Z, t)) /\
  (forall fuel, (f0 <= fuel)%nat -> determine fuel d [Some (mkEnt p' de' (fun _ => false) (fun _ => false))] = Ok (2%Z, 3%Z, t')) /\
  el t 2 <> el t' 2.
Proof. exact translated_wit. Qed.
Print Assumptions C56_translated_atom_refuted.

(** one pair with a negative square displacement spoils every calculated point *)
Theorem C56_negative_displacement :
  forall d psel, good_grid d -> good_filter d -> (forall e, In e (selected_entries psel) -> cell_ok e) ->
  (exists e, In e (selected_entries psel) /\ spoiler d e) ->
  exists f0, forall fuel, (f0 <= fuel)%nat -> exists f1 f2 t, determine fuel d psel = Ok (f1, f2, t) /\ spoilt d t.
Proof. exact negative_nan. Qed.
Print Assumptions C56_negative_displacement.

(** a calculated point at r = 0 is not finite, and with a Qmax no point is *)
Theorem C56_origin :
  forall d psel, good_grid d -> good_filter d -> (forall e, In e (selected_entries psel) -> cell_ok e) ->
  selected_entries psel <> [] -> nearest d (calc_lo d) 0 -> cd_rmin d = 0 ->
  exists f0, forall fuel, (f0 <= fuel)%nat -> exists f1 f2 t, determine fuel d psel = Ok (f1, f2, t) /\ el t 0 = None /\ (0 < cd_qmax d -> spoilt d t).
Proof. exact origin_nan. Qed.
Print Assumptions C56_origin.

Example C56_case : exists de, up_to_date (ent (two (9 / 10) (1 / 10)) de) /\ sane_phase qdata (two (9 / 10) (1 / 10)) /\ good_grid qdata /\ off_origin qdata /\ good_filter qdata /\ one_cell (two (9 / 10) (1 / 10)).
Proof. exact pdf_case. Qed.
Example C56_case_negative : exists de, good_grid xdata /\ good_filter xdata /\ cell_ok (ent neg de) /\ spoiler xdata (ent neg de).
Proof. exact negative_case. Qed.
Example C56_case_origin : exists de, good_grid odata /\ good_filter odata /\ nearest odata (calc_lo odata) 0 /\ cd_rmin odata = 0 /\ cell_ok (ent (two (9 / 10) (1 / 10)) de).
Proof. exact origin_case. Qed.
