(** Property C60: the texts written by save_pdf and save_dif. *)
From Coq Require Import Ascii String List Arith ZArith Reals Bool Lia Lra.
From Verif Require Import Base ParserModel PdfModel PdfSpec PdfEx PdfFinal DataModel DataSpec FmtModel FmtSpec SaveModel SaveSpec SaveFinal SaveAny.
Import ListNotations.
Local Open Scope R_scope.

(** one line per point of the fit range: r, the calculated value, 0, the uncertainty
    and observed minus calculated, each with six digits *)
Theorem C60_pdf :
  forall sets iset s o c w, numbered sets iset s -> calculated s -> holds (sd_obs s) o -> holds (sd_tot s) c -> holds (sd_wic s) w ->
  (forall k, (k < points s)%nat -> 0 < w (point s k)) ->
  exists t, save_pdf sets iset = Ok t /\
  table_of (points s) (fun k => let i := point s k in [r_at s k; c i; 0; 1 / sqrt (w i); o i - c i]) t.
Proof. exact pdf_saved. Qed.
Print Assumptions C60_pdf.

(** r and observed minus calculated *)
Theorem C60_dif :
  forall sets iset s o c, numbered sets iset s -> calculated s -> holds (sd_obs s) o -> holds (sd_tot s) c ->
  exists t, save_dif sets iset = Ok t /\ table_of (points s) (fun k => let i := point s k in [r_at s k; o i - c i]) t.
Proof. exact dif_saved. Qed.
Print Assumptions C60_dif.

(** the saved text is accepted as data and gives the calculated values on the same
    grid, without the uncertainties *)
Theorem C60_pdf_reads_back :
  forall sets iset s o c w fuel, numbered sets iset s -> calculated s -> holds (sd_obs s) o -> holds (sd_tot s) c -> holds (sd_wic s) w ->
  (forall k, (k < points s)%nat -> 0 < w (point s k)) ->
  (2 <= points s)%nat -> (forall k, (k < points s)%nat -> Rabs (r_at s k) < 100) -> (points s + 2 < fuel)%nat ->
  exists t ds, save_pdf sets iset = Ok t /\ read_data_stream fuel t = Ok ds /\ read_as s c ds.
Proof. exact pdf_read_back. Qed.
Print Assumptions C60_pdf_reads_back.
Theorem C60_dif_reads_back :
  forall sets iset s o c fuel, numbered sets iset s -> calculated s -> holds (sd_obs s) o -> holds (sd_tot s) c ->
  (2 <= points s)%nat -> (forall k, (k < points s)%nat -> Rabs (r_at s k) < 100) -> (points s + 2 < fuel)%nat ->
  exists t ds, save_dif sets iset = Ok t /\ read_data_stream fuel t = Ok ds /\ read_as s (fun i => o i - c i) ds.
Proof. exact dif_read_back. Qed.
Print Assumptions C60_dif_reads_back.
Example C60_case : numbered [near_set] 1 near_set /\ calculated near_set /\ holds (sd_obs near_set) (fun _ => 1) /\ holds (sd_tot near_set) (fun _ => 1) /\ holds (sd_wic near_set) (fun _ => 1) /\
  (2 <= points near_set)%nat /\ forall k, (k < points near_set)%nat -> Rabs (r_at near_set k) < 100.
Proof. exact near_case. Qed.

(** a number that is not that of a data set *)
Theorem C60_no_set :
  forall sets iset, (iset < 1)%Z \/ (Z.of_nat (length sets) < iset)%Z -> save_pdf sets iset = Err ErrUnassigned /\ save_dif sets iset = Err ErrUnassigned.
Proof. exact save_none. Qed.
Print Assumptions C60_no_set.
Example C60_no_set_case : (Z.of_nat (length [near_set]) < 2)%Z.
Proof. reflexivity. Qed.

(** a calculation leaves the set as C60_pdf wants it *)
Theorem C60_after_calculation :
  forall d psel obs wic, good_grid d -> good_filter d -> (forall e, In e (selected_entries psel) -> cell_ok e) ->
  (1 <= length obs)%nat -> length wic = length obs -> cd_rfmax d <= grid d (Z.of_nat (length obs) - 1) ->
  exists f0, forall fuel, (f0 <= fuel)%nat -> exists f1 f2 t, determine fuel d psel = Ok (f1, f2, t) /\
  nearest d (cd_rfmin d) f1 /\ nearest d (cd_rfmax d) f2 /\
  forall tot, length tot = length t -> calculated (mkSd f1 f2 (cd_rmin d) (cd_deltar d) obs wic tot).
Proof. exact after_calc. Qed.
Print Assumptions C60_after_calculation.
Example C60_after_calculation_case : exists de, good_grid qdata /\ good_filter qdata /\ cell_ok (ent (two (9 / 10) (1 / 10)) de).
Proof. destruct PdfFinal.ranges_case as (de & A & B & _ & C & _). exists de. auto. Qed.

(** before a calculation the calculated values are read from an empty array, for any
    data text *)
Theorem C60_uncalculated :
  forall s, sd_tot s = [] -> (0 <= sd_nfmin s <= sd_nfmax s)%Z -> build_pdf_file s = UB /\ build_dif_file s = UB.
Proof. exact uncalculated. Qed.
Print Assumptions C60_uncalculated.
Theorem C60_refuted :
  exists t ds dr, (forall fuel, (5 < fuel)%nat -> read_data_stream fuel t = Ok ds) /\ dt_deltar ds = Some dr /\
  save_pdf [fresh ds dr] 1 = UB /\ save_dif [fresh ds dr] 1 = UB.
Proof. exact fresh_wit. Qed.
Print Assumptions C60_refuted.
(** not so after getpdf_fit has been called: the calculated values are zeros *)
Theorem C60_after_getpdf_fit :
  forall t fuel ds dr, read_data_stream fuel t = Ok ds -> dt_deltar ds = Some dr ->
  calculated (touch (fresh ds dr)) /\ holds (sd_tot (touch (fresh ds dr))) (fun _ => 0).
Proof. exact fresh_touched. Qed.
Print Assumptions C60_after_getpdf_fit.

(** beyond r = 1000 six digits are too few for an even grid: the saved text is
    rejected *)
Theorem C60_far_refuted :
  exists s t t', calculated s /\ (2 <= points s)%nat /\ 0 < sd_deltar s /\ build_pdf_file s = Ok t /\ build_dif_file s = Ok t' /\
  forall fuel, (5 < fuel)%nat -> read_data_stream fuel t = Err ErrData /\ read_data_stream fuel t' = Err ErrData.
Proof. exact far_wit. Qed.
Print Assumptions C60_far_refuted.

(** infinities, NaN and weights that are not positive: the line is still there, and a field
    is the word inf, -inf or nan *)
Theorem C60_pdf_any :
  forall sets iset s, numbered sets iset s -> calculated s -> Forall proper (sd_obs s) -> Forall proper (sd_tot s) -> Forall proper (sd_wic s) ->
  exists lines, save_pdf sets iset = Ok (text_of lines true) /\ length lines = points s /\
  forall k, (k < points s)%nat -> let i := point s k in exists r y d, is_num r (r_at s k) /\ uncertainty (nth i (sd_wic s) Nan) y /\
    difference (nth i (sd_obs s) Nan) (nth i (sd_tot s) Nan) d /\ written (nth k lines []) [r; nth i (sd_tot s) Nan; Fin d_zero; y; d].
Proof. exact any_pdf. Qed.
Print Assumptions C60_pdf_any.
Theorem C60_dif_any :
  forall sets iset s, numbered sets iset s -> calculated s -> Forall proper (sd_obs s) -> Forall proper (sd_tot s) ->
  exists lines, save_dif sets iset = Ok (text_of lines true) /\ length lines = points s /\
  forall k, (k < points s)%nat -> let i := point s k in exists r d, is_num r (r_at s k) /\
    difference (nth i (sd_obs s) Nan) (nth i (sd_tot s) Nan) d /\ written (nth k lines []) [r; d].
Proof. exact any_dif. Qed.
Print Assumptions C60_dif_any.
Example C60_any_case : numbered [odd_set] 1 odd_set /\ calculated odd_set /\ Forall proper (sd_obs odd_set) /\ Forall proper (sd_tot odd_set) /\ Forall proper (sd_wic odd_set).
Proof. exact odd_case. Qed.
