(** Theorems about reading observed data and about the plotted lists: C26, C27, C28. *)
From Coq Require Import Ascii String List Arith ZArith Reals Bool.
From Verif Require Import Base ParserModel PdfModel PdfSpec PdfEx PdfFinal DataModel DataSpec DataFinal DataPlot DataEx.
Import ListNotations.
Local Open Scope R_scope.

(** ** C26: the lists for plotting *)
(** with more than one point in the fit range *)
Theorem C26_agree :
  forall v, in_arrays v -> (vw_nfmin v < vw_nfmax v)%Z -> lists_agree v.
Proof. exact agree. Qed.
Print Assumptions C26_agree.

(** after reading any text, before a calculation *)
Theorem C26_after_reading :
  forall fuel t s dr, read_data_stream fuel t = Ok s -> dt_deltar s = Some dr -> in_arrays (fresh_view s dr) /\ lists_agree (fresh_view s dr).
Proof. exact agree_fresh. Qed.
Print Assumptions C26_after_reading.

(** after a calculation, for a fit range inside the data and longer than a step *)
Theorem C26_after_calculation :
  forall d psel obs, good_grid d -> good_filter d -> (forall e, In e (selected_entries psel) -> cell_ok e) ->
  cd_deltar d < cd_rfmax d - cd_rfmin d -> (1 <= length obs)%nat -> cd_rfmax d <= grid d (Z.of_nat (length obs) - 1) ->
  exists f0, forall fuel, (f0 <= fuel)%nat -> exists f1 f2 t, determine fuel d psel = Ok (f1, f2, t) /\
  nearest d (cd_rfmin d) f1 /\ nearest d (cd_rfmax d) f2 /\
  forall rmax, lists_agree (mkView f1 f2 (cd_rmin d) rmax (cd_deltar d) obs t).
Proof. exact agree_calculated. Qed.
Print Assumptions C26_after_calculation.

(** a fit range of a single point: three r values, one observed value *)
Theorem C26_single_point_refuted :
  exists v r o, in_arrays v /\ vw_nfmin v = 1%Z /\ vw_nfmax v = 1%Z /\ vw_rmax v = vw_rmin v + 2 * vw_deltar v /\ length (vw_obs v) = 3%nat /\
  get_r v = Ok r /\ getpdf_obs v = Ok o /\ length r = 3%nat /\ length o = 1%nat.
Proof. exact single_point. Qed.
Print Assumptions C26_single_point_refuted.

(** data given as arrays, before a calculation: the r list covers the grid, the
    observed list has one entry *)
Theorem C26_arrays_before_calculation :
  forall r gr dgr s dr, length gr = length r -> (2 <= length r)%nat -> (Z.of_nat (length r) <= 2147483647)%Z ->
  read_data_arrays r gr dgr = Ok s -> dt_deltar s = Some dr -> dr <> 0 ->
  exists x o, get_r (fresh_view s dr) = Ok x /\ getpdf_obs (fresh_view s dr) = Ok o /\ length x = length r /\ length o = 1%nat.
Proof. exact before_calc. Qed.
Print Assumptions C26_arrays_before_calculation.

Example C26_case : let v := mkView 1 2 1 3 1 [5; 6; 7] [] in in_arrays v /\ (vw_nfmin v < vw_nfmax v)%Z.
Proof. unfold in_arrays; cbn. repeat split; auto; discriminate. Qed.

(** ** C27: what is read from a text *)
(** a header, rows of ncol numbers, and nothing or a line with fewer than two *)
Theorem C27_table :
  forall h rows rest ncol fin fuel, header h -> is_table ncol rows rest -> good_lines (h ++ table_lines rows ++ rest) fin ->
  (length (h ++ table_lines rows ++ rest) + 2 < fuel)%nat ->
  exists w, weights_are ncol (map (fun x => row_values (fst x)) rows) w /\
  (regular (column 0 rows) /\ (2 <= length rows)%nat ->
     exists s, read_data_stream fuel (text_of (h ++ table_lines rows ++ rest) fin) = Ok s /\ holds_data (column 0 rows) (column 1 rows) w s) /\
  (~ (regular (column 0 rows) /\ (2 <= length rows)%nat) ->
     read_data_stream fuel (text_of (h ++ table_lines rows ++ rest) fin) = Err ErrData).
Proof. exact reads_table. Qed.
Print Assumptions C27_table.

(** any text that is accepted *)
Theorem C27_any_text :
  forall fuel t s, read_data_stream fuel t = Ok s ->
  (2 <= dt_bin s)%Z /\ length (dt_obs s) = Z.to_nat (dt_bin s) /\ length (dt_wic s) = Z.to_nat (dt_bin s) /\
  dt_nfmin s = 0%Z /\ dt_nfmax s = (dt_bin s - 1)%Z /\
  (exists dr, dt_deltar s = Some dr /\ dt_rmin s + (IZR (dt_bin s) - 1) * dr = dt_rmax s) /\
  (Forall (fun w => w = Some 1) (dt_wic s) \/ Forall (fun w => exists x, w = Some (1 / (x * x)) /\ 0 < x) (dt_wic s)).
Proof. exact sound. Qed.
Print Assumptions C27_any_text.

(** data given as arrays *)
Theorem C27_arrays :
  forall r gr dgr, r <> [] ->
  (regular r -> exists s, read_data_arrays r gr dgr = Ok s /\ dt_obs s = gr /\ dt_wic s = array_weights gr dgr /\
     dt_rmin s = nth 0 r 0 /\ dt_rmax s = nth (length r - 1) r 0 /\ dt_bin s = Z.of_nat (length r) /\ dt_nfmin s = 0%Z /\ dt_nfmax s = 0%Z /\
     ((2 <= length r)%nat -> dt_deltar s = Some ((nth (length r - 1) r 0 - nth 0 r 0) / (INR (length r) - 1))) /\ (length r = 1%nat -> dt_deltar s = None)) /\
  (~ regular r -> read_data_arrays r gr dgr = Err ErrData).
Proof. exact arrays_ok. Qed.
Print Assumptions C27_arrays.

(** the same uncertainties give other weights as arrays than as text *)
Theorem C27_array_weights_refuted :
  exists t s s', (forall fuel, (5 < fuel)%nat -> read_data_stream fuel t = Ok s) /\
  read_data_arrays [1; 2] [3; 5] (Some [4; 4]) = Ok s' /\ dt_obs s = [3; 5] /\ dt_rmin s = 1 /\ dt_rmax s = 2 /\
  dt_wic s = [Some (1 / 16); Some (1 / 16)] /\ dt_wic s' = [Some (1 / 2); Some (1 / 2)].
Proof. exact weights_wit. Qed.
Print Assumptions C27_array_weights_refuted.

(** an r column that does not increase is accepted *)
Theorem C27_constant_r_refuted :
  exists t s, (forall fuel, (5 < fuel)%nat -> read_data_stream fuel t = Ok s) /\ dt_rmin s = dt_rmax s /\ dt_deltar s = Some 0.
Proof. exact constant_wit. Qed.
Print Assumptions C27_constant_r_refuted.
Theorem C27_decreasing_r_refuted :
  exists t s, (forall fuel, (5 < fuel)%nat -> read_data_stream fuel t = Ok s) /\ dt_rmax s < dt_rmin s /\ dt_deltar s = Some (-1).
Proof. exact decreasing_wit. Qed.
Print Assumptions C27_decreasing_r_refuted.

Example C27_case : header [chars "#x"] /\ is_table 3 [row3 1 3 4; row3 2 5 4] [] /\ good_lines ([chars "#x"] ++ table_lines [row3 1 3 4; row3 2 5 4] ++ []) false /\
  regular [INR 1; INR 2].
Proof. exact table_case. Qed.

(** ** C28: reading ends *)
(** every text is its lines, with or without a newline after the last *)
Theorem C28_lines :
  forall t, exists lines fin, good_lines lines fin /\ t = text_of lines fin.
Proof. exact text_lines. Qed.
Print Assumptions C28_lines.

Theorem C28_ends :
  forall lines fin fuel, good_lines lines fin -> ~ stuck lines fin -> (length lines + 2 < fuel)%nat ->
  read_data_stream fuel (text_of lines fin) <> NoFuel.
Proof. exact stops. Qed.
Print Assumptions C28_ends.

(** otherwise it never ends *)
Theorem C28_endless :
  forall lines fin fuel, good_lines lines fin -> stuck lines fin -> read_data_stream fuel (text_of lines fin) = NoFuel.
Proof. exact stuck_forever. Qed.
Print Assumptions C28_endless.

Theorem C28_refuted :
  exists t, forall fuel, read_data_stream fuel t = NoFuel.
Proof. exact (ex_intro _ _ endless). Qed.
Print Assumptions C28_refuted.

Example C28_case : good_lines [chars "#a"; chars "1 2"] false /\ ~ stuck [chars "#a"; chars "1 2"] false /\
  good_lines [chars "#a"; chars "#b"] false /\ stuck [chars "#a"; chars "#b"] false.
Proof. exact stuck_case. Qed.
