(** Saved data texts read back, and where they do not. *)
From Coq Require Import Ascii String List Arith ZArith Reals Bool Lia Lra.
From Verif Require Import Base SphereModel SphereProof ParserModel ParserLex PdfModel PdfSpec PdfProof PdfTotal PdfEx PdfFinal DataModel DataSpec DataProof DataFinal DataPlot DataEx FmtModel FmtSpec FmtProof FmtGen FmtFinal SaveModel SaveSpec SaveProof.
Import ListNotations.
Local Open Scope R_scope.

Lemma digit_no_newline c : is_digit c = true -> c <> newline.
Proof. intros H ->. discriminate. Qed.
Lemma pd_no_newline d : Forall (fun k => (k < 10)%nat) d -> ~ In newline (print_digits d).
Proof. intros F I. pose proof (pd_digit _ F) as P. rewrite Forall_forall in P. apply P in I. discriminate. Qed.
Lemma sign_no_newline s : ~ In newline (print_sign s).
Proof. destruct s as [[|]|]; simpl; intros I; try tauto; destruct I as [I|I]; try discriminate; auto. Qed.
Lemma numeral_no_newline n : numeral_ok n -> ~ In newline (print_numeral n).
Proof.
  intros (A & B & _ & C) I. unfold print_numeral in I. apply in_app_or in I as [I|I]. exact (sign_no_newline _ I).
  apply in_app_or in I as [I|I]. exact (pd_no_newline _ A I).
  apply in_app_or in I as [I|I]. destruct (nu_frac n). destruct I as [I|I]. discriminate. exact (pd_no_newline _ B I). destruct I.
  destruct (nu_exp n) as [[[up s] d]|]; [|destruct I]. destruct I as [I|I]. destruct up; discriminate.
  apply in_app_or in I as [I|I]. exact (sign_no_newline _ I). exact (pd_no_newline _ (proj1 C) I).
Qed.
Lemma line_no_newline vals row : line_of vals row -> ~ In newline (print_row (fst row) (snd row)).
Proof.
  intros ((R & _) & -> & W & _). induction (fst row) as [|[b n] r IH]. intros [].
  apply Forall_cons_iff in R as [[_ R1] R2]. apply Forall_cons_iff in W as [W1 W2]. rewrite print_row_cons. cbn [fst snd] in *. intros I.
  apply in_app_or in I as [I|I]. rewrite Forall_forall in W1. apply W1 in I. discriminate.
  apply in_app_or in I as [I|I]. exact (numeral_no_newline _ R1 I). exact (IH R2 W2 I).
Qed.

(** what reading a saved table gives *)
Lemma table_reads n vals t ncol fuel : table_of n vals t -> (2 <= n)%nat -> (forall k, (k < n)%nat -> length (vals k) = ncol) -> ncol = 2%nat \/ ncol = 5%nat -> (n + 2 < fuel)%nat ->
  exists r g, length r = n /\ length g = n /\ (forall k, (k < n)%nat -> (exists m, six_digits (nth 0 (vals k) 0) m /\ nth k r 0 = numeral_value m) /\
    (exists m, six_digits (nth 1 (vals k) 0) m /\ nth k g 0 = numeral_value m)) /\
  (regular r -> exists ds, read_data_stream fuel t = Ok ds /\ holds_data r g (repeat (Some 1) n) ds) /\
  (~ regular r -> read_data_stream fuel t = Err ErrData).
Proof.
  intros (rows & -> & L & Q) N2 Lv Nc Lf.
  exists (column 0 rows), (column 1 rows).
  assert (forall x, In x rows -> exists k, (k < n)%nat /\ line_of (vals k) x) as Each.
  { intros x I. destruct (In_nth rows x ([], []) I) as (k & K & E). rewrite L in K. exists k. split; auto. rewrite <- E. auto. }
  assert (is_table ncol rows []) as T.
  { split. destruct Nc as [-> | ->]; lia. split. intros ->; simpl in L; lia. split; [|exact I].
    apply Forall_forall. intros x I. destruct (Each x I) as (k & K & R & _ & _ & F). split; auto.
    rewrite <- (Lv k K). clear -F. induction F; simpl; auto. }
  assert (good_lines ([] ++ table_lines rows ++ []) true) as G.
  { rewrite app_nil_r. cbn [app]. split; [|split; [discriminate|]].
    - apply Forall_forall. intros l I. unfold table_lines in I. apply in_map_iff in I as (x & <- & I). destruct (Each x I) as (k & K & R). apply line_no_newline with (vals k). auto.
    - destruct rows; [simpl in L; lia|discriminate]. }
  destruct (reads_table [] rows [] ncol true fuel) as (w & W & A & B); auto.
  { left; constructor. }
  { rewrite app_nil_r. cbn [app]. unfold table_lines. rewrite map_length. lia. }
  rewrite app_nil_r in A, B. cbn [app] in A, B.
  assert (w = repeat (Some 1) n) as ->.
  { destruct W as [([C|C] & _)|(_ & ->)]; try (destruct Nc; lia). rewrite map_map. rewrite <- L. clear. induction rows; simpl; f_equal; auto. }
  split. unfold column; rewrite map_length; auto. split. unfold column; rewrite map_length; auto. split; [|split].
  - intros k K. destruct (Q k K) as (_ & _ & _ & F). rewrite !nth_column. unfold row_values. specialize (Lv k K). destruct (vals k) as [|v0 [|v1 vs]]; try (simpl in Lv; destruct Nc; lia).
    inversion F as [|x ? r ? H1 F1 Er]; subst. inversion F1 as [|x1 ? r1 ? H2 F2 Er1]; subst. cbn [map nth]. split; eexists; split; eauto; reflexivity.
  - intros Rg. apply A. split; auto. lia.
  - intros Rg. apply B. tauto.
Qed.

Lemma close_regular (r : list R) (f : nat -> R) a b : (2 <= length r)%nat -> (forall k, f k = a + INR k * b) ->
  (forall k, (k < length r)%nat -> Rabs (nth k r 0 - f k) <= 5 / 100000) -> regular r.
Proof.
  intros L2 F H _ i Hi. set (n := length r) in *.
  assert (INR n - 1 = INR (n - 1)) as En by (rewrite minus_INR by lia; simpl; ring).
  assert (1 <= INR (n - 1)) as N1. { change 1 with (INR 1). apply le_INR. lia. }
  pose proof (H i ltac:(lia)) as H0. pose proof (H (S i) Hi) as H1. pose proof (H (n - 1)%nat ltac:(lia)) as Hn. pose proof (H 0%nat ltac:(lia)) as Hz.
  rewrite F in *. rewrite S_INR in H1. simpl (INR 0) in Hz. rewrite En.
  set (x := (nth (n - 1) r 0 - nth 0 r 0) / INR (n - 1)).
  assert (Rabs (x - b) <= 1 / 10000) as Hx.
  { replace (x - b) with ((nth (n - 1) r 0 - nth 0 r 0 - INR (n - 1) * b) / INR (n - 1)) by (unfold x; field; lra).
    unfold Rdiv at 1. rewrite Rabs_mult. rewrite (Rabs_right (/ INR (n - 1))) by (apply Rle_ge, Rlt_le, Rinv_0_lt_compat; lra).
    assert (Rabs (nth (n - 1) r 0 - nth 0 r 0 - INR (n - 1) * b) <= 1 / 10000) as Q.
    { revert Hn Hz. unfold Rabs. repeat destruct Rcase_abs; lra. }
    assert (0 < / INR (n - 1) <= 1) as [I1 I2]. { split. apply Rinv_0_lt_compat; lra. rewrite <- Rinv_1 at 1. apply Rinv_le_contravar; lra. }
    pose proof (Rabs_pos (nth (n - 1) r 0 - nth 0 r 0 - INR (n - 1) * b)). nra. }
  revert Hx H0 H1. unfold Rabs. repeat destruct Rcase_abs; lra.
Qed.

Lemma saved_reads s vals g ncol t fuel : table_of (points s) vals t -> (2 <= points s)%nat -> ncol = 2%nat \/ ncol = 5%nat ->
  (forall k, (k < points s)%nat -> length (vals k) = ncol /\ nth 0 (vals k) 0 = r_at s k /\ nth 1 (vals k) 0 = g (point s k) /\ Rabs (r_at s k) < 100) ->
  (points s + 2 < fuel)%nat -> exists ds, read_data_stream fuel t = Ok ds /\ read_as s g ds.
Proof.
  intros T N2 Nc V Lf.
  destruct (table_reads _ _ _ ncol fuel T N2) as (r & o & Lr & Lo & Q & A & _); auto. { intros k K. apply V; auto. }
  assert (forall k, (k < points s)%nat -> Rabs (nth k r 0 - r_at s k) <= 5 / 100000) as Cr.
  { intros k K. destruct (Q k K) as ((m & M & ->) & _). destruct (V k K) as (_ & E & _ & B). rewrite E in M. apply six_abs; auto. }
  destruct A as (ds & E & Ho & Hw & Hmin & Hmax & Hbin & _).
  { apply (close_regular r (r_at s) (r_at s 0) (sd_deltar s)). lia. intros k. unfold r_at, point. rewrite Nat.add_0_r, plus_INR. ring. rewrite Lr. auto. }
  exists ds. split; auto. unfold read_as. rewrite Hbin, Ho, Hw, Hmin, Hmax, Lr. split; auto. split; auto. split.
  - intros k K. destruct (Q k K) as (_ & (m & M & ->)). destruct (V k K) as (_ & _ & E1 & _). rewrite E1 in M. apply six_close; auto.
  - split; auto. split; apply Cr; lia.
Qed.

Lemma pdf_reads s o c w fuel : calculated s -> holds (sd_obs s) o -> holds (sd_tot s) c -> holds (sd_wic s) w -> (forall k, (k < points s)%nat -> 0 < w (point s k)) ->
  (2 <= points s)%nat -> (forall k, (k < points s)%nat -> Rabs (r_at s k) < 100) -> (points s + 2 < fuel)%nat ->
  exists t ds, build_pdf_file s = Ok t /\ read_data_stream fuel t = Ok ds /\ read_as s c ds.
Proof.
  intros C Ho Hc Hw Pw N2 B Lf. destruct (pdf_table s o c w) as (t & E & T); auto. exists t.
  destruct (saved_reads s _ c 5 t fuel T N2) as (ds & R & A); auto. eauto.
Qed.
Lemma dif_reads s o c fuel : calculated s -> holds (sd_obs s) o -> holds (sd_tot s) c ->
  (2 <= points s)%nat -> (forall k, (k < points s)%nat -> Rabs (r_at s k) < 100) -> (points s + 2 < fuel)%nat ->
  exists t ds, build_dif_file s = Ok t /\ read_data_stream fuel t = Ok ds /\ read_as s (fun i => o i - c i) ds.
Proof.
  intros C Ho Hc N2 B Lf. destruct (dif_table s o c) as (t & E & T); auto. exists t.
  destruct (saved_reads s _ (fun i => o i - c i) 2 t fuel T N2) as (ds & R & A); auto. eauto.
Qed.

(** ** which set *)
Lemma save_set sets iset s : (1 <= iset)%Z -> nth_error sets (Z.to_nat (iset - 1)) = Some s ->
  save_pdf sets iset = build_pdf_file s /\ save_dif sets iset = build_dif_file s.
Proof.
  intros L E. assert (Z.to_nat (iset - 1) < length sets)%nat as B by (apply nth_error_Some; congruence).
  unfold save_pdf, save_dif. destruct (Z.ltb_spec iset 1); [lia|]. destruct (Z.ltb_spec (Z.of_nat (length sets)) iset); [lia|]. cbn [orb].
  unfold rdz, rd. destruct (Z.ltb_spec (iset - 1) 0); [lia|]. rewrite E. auto.
Qed.
Lemma save_none sets iset : (iset < 1)%Z \/ (Z.of_nat (length sets) < iset)%Z -> save_pdf sets iset = Err ErrUnassigned /\ save_dif sets iset = Err ErrUnassigned.
Proof.
  intros H. unfold save_pdf, save_dif. destruct (Z.ltb_spec iset 1); cbn [orb]; auto. destruct (Z.ltb_spec (Z.of_nat (length sets)) iset); auto. lia.
Qed.

(** ** nothing calculated *)
Lemma zloop_head a b : (a <= b)%Z -> exists r, zloop a b = a :: r.
Proof.
  intros H. unfold zloop. destruct (Z.to_nat (b - a + 1)) as [|m] eqn:E; [lia|]. cbn [seq map]. rewrite Z.add_0_r. eauto.
Qed.
Lemma uncalculated s : sd_tot s = [] -> (0 <= sd_nfmin s <= sd_nfmax s)%Z -> build_pdf_file s = UB /\ build_dif_file s = UB.
Proof.
  intros T L. unfold build_pdf_file, build_dif_file, build_file. destruct (zloop_head (sd_nfmin s) (sd_nfmax s)) as (r & ->); [lia|].
  cbn [ofold]. unfold pdf_line, dif_line. rewrite T.
  assert (rdz (@nil xdbl) (sd_nfmin s) = UB) as ->. { unfold rdz. destruct (Z.ltb_spec (sd_nfmin s) 0); auto. unfold rd. destruct (Z.to_nat (sd_nfmin s)); auto. }
  split; reflexivity.
Qed.
Lemma touched s : (0 <= sd_nfmin s <= sd_nfmax s)%Z -> (sd_nfmax s < Z.of_nat (length (sd_obs s)))%Z -> (sd_nfmax s < Z.of_nat (length (sd_wic s)))%Z ->
  sd_tot s = [] -> calculated (touch s) /\ holds (sd_tot (touch s)) (fun _ => 0).
Proof.
  intros A B C E. unfold touch. rewrite E. split.
  - unfold calculated. cbn [sd_nfmin sd_nfmax sd_obs sd_wic sd_tot]. rewrite map_length. auto.
  - cbn [sd_tot]. intros i Hi. rewrite (nth_indep _ Nan (Fin d_zero)) by auto. rewrite (map_nth (fun _ => Fin d_zero) (sd_obs s) Nan). exact zero_num.
Qed.

(** ** through the data set number *)
Lemma pdf_saved sets iset s o c w : numbered sets iset s -> calculated s -> holds (sd_obs s) o -> holds (sd_tot s) c -> holds (sd_wic s) w -> (forall k, (k < points s)%nat -> 0 < w (point s k)) ->
  exists t, save_pdf sets iset = Ok t /\ table_of (points s) (fun k => let i := point s k in [r_at s k; c i; 0; 1 / sqrt (w i); o i - c i]) t.
Proof. intros [A B]. rewrite (proj1 (save_set _ _ _ A B)). apply pdf_table. Qed.
Lemma dif_saved sets iset s o c : numbered sets iset s -> calculated s -> holds (sd_obs s) o -> holds (sd_tot s) c ->
  exists t, save_dif sets iset = Ok t /\ table_of (points s) (fun k => let i := point s k in [r_at s k; o i - c i]) t.
Proof. intros [A B]. rewrite (proj2 (save_set _ _ _ A B)). apply dif_table. Qed.
Lemma pdf_read_back sets iset s o c w fuel : numbered sets iset s -> calculated s -> holds (sd_obs s) o -> holds (sd_tot s) c -> holds (sd_wic s) w -> (forall k, (k < points s)%nat -> 0 < w (point s k)) ->
  (2 <= points s)%nat -> (forall k, (k < points s)%nat -> Rabs (r_at s k) < 100) -> (points s + 2 < fuel)%nat ->
  exists t ds, save_pdf sets iset = Ok t /\ read_data_stream fuel t = Ok ds /\ read_as s c ds.
Proof. intros [A B]. rewrite (proj1 (save_set _ _ _ A B)). apply pdf_reads. Qed.
Lemma dif_read_back sets iset s o c fuel : numbered sets iset s -> calculated s -> holds (sd_obs s) o -> holds (sd_tot s) c ->
  (2 <= points s)%nat -> (forall k, (k < points s)%nat -> Rabs (r_at s k) < 100) -> (points s + 2 < fuel)%nat ->
  exists t ds, save_dif sets iset = Ok t /\ read_data_stream fuel t = Ok ds /\ read_as s (fun i => o i - c i) ds.
Proof. intros [A B]. rewrite (proj2 (save_set _ _ _ A B)). apply dif_reads. Qed.

(** after a calculation the arrays are long enough *)
Lemma after_calc d psel obs wic : good_grid d -> good_filter d -> (forall e, In e (selected_entries psel) -> cell_ok e) ->
  (1 <= length obs)%nat -> length wic = length obs -> cd_rfmax d <= grid d (Z.of_nat (length obs) - 1) ->
  exists f0, forall fuel, (f0 <= fuel)%nat -> exists f1 f2 t, determine fuel d psel = Ok (f1, f2, t) /\
  nearest d (cd_rfmin d) f1 /\ nearest d (cd_rfmax d) f2 /\
  forall tot, length tot = length t -> calculated (mkSd f1 f2 (cd_rmin d) (cd_deltar d) obs wic tot).
Proof.
  intros G F C Lo Lw Lm. destruct (ranges_any d psel G F C) as (lo & hi & f1 & f2 & f0 & (Nl & Nh & N1 & N2 & A & B) & Least & R).
  exists f0. intros fuel Hf. destruct (R fuel Hf) as (t & Q & Lt & _). exists f1, f2, t. split; auto. split; auto. split; auto.
  intros tot Ltot. specialize (Least (Z.of_nat (length obs) - 1)%Z ltac:(lia) Lm).
  unfold calculated. cbn [sd_nfmin sd_nfmax sd_obs sd_wic sd_tot]. rewrite Ltot, Lt, Lw. lia.
Qed.

(** ** witnesses *)
Lemma fresh_wit : exists t ds dr, (forall fuel, (5 < fuel)%nat -> read_data_stream fuel t = Ok ds) /\ dt_deltar ds = Some dr /\
  save_pdf [fresh ds dr] 1 = UB /\ save_dif [fresh ds dr] 1 = UB.
Proof.
  destruct weights_wit as (t & s & s' & Q & _). specialize (Q 6%nat ltac:(lia)) as Q6.
  pose proof (sound _ _ _ Q6) as (B2 & _ & _ & N0 & N1 & (dr & D & _) & _).
  exists t, s, dr. split; auto. split; auto.
  destruct (save_set [fresh s dr] 1 (fresh s dr)) as [-> ->]; [lia|auto|].
  apply uncalculated; auto. cbn [fresh sd_nfmin sd_nfmax]. rewrite N0, N1. lia.
Qed.
Lemma fresh_touched t fuel ds dr : read_data_stream fuel t = Ok ds -> dt_deltar ds = Some dr ->
  calculated (touch (fresh ds dr)) /\ holds (sd_tot (touch (fresh ds dr))) (fun _ => 0).
Proof.
  intros Q D. pose proof (sound _ _ _ Q) as (B2 & L1 & L2 & N0 & N1 & _ & _). apply touched; cbn [fresh sd_nfmin sd_nfmax sd_obs sd_wic sd_tot]; auto.
  rewrite N0, N1; lia. rewrite map_length, N1, L1; lia. rewrite map_length, N1. change (length (dt_wic ds) = Z.to_nat (dt_bin ds)) in L2. unfold num in L2. rewrite L2; lia.
Qed.

(** three points from 1000 in steps of 0.024 *)
Definition far : sdata := mkSd 0 2 1000 (24 / 1000) (map (fun x => Fin (dbl_of x)) [1; 1; 1]) (map (fun x => Fin (dbl_of x)) [1; 1; 1]) (map (fun x => Fin (dbl_of x)) [1; 1; 1]).
Lemma far_calculated : calculated far.
Proof. unfold calculated, far; cbn. lia. Qed.
Lemma far_holds : holds (map (fun x => Fin (dbl_of x)) [1; 1; 1]) (fun _ => 1).
Proof. intros i Hi. cbn [map length] in Hi. do 3 (destruct i as [|i]; [apply num_of|]). lia. Qed.
Lemma six_is x n k : six_digits x n -> 1000 <= x < 10000 -> Rabs (x - IZR k / 100) < 5 / 1000 -> numeral_value n = IZR k / 100.
Proof.
  intros (_ & _ & _ & G) B H. destruct (G 3%Z) as [C (j & E)].
  { unfold decade. rewrite Rabs_right by lra. change (powerRZ 10 3) with (10 ^ 3). change (powerRZ 10 (3 + 1)) with (10 ^ 4). lra. }
  change (3 - 5)%Z with (-2)%Z in *. change (powerRZ 10 (-2)) with (/ 10 ^ 2) in *.
  assert (j = k) as ->.
  { assert (Rabs (IZR j - IZR k) < 1) as Q. { rewrite E in C. revert C H. unfold Rabs. repeat destruct Rcase_abs; lra. }
    rewrite <- minus_IZR, <- abs_IZR in Q. apply lt_IZR in Q. lia. }
  rewrite E. lra.
Qed.
Lemma far_irregular n t vals fuel : table_of n vals t -> n = 3%nat -> (forall k, (k < 3)%nat -> length (vals k) = 2%nat \/ length (vals k) = 5%nat) -> length (vals 0%nat) = length (vals 1%nat) -> length (vals 0%nat) = length (vals 2%nat) ->
  (forall k, (k < 3)%nat -> nth 0 (vals k) 0 = r_at far k) -> (5 < fuel)%nat -> read_data_stream fuel t = Err ErrData.
Proof.
  intros T -> L L1 L2 V F. destruct (table_reads 3 vals t (length (vals 0%nat)) fuel T) as (r & g & Lr & Lg & Q & _ & A); auto.
  { intros k K. do 3 (destruct k as [|k]; [auto|]). lia. }
  apply A. intros Rg. specialize (Rg ltac:(lia) 0%nat ltac:(lia)). rewrite Lr in Rg.
  destruct (Q 0%nat ltac:(lia)) as ((m0 & M0 & E0) & _). destruct (Q 1%nat ltac:(lia)) as ((m1 & M1 & E1) & _). destruct (Q 2%nat ltac:(lia)) as ((m2 & M2 & E2) & _).
  rewrite V in M0, M1, M2 by lia. unfold r_at, point, far in M0, M1, M2. cbn in M0, M1, M2.
  rewrite E0, E1 in Rg. change (3 - 1)%nat with 2%nat in Rg. rewrite E2 in Rg.
  rewrite (six_is _ m0 100000 M0) in Rg by (try lra; apply Rabs_def1; lra).
  rewrite (six_is _ m1 100002 M1) in Rg by (try lra; apply Rabs_def1; lra).
  rewrite (six_is _ m2 100005 M2) in Rg by (try lra; apply Rabs_def1; lra).
  replace (INR 3) with 3 in Rg by (simpl; ring). rewrite Rabs_left in Rg; lra.
Qed.
Lemma far_wit : exists s t t', calculated s /\ (2 <= points s)%nat /\ 0 < sd_deltar s /\ build_pdf_file s = Ok t /\ build_dif_file s = Ok t' /\
  forall fuel, (5 < fuel)%nat -> read_data_stream fuel t = Err ErrData /\ read_data_stream fuel t' = Err ErrData.
Proof.
  destruct (pdf_table far (fun _ => 1) (fun _ => 1) (fun _ => 1)) as (t & E & T); auto using far_calculated. 1, 2, 3: exact far_holds. intros; lra.
  destruct (dif_table far (fun _ => 1) (fun _ => 1)) as (t' & E' & T'); auto using far_calculated. 1, 2: exact far_holds.
  exists far, t, t'. split. exact far_calculated. split. unfold points, far; cbn; lia. split. unfold far; cbn; lra. split; auto. split; auto.
  intros fuel F. split.
  - apply (far_irregular _ _ _ _ T); auto.
  - apply (far_irregular _ _ _ _ T'); auto.
Qed.

(** a small set that meets the conditions *)
Definition near_set : sdata := mkSd 0 1 1 (1 / 100) (map (fun x => Fin (dbl_of x)) [1; 1; 1]) (map (fun x => Fin (dbl_of x)) [1; 1; 1]) (map (fun x => Fin (dbl_of x)) [1; 1; 1]).
Lemma near_case : numbered [near_set] 1 near_set /\ calculated near_set /\ holds (sd_obs near_set) (fun _ => 1) /\ holds (sd_tot near_set) (fun _ => 1) /\ holds (sd_wic near_set) (fun _ => 1) /\
  (2 <= points near_set)%nat /\ forall k, (k < points near_set)%nat -> Rabs (r_at near_set k) < 100.
Proof.
  split. split; [lia|reflexivity]. split. unfold calculated, near_set; cbn; lia. split; [exact far_holds|]. split; [exact far_holds|]. split; [exact far_holds|].
  split. unfold points, near_set; cbn; lia. intros k K. unfold points, near_set in K; cbn in K. unfold r_at, point, near_set; cbn.
  destruct k as [|[|k]]; [| |lia]; simpl; apply Rabs_def1; lra.
Qed.
