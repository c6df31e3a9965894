(** The results of the PDF calculation in the terms of PdfSpec.v. *)
From Coq Require Import List Arith ZArith Reals Lra Lia Bool Ascii FunctionalExtensionality.
From Verif Require SphereProof SessSpec.
From Verif Require Import Base RSum SphereModel MathModel MetricModel MetricSpec SphereSpec PdfModel PdfSpec PdfProof PdfGeo PdfSum PdfPeak PdfPhase PdfFft PdfTotal PdfSafe PdfEx.
Import ListNotations.
Local Open Scope R_scope.

(** ** ranges *)
Lemma ranges_ok d : good_grid d -> point_ranges d (idx d (calc_lo d)) (idx d (calc_hi d)) (idx d (cd_rfmin d)) (idx d (cd_rfmax d)).
Proof.
  intros G. pose proof (calc_order d G) as ((C1 & C2) & C3). pose proof G as (D & P0 & [R1 R2] & B). pose proof (idx_mono d G) as M. pose proof (idx_nonneg d G) as N.
  repeat split; try (apply (idx_nearest d G); lra); try (apply M; lra); apply N; lra.
Qed.
Lemma spoiled_spoilt d t : good_grid d -> spoiled d t -> spoilt d t.
Proof.
  intros G S g lo hi L H I. pose proof (calc_order d G) as ((C1 & C2) & C3). pose proof G as (D & P0 & [R1 R2] & B).
  apply S. rewrite (near_eq d (calc_lo d) lo), (near_eq d (calc_hi d) hi); auto; lra.
Qed.
Lemma el_app_l l k g : (0 <= g < Z.of_nat (length l))%Z -> el (l ++ k) g = el l g.
Proof. intros H. unfold el. apply app_nth1. lia. Qed.
Lemma el_app_r l k g : (Z.of_nat (length l) <= g)%Z -> el (l ++ k) g = el k (g - Z.of_nat (length l)).
Proof. intros H. unfold el. rewrite app_nth2 by lia. f_equal. lia. Qed.
Lemma el_some l g : (0 <= g < Z.of_nat (length l))%Z -> el (map Some l) g = Some (nth (Z.to_nat g) l 0).
Proof. intros H. unfold el. rewrite (nth_indep _ None (Some 0)) by (rewrite map_length; lia). apply (map_nth Some). Qed.
Lemma from_to_nth lo hi V g : (lo <= g <= hi)%Z -> nth (Z.to_nat (g - lo)) (map V (from_to lo hi)) 0 = V g.
Proof.
  intros H. unfold from_to. rewrite map_map. rewrite (nth_indep _ 0 ((fun k => V (lo + Z.of_nat k)%Z) 0%nat)) by (rewrite map_length, seq_length; lia).
  pose proof (map_nth (fun k => V (lo + Z.of_nat k)%Z) (seq 0 (Z.to_nat (hi - lo + 1))) 0%nat (Z.to_nat (g - lo))) as E. cbv beta in E. cbv beta. rewrite E, seq_nth by lia. f_equal. lia.
Qed.
Lemma from_to_len lo hi : length (from_to lo hi) = Z.to_nat (hi - lo + 1).
Proof. unfold from_to. rewrite map_length, seq_length. reflexivity. Qed.

Lemma holds d lo hi V out : (0 <= lo <= hi)%Z -> length out = Z.to_nat (hi - lo + 1) ->
  (cd_qmax d <= 0 -> out = map V (zloop lo hi)) -> (0 < cd_qmax d -> filtered (cd_qmax d) (cd_deltar d) (map V (zloop lo hi)) out) ->
  holds_pdf d lo hi V (repeat (Some 0) (Z.to_nat lo) ++ map Some out).
Proof.
  intros H L A B. split. rewrite app_length, repeat_length, map_length, L. lia. split.
  - intros g Hg. rewrite el_app_l by (rewrite repeat_length; lia). rewrite el_repeat by lia. reflexivity.
  - assert (E : forall g, (lo <= g <= hi)%Z -> el (repeat (Some 0) (Z.to_nat lo) ++ map Some out) g = Some (nth (Z.to_nat (g - lo)) out 0)).
    { intros g Hg. rewrite el_app_r by (rewrite repeat_length; lia). rewrite repeat_length, el_some by lia. do 2 f_equal. lia. }
    split.
    + intros Q g Hg. rewrite E by auto. rewrite (A Q). f_equal. apply (from_to_nth lo hi V g Hg).
    + intros Q. exists out. split; auto.
Qed.

Lemma found_pair d es : forall Ws, Forall2 (found_list d) es Ws -> Forall2 (pair_list d) es Ws.
Proof. induction 1; constructor; auto. apply H. Qed.

Lemma pdf_ok d psel : good_grid d -> off_origin d -> good_filter d ->
  (forall e, In e (selected_entries psel) -> up_to_date e /\ sane_phase d (en_ph e)) ->
  exists lo hi f1 f2 Ws V t f0, point_ranges d lo hi f1 f2 /\ Forall2 (pair_list d) (selected_entries psel) Ws /\
  (forall g, (lo <= g <= hi)%Z -> total_is d (selected_entries psel) Ws g (V g)) /\ holds_pdf d lo hi V t /\
  forall fuel, (f0 <= fuel)%nat -> determine fuel d psel = Ok (f1, f2, t).
Proof.
  intros G O F H. destruct (determine_ok d psel G O F H) as (Ws & f0 & V & out & P & T & O1 & O2 & L & D).
  pose proof (ranges_ok d G) as R. exists (idx d (calc_lo d)), (idx d (calc_hi d)), (idx d (cd_rfmin d)), (idx d (cd_rfmax d)), Ws, V, (repeat (Some 0) (Z.to_nat (idx d (calc_lo d))) ++ map Some out), f0.
  split; auto. split. apply found_pair; auto. split; auto. split; auto. destruct R as (_ & _ & _ & _ & R1 & R2). apply holds; auto. lia.
Qed.

Lemma ranges_any d psel : good_grid d -> good_filter d -> (forall e, In e (selected_entries psel) -> cell_ok e) ->
  exists lo hi f1 f2 f0, point_ranges d lo hi f1 f2 /\ (forall n, (0 <= n)%Z -> cd_rfmax d <= grid d n -> (f2 <= n)%Z) /\
  forall fuel, (f0 <= fuel)%nat -> exists t, determine fuel d psel = Ok (f1, f2, t) /\ length t = Z.to_nat (hi + 1) /\ forall g, (0 <= g < lo)%Z -> el t g = Some 0.
Proof.
  intros G F H. destruct (determine_any d G psel F H) as (f0 & D). pose proof (ranges_ok d G) as R.
  exists (idx d (calc_lo d)), (idx d (calc_hi d)), (idx d (cd_rfmin d)), (idx d (cd_rfmax d)), f0. split; auto. split.
  - intros n Hn E. pose proof G as (D0 & P0 & [R1 R2] & B). apply (idx_le d G); lra.
  - intros fuel Hf. destruct (D fuel Hf) as (t & E & L & Z & _). exists t. auto.
Qed.

Lemma origin_nan d psel : good_grid d -> good_filter d -> (forall e, In e (selected_entries psel) -> cell_ok e) ->
  selected_entries psel <> [] -> nearest d (calc_lo d) 0 -> cd_rmin d = 0 ->
  exists f0, forall fuel, (f0 <= fuel)%nat -> exists f1 f2 t, determine fuel d psel = Ok (f1, f2, t) /\ el t 0 = None /\ (0 < cd_qmax d -> spoilt d t).
Proof.
  intros G F H NE L Z. destruct (determine_any d G psel F H) as (f0 & D). exists f0. intros fuel Hf. destruct (D fuel Hf) as (t & E & _ & _ & _ & X).
  pose proof (calc_order d G) as ((C1 & C2) & C3). pose proof G as (D0 & P0 & [R1 R2] & B). pose proof (ranges_ok d G) as (_ & _ & _ & _ & Q1 & Q2).
  assert (I0 : idx d (calc_lo d) = 0%Z) by (apply near_eq; auto; lra).
  destruct (X NE 0%Z) as [X1 X2]. rewrite I0 in *. lia. unfold grid. rewrite Z. lra.
  do 3 eexists. split. exact E. split; auto. intros Q. apply spoiled_spoilt; auto.
Qed.
Lemma negative_nan d psel : good_grid d -> good_filter d -> (forall e, In e (selected_entries psel) -> cell_ok e) ->
  (exists e, In e (selected_entries psel) /\ spoiler d e) ->
  exists f0, forall fuel, (f0 <= fuel)%nat -> exists f1 f2 t, determine fuel d psel = Ok (f1, f2, t) /\ spoilt d t.
Proof.
  intros G F H S. destruct (determine_any d G psel F H) as (f0 & D). exists f0. intros fuel Hf. destruct (D fuel Hf) as (t & E & _ & _ & X & _).
  do 3 eexists. split. exact E. apply spoiled_spoilt; auto.
Qed.

Lemma zero_step d psel fuel : cd_deltar d = 0 -> determine fuel d psel = UB.
Proof. intros E. unfold determine, nint_div. rewrite E. destruct (Req_EM_T 0 0); [reflexivity|lra]. Qed.

(** ** selection *)
Lemma selected_only fuel d psel : determine fuel d psel = determine fuel d (map Some (selected_entries psel)).
Proof.
  unfold determine. destruct (nint_div _ _); auto; cbn [obind]. destruct (nint_div _ _); auto; cbn [obind]. destruct (calc_range d) as [[[[rcmin rcmax] ncmin] ncmax]|e| |]; auto; cbn [obind].
  destruct (ncmax + 1 <? 0)%Z; auto.
  match goal with |- obind (ofold ?f psel _) _ = _ => assert (E : forall p t, ofold f p t = ofold f (map Some (selected_entries p)) t) end.
  { induction p as [|[e|] p IH]; intros t; cbn [selected_entries map ofold obind]; auto. destruct (add_phase fuel d rcmin rcmax ncmin ncmax t e); cbn [obind]; auto. }
  rewrite E. reflexivity.
Qed.
Lemma stepcut_zero d e W g v : 0 < cp_stepcut (en_ph e) < grid d g -> phase_pdf d e W g v -> v = 0.
Proof.
  intros H (s & _ & ->). unfold envelope. destruct (Rlt_dec 0 (cp_stepcut (en_ph e))); [|lra]. destruct (Rle_dec (grid d g) (cp_stepcut (en_ph e))); [lra|]. ring.
Qed.

(** ** the filter *)
Definition fil (qmax deltar : R) (P n : nat) (y : nat -> R) (m : nat) : R :=
  / INR P * rsum n (fun j => y j * rsum P (fun k => (if kept_dec qmax deltar P k then 1 else 0) * cos (2 * PI * INR k * (INR m - INR j) / INR P))).
Lemma pow2_lt a b : (2 ^ a < 2 * 2 ^ b)%nat -> (a <= b)%nat.
Proof.
  intros H. change (2 * 2 ^ b)%nat with (2 ^ S b)%nat in H. apply Nat.pow_lt_mono_r_iff in H; lia.
Qed.
Lemma pad_unique n P Q : is_pad n P -> is_pad n Q -> P = Q.
Proof.
  intros [[a ->] [A1 A2]] [[b ->] [B1 B2]]. assert (a <= b)%nat by (apply pow2_lt; lia). assert (b <= a)%nat by (apply pow2_lt; lia). f_equal. lia.
Qed.
Lemma filtered_unique qmax deltar y o o' : filtered qmax deltar y o -> filtered qmax deltar y o' -> o = o'.
Proof.
  intros (P & PA & L & X) (Q & QA & L' & X'). assert (P = Q) by (eapply pad_unique; eauto). subst Q.
  apply (nth_ext _ _ 0 0). congruence. intros m Hm. rewrite X, X' by lia. reflexivity.
Qed.
Lemma fil_lin qmax deltar P n y z a b m : fil qmax deltar P n (fun j => a * y j + b * z j) m = a * fil qmax deltar P n y m + b * fil qmax deltar P n z m.
Proof.
  unfold fil. set (c := fun j => rsum P (fun k => (if kept_dec qmax deltar P k then 1 else 0) * cos (2 * PI * INR k * (INR m - INR j) / INR P))).
  rewrite (rsum_ext n (fun j => (a * y j + b * z j) * _) (fun j => a * (y j * c j) + b * (z j * c j))) by (intros; unfold c; ring).
  rewrite rsum_plus, !rsum_scal. change (rsum n (fun j => y j * c j)) with (rsum n (fun j => y j * rsum P (fun k => (if kept_dec qmax deltar P k then 1 else 0) * cos (2 * PI * INR k * (INR m - INR j) / INR P)))). unfold c. ring.
Qed.
(** a * y + b * z, element by element *)
Lemma filter_linear qmax deltar y z w oy oz ow a b : length z = length y -> length w = length y ->
  (forall j, (j < length y)%nat -> nth j w 0 = a * nth j y 0 + b * nth j z 0) ->
  filtered qmax deltar y oy -> filtered qmax deltar z oz -> filtered qmax deltar w ow ->
  forall m, (m < length y)%nat -> nth m ow 0 = a * nth m oy 0 + b * nth m oz 0.
Proof.
  intros LZ LW E (P & PA & L & X) (Q & QA & L' & X') (Q2 & QA2 & L2 & X2) m Hm. rewrite LZ in *. rewrite LW in *.
  assert (P = Q) by (eapply pad_unique; eauto). subst Q. assert (P = Q2) by (eapply pad_unique; eauto). subst Q2.
  rewrite X, X', X2 by lia. pose proof (fil_lin qmax deltar P (length y) (fun j => nth j y 0) (fun j => nth j z 0) a b m) as F. unfold fil in F. rewrite <- F.
  f_equal. apply rsum_ext. intros j Hj. rewrite E by auto. reflexivity.
Qed.
Lemma kept_sym qmax deltar P k : (k <= P)%nat -> (kept qmax deltar P k <-> kept qmax deltar P (P - k)).
Proof. intros H. unfold kept. replace (P - (P - k))%nat with k by lia. tauto. Qed.
Lemma kept_below qmax deltar P k : 0 < deltar -> (2 <= P)%nat -> (k <= P)%nat -> kept qmax deltar P k -> 0 < qmax -> below_qmax qmax deltar P k.
Proof.
  intros D HP HK K Q. pose proof PI_RGT_0 as PI0. assert (P1 : 0 < INR (P - 1)) by (apply lt_0_INR; lia). assert (P2 : INR (P - 1) < INR P) by (apply lt_INR; lia).
  assert (M : forall n, 2 * PI * INR n / (INR P * deltar) <= INR n * (2 * PI / (INR (P - 1) * deltar))).
  { intros n. replace (INR n * (2 * PI / (INR (P - 1) * deltar))) with (2 * PI * INR n * / (INR (P - 1) * deltar)) by (field; lra). unfold Rdiv.
    apply Rmult_le_compat_l. pose proof (pos_INR n). nra. apply Rinv_le_contravar. nra. nra. }
  destruct K as [K|K]; [left|right]; pose proof (M k); pose proof (M (P - k)%nat); lra.
Qed.

(** a mixture goes through the filter phase by phase *)
Lemma fil_mix qmax deltar P n s : forall xs Vs lo m, length xs = length Vs ->
  fil qmax deltar P n (fun j => mix s xs Vs (lo + Z.of_nat j)) m =
  mix s xs (map (fun V g => fil qmax deltar P n (fun j => V (lo + Z.of_nat j)%Z) (Z.to_nat (g - lo))) Vs) (lo + Z.of_nat m).
Proof.
  induction xs as [|x xs IH]; intros [|V Vs] lo m L; try discriminate; cbn [mix map].
  - unfold fil. rewrite (rsum_zero n). ring. intros; ring.
  - rewrite <- IH by (cbn in L; lia). replace (Z.to_nat (lo + Z.of_nat m - lo)) with m by lia.
    rewrite <- (Rmult_1_l (fil qmax deltar P n (fun j => mix s xs Vs (lo + Z.of_nat j)) m)). rewrite <- fil_lin. unfold fil. f_equal. apply rsum_ext. intros j Hj. rewrite Rmult_1_l. reflexivity.
Qed.

Lemma linear_ok d psel : good_grid d -> off_origin d -> good_filter d ->
  (forall e, In e (selected_entries psel) -> up_to_date e /\ sane_phase d (en_ph e)) ->
  exists lo hi f1 f2 Fs f0, point_ranges d lo hi f1 f2 /\ length Fs = length (selected_entries psel) /\
  forall s xs, length xs = length Fs -> exists t, length t = Z.to_nat (hi + 1) /\
  (forall g, (0 <= g < lo)%Z -> el t g = Some 0) /\ (forall g, (lo <= g <= hi)%Z -> el t g = Some (mix s xs Fs g)) /\
  forall fuel, (f0 <= fuel)%nat -> determine fuel (with_dscale s d) (with_pscales xs psel) = Ok (f1, f2, t).
Proof.
  intros G O F H. destruct (determine_lin d G O psel F H) as (Ws & f0 & Vs & P & T & LV & R). pose proof (ranges_ok d G) as RG.
  set (lo := idx d (calc_lo d)) in *. set (hi := idx d (calc_hi d)) in *. pose proof RG as (_ & _ & _ & _ & Q1 & Q2).
  set (n := Z.to_nat (hi - lo + 1)). set (PP := (2 ^ Nat.log2_up (2 * n))%nat).
  set (Fs := if Rlt_dec 0 (cd_qmax d) then map (fun V g => fil (cd_qmax d) (cd_deltar d) PP n (fun j => V (lo + Z.of_nat j)%Z) (Z.to_nat (g - lo))) Vs else Vs).
  assert (LF : length Fs = length Vs) by (unfold Fs; destruct (Rlt_dec 0 (cd_qmax d)); [apply map_length|reflexivity]).
  exists lo, hi, (idx d (cd_rfmin d)), (idx d (cd_rfmax d)), Fs, f0. split; auto. split. congruence. intros s xs LX.
  destruct (R s xs) as (out & X1 & X2 & X3 & X4). congruence.
  exists (repeat (Some 0) (Z.to_nat lo) ++ map Some out). split; [|split; [|split]]; auto.
  - rewrite app_length, repeat_length, map_length, X3. lia.
  - intros g Hg. rewrite el_app_l by (rewrite repeat_length; lia). rewrite el_repeat by lia. reflexivity.
  - intros g Hg. rewrite el_app_r by (rewrite repeat_length; lia). rewrite repeat_length, el_some by lia.
    replace (Z.to_nat (g - Z.of_nat (Z.to_nat lo))) with (Z.to_nat (g - lo)) by lia. f_equal. unfold Fs. destruct (Rlt_dec 0 (cd_qmax d)) as [Q|Q].
    + destruct (X2 Q) as (P2 & PA & LO & EQ). assert (LM : length (map (mix s xs Vs) (zloop lo hi)) = n) by (rewrite map_length; apply from_to_len). rewrite LM in *.
      assert (P2 = PP). { apply (pad_unique n); auto. apply pad_ok. unfold n. lia. } subst P2.
      rewrite EQ by (unfold n; lia). pose proof (fil_mix (cd_qmax d) (cd_deltar d) PP n s xs Vs lo (Z.to_nat (g - lo)) ltac:(congruence)) as FM.
      replace (lo + Z.of_nat (Z.to_nat (g - lo)))%Z with g in FM by lia. rewrite <- FM. unfold fil. f_equal. apply rsum_ext. intros j Hj. f_equal.
      pose proof (from_to_nth lo hi (mix s xs Vs) (lo + Z.of_nat j)) as E. replace (Z.to_nat (lo + Z.of_nat j - lo)) with j in E by lia. apply E. unfold n in Hj. lia.
    + rewrite X1 by lra. apply (from_to_nth lo hi (mix s xs Vs) g Hg).
Qed.

(** two equal values, cut so that only the mean of the padded signal is left *)
Lemma cut_too_much : exists qmax deltar y out, 0 < qmax /\ 0 < deltar /\ cutoff_fin qmax deltar y = Ok out /\ ~ ideally_filtered qmax deltar y out.
Proof.
  pose proof PI_RGT_0 as PI0. pose proof PI_4 as PI4. exists (7 * PI / 12), 1, [1; 1].
  destruct (cutoff_ok (7 * PI / 12) 1 [1; 1]) as (out & E & F); try lra. simpl. lia. simpl. lra.
  exists out. split; [lra|]. split; [lra|]. split; auto. intros (P & PA & L & X). destruct F as (P' & PA' & L' & X').
  assert (IP : is_pad 2 4) by (split; [exists 2%nat; reflexivity|lia]). change (length [1; 1]) with 2%nat in *.
  assert (P = 4%nat) by (eapply pad_unique; eauto). assert (P' = 4%nat) by (eapply pad_unique; eauto). subst.
  specialize (X 0%nat ltac:(lia)). specialize (X' 0%nat ltac:(lia)). rewrite X in X'. clear - X' PI0.
  assert (K0 : kept (7 * PI / 12) 1 4 0). { left. simpl. lra. }
  assert (K1 : ~ kept (7 * PI / 12) 1 4 1) by apply cut_below.
  assert (K2 : ~ kept (7 * PI / 12) 1 4 2). { unfold kept. simpl (4 - 1)%nat. simpl (4 - 2)%nat. simpl INR. replace ((1 + 1) * (2 * PI / ((1 + 1 + 1) * 1))) with (4 * PI / 3) by field. intros [K|K]; lra. }
  assert (K3 : ~ kept (7 * PI / 12) 1 4 3). { intros K. apply K1. apply (kept_sym _ _ 4 1); auto. }
  assert (B0 : below_qmax (7 * PI / 12) 1 4 0). { left. simpl. unfold Rdiv. rewrite Rmult_0_r, Rmult_0_l. lra. }
  assert (B1 : below_qmax (7 * PI / 12) 1 4 1). { left. simpl. lra. }
  assert (B2 : ~ below_qmax (7 * PI / 12) 1 4 2). { unfold below_qmax. simpl (4 - 2)%nat. simpl INR. intros [K|K]; lra. }
  assert (B3 : below_qmax (7 * PI / 12) 1 4 3). { right. simpl. lra. }
  cbn [rsum nth] in X'.
  destruct (kept_dec (7 * PI / 12) 1 4 0); [|contradiction]. destruct (kept_dec (7 * PI / 12) 1 4 1); [contradiction|]. destruct (kept_dec (7 * PI / 12) 1 4 2); [contradiction|]. destruct (kept_dec (7 * PI / 12) 1 4 3); [contradiction|].
  destruct (below_qmax_dec (7 * PI / 12) 1 4 0); [|contradiction]. destruct (below_qmax_dec (7 * PI / 12) 1 4 1); [|contradiction]. destruct (below_qmax_dec (7 * PI / 12) 1 4 2); [contradiction|]. destruct (below_qmax_dec (7 * PI / 12) 1 4 3); [|contradiction].
  simpl INR in X'.
  replace (2 * PI * 0 * (0 - 0) / (1 + 1 + 1 + 1)) with 0 in X' by field. replace (2 * PI * 1 * (0 - 0) / (1 + 1 + 1 + 1)) with 0 in X' by field. replace (2 * PI * (1 + 1 + 1) * (0 - 0) / (1 + 1 + 1 + 1)) with 0 in X' by field.
  replace (2 * PI * 0 * (0 - 1) / (1 + 1 + 1 + 1)) with 0 in X' by field. replace (2 * PI * 1 * (0 - 1) / (1 + 1 + 1 + 1)) with (- (PI / 2)) in X' by field. replace (2 * PI * (1 + 1 + 1) * (0 - 1) / (1 + 1 + 1 + 1)) with (- (3 * (PI / 2))) in X' by field.
  rewrite !cos_neg, cos_0, cos_PI2, cos_3PI2 in X'. lra.
Qed.

(** ** an empty site that is left out *)
Lemma lonely_value igni ignj de : phase_lattice half_empty = Ok de -> exists f0 t,
  (forall fuel, (f0 <= fuel)%nat -> determine fuel xdata [Some (mkEnt half_empty de igni ignj)] = Ok (2%Z, 3%Z, t)) /\
  el t 2 = Some (- 12 * PI * density half_empty * counted_share xdata half_empty igni ignj).
Proof.
  intros L. destruct (determine_ok xdata [Some (mkEnt half_empty de igni ignj)] xgrid xoff xfilter) as (Ws & f0 & V & out & P & T & O1 & _ & LO & D).
  { intros e [<-|[]]. split. exact L. split. apply cub_cell. split. apply cub_tiny. split. intros; cbn; lia.
    split. unfold occ_sum. cbn. lra. split. unfold mean_sf, occ_sum. cbn. lra. split. cbn. lra. split; [|cbn; lra].
    intros i j h Hi Hj. cbn in Hi, Hj. destruct i as [|[|i]], j as [|[|j]]; try lia; apply cub_msd_nn; lra. }
  cbn [selected_entries] in P, T. inversion P as [|? W ? ? [P1 P2] P3]; subst. inversion P3; subst.
  rewrite xi3, xi4 in *.
  destruct (T 2%Z ltac:(lia)) as (v & z & (s & R & E) & Z & EV). cbn [total_is] in Z. subst z.
  exists f0, (repeat (Some 0) (Z.to_nat 2) ++ map Some out). split.
  - assert (I3 : idx xdata (cd_rfmin xdata) = 2%Z) by (change (cd_rfmin xdata) with 3; rewrite <- xlo; exact xi3). assert (I4 : idx xdata (cd_rfmax xdata) = 3%Z) by (change (cd_rfmax xdata) with 4; rewrite <- xhi; exact xi4). rewrite I3, I4 in D. auto.
  - rewrite O1 by (cbn; lra). change (zloop 2 3) with [2; 3]%Z. unfold el. change (Z.to_nat 2) with 2%nat. cbn [repeat app map nth]. f_equal. rewrite EV, E.
    cbn [en_ph en_igni en_ignj xdata cd_dscale].
    assert (GR : grid xdata 2 = 3) by (unfold grid; cbn; lra). fold xdata. rewrite GR.
    assert (EN : envelope xdata half_empty 3 = 1). { unfold envelope. cbn. destruct (Rlt_dec 0 0); lra. } rewrite EN.
    assert (S0 : s = 0).
    { destruct R as (f & F & ->). assert (W = []) as ->; [|reflexivity]. destruct W as [|[[i j] t] W]; auto. exfalso.
      destruct P1 as (_ & S & _). destruct (S _ (or_introl eq_refl)) as (Hi & Hj & _ & [R1 [_ R2]]). cbn [en_ph] in *. rewrite xhi in R2. cbn in Hi, Hj.
      unfold half_empty in R1 at 1. unfold half_empty in R2 at 1. rewrite cub_len in R1, R2.
      set (h := sep half_empty (atom_no half_empty i) (atom_no half_empty j) t) in *.
      assert (N0 : 0 < norm2 h). { destruct (norm2_nn h) as [|Z]; auto. rewrite <- Z, sqrt_0 in R1. lra. }
      assert (N1 : norm2 h <= 1 / 4). { assert (Q : sqrt (norm2 h) <= 1 / 2) by lra. rewrite <- (sqrt_square (1 / 2)) in Q by lra. apply sqrt_le_0 in Q; lra. }
      destruct t as [[m n] o]. unfold h, norm2, sep in N0, N1. clear h R1 R2 S P F E EV. cbn [vec3 half_empty cub cp_icc] in N0, N1. rewrite !Rmult_1_r in *.
      assert (SQ : forall a : R, 0 <= a * a) by (intros; nra).
      assert (K : forall q : Z, 0 < (0 - (0 + IZR q)) * (0 - (0 + IZR q)) -> 1 <= (0 - (0 + IZR q)) * (0 - (0 + IZR q))).
      { intros q H. replace ((0 - (0 + IZR q)) * (0 - (0 + IZR q))) with (IZR (q * q)) in * by (rewrite mult_IZR; ring). apply IZR_le. apply lt_IZR in H. lia. }
      assert (K' : forall (q : Z) a, a = 1 \/ a = -1 -> 1 <= (a + 2 * IZR q) * (a + 2 * IZR q)).
      { intros q a [->| ->]; [replace ((1 + 2 * IZR q) * (1 + 2 * IZR q)) with (IZR ((1 + 2 * q) * (1 + 2 * q))) by (rewrite mult_IZR, plus_IZR, mult_IZR; ring)|replace ((-1 + 2 * IZR q) * (-1 + 2 * IZR q)) with (IZR ((-1 + 2 * q) * (-1 + 2 * q))) by (rewrite mult_IZR, plus_IZR, mult_IZR; ring)]; apply IZR_le; nia. }
      pose proof (K m). pose proof (K n). pose proof (K o).
      destruct i as [|[|i]], j as [|[|j]]; try lia; cbn [atom_no cp_atoms half_empty cub nth xatom at_pos] in N0, N1.
      - pose proof (SQ (0 - (0 + IZR m))). pose proof (SQ (0 - (0 + IZR n))). pose proof (SQ (0 - (0 + IZR o))).
        destruct (Rlt_dec 0 ((0 - (0 + IZR m)) * (0 - (0 + IZR m)))); [lra|]. destruct (Rlt_dec 0 ((0 - (0 + IZR n)) * (0 - (0 + IZR n)))); [lra|]. destruct (Rlt_dec 0 ((0 - (0 + IZR o)) * (0 - (0 + IZR o)))); lra.
      - pose proof (K' m 1 (or_introl eq_refl)). pose proof (K' n 1 (or_introl eq_refl)). pose proof (K' o 1 (or_introl eq_refl)). nra.
      - pose proof (K' m (-1) (or_intror eq_refl)). pose proof (K' n (-1) (or_intror eq_refl)). pose proof (K' o (-1) (or_intror eq_refl)). nra.
      - assert (EQ : forall q, (1 / 2 - (1 / 2 + IZR q)) * (1 / 2 - (1 / 2 + IZR q)) = (0 - (0 + IZR q)) * (0 - (0 + IZR q))) by (intros; ring). rewrite !EQ in *.
        pose proof (SQ (0 - (0 + IZR m))). pose proof (SQ (0 - (0 + IZR n))). pose proof (SQ (0 - (0 + IZR o))).
        destruct (Rlt_dec 0 ((0 - (0 + IZR m)) * (0 - (0 + IZR m)))); [lra|]. destruct (Rlt_dec 0 ((0 - (0 + IZR n)) * (0 - (0 + IZR n)))); [lra|]. destruct (Rlt_dec 0 ((0 - (0 + IZR o)) * (0 - (0 + IZR o)))); lra. }
    rewrite S0. cbn [half_empty cub cp_pscale]. fold half_empty. unfold Rdiv. rewrite Rmult_0_l. ring.
Qed.
Lemma empty_site_differs : exists de f0 t t', phase_lattice half_empty = Ok de /\
  (forall fuel, (f0 <= fuel)%nat -> determine fuel xdata [Some (mkEnt half_empty de none none)] = Ok (2%Z, 3%Z, t)) /\
  (forall fuel, (f0 <= fuel)%nat -> determine fuel xdata [Some (mkEnt half_empty de second second)] = Ok (2%Z, 3%Z, t')) /\
  el t 2 <> el t' 2.
Proof.
  destruct (cub_lat [xatom 0 (1 / 2) 1; xatom (1 / 2) (1 / 2) 0]) as (de & L).
  destruct (lonely_value none none de L) as (f0 & t & D & E). destruct (lonely_value second second de L) as (f1 & t' & D' & E').
  exists de, (Nat.max f0 f1), t, t'. split. exact L. split. intros; apply D; lia. split. intros; apply D'; lia.
  rewrite E, E', empty_site_counts.
  assert (M : mean_sf xdata half_empty = 1). { unfold mean_sf, occ_sum. cbn. lra. }
  assert (W : forall i, (i < 2)%nat -> weight_no xdata half_empty i = 1). { intros i H. unfold weight_no. rewrite M. destruct i as [|[|i]]; try lia; cbn; lra. }
  assert (C : counted_share xdata half_empty none none = 1).
  { unfold counted_share. change (natoms half_empty) with 2%nat. cbn [rsum counted none negb andb orb]. rewrite !W by lia. lra. }
  rewrite C. assert (DE : 0 < density half_empty).
  { unfold density, half_empty. rewrite cub_det. unfold occ_sum. cbn. apply Rdiv_lt_0_compat. lra. rewrite Rmult_1_l. apply sqrt_lt_R0. lra. }
  pose proof PI_RGT_0. intros X. inversion X. nra.
Qed.

(** ** wrapped coordinates *)
Lemma zfloor_spec x : IZR (zfloor x) <= x < IZR (zfloor x) + 1. Proof. apply SphereProof.zfloor_spec. Qed.
Lemma zceil_spec x : IZR (zceil x) - 1 < x <= IZR (zceil x).
Proof. unfold zceil. pose proof (zfloor_spec (- x)). rewrite opp_IZR. lra. Qed.
Lemma fmod_ok x n : 0 < n -> Rabs (fmod x n) < n /\ exists z : Z, fmod x n = x - IZR z * n.
Proof.
  intros H. split; [|eexists; reflexivity]. unfold fmod, ztrunc.
  assert (E : x = x / n * n) by (field; lra). set (q := x / n) in *. rewrite E. rewrite <- Rmult_minus_distr_r, Rabs_mult, (Rabs_right n) by lra.
  assert (B : Rabs (q - IZR (if Rlt_dec q 0 then zceil q else zfloor q)) < 1); [|nra].
  destruct (Rlt_dec q 0).
  - pose proof (zceil_spec q). apply Rabs_def1; lra.
  - pose proof (zfloor_spec q). apply Rabs_def1; lra.
Qed.
Lemma fmod_idem x n : 0 < n -> fmod (fmod x n) n = fmod x n.
Proof.
  intros H. destruct (fmod_ok x n H) as [B _]. set (y := fmod x n) in *. unfold fmod. 
  assert (Z : ztrunc (y / n) = 0%Z).
  { apply Rabs_def2 in B. assert (-1 < y / n < 1). { split. apply (Rmult_lt_reg_r n); auto. unfold Rdiv. rewrite Rmult_assoc, Rinv_l by lra. lra. apply (Rmult_lt_reg_r n); auto. unfold Rdiv. rewrite Rmult_assoc, Rinv_l by lra. lra. }
    unfold ztrunc. destruct (Rlt_dec (y / n) 0).
    - pose proof (zceil_spec (y / n)) as S. assert (-1 < IZR (zceil (y / n)) < 1) by lra. destruct H1 as [A C]. apply lt_IZR in A, C. lia.
    - pose proof (zfloor_spec (y / n)) as S. assert (-1 < IZR (zfloor (y / n)) < 1) by lra. destruct H1 as [A C]. apply lt_IZR in A, C. lia. }
  rewrite Z. ring.
Qed.
Lemma wrap_ok p : (forall k, (1 <= cp_icc p k)%Z) -> wrapped p (wrap_phase p).
Proof.
  intros I. repeat split. cbn [wrap_phase cp_atoms]. induction (cp_atoms p) as [|a l IH]; cbn [map]; constructor; auto.
  split; auto. split; auto. split; auto. intros k. cbn [at_pos]. apply fmod_ok. apply IZR_lt. specialize (I k). lia.
Qed.
Lemma wrap_idem p : (forall k, (1 <= cp_icc p k)%Z) -> wrap_phase (wrap_phase p) = wrap_phase p.
Proof.
  intros I. unfold wrap_phase at 1. cbn [wrap_phase cp_a0 cp_win cp_icc cp_atoms cp_delta2 cp_delta1 cp_pscale cp_spd cp_stepcut cp_sratio cp_rcut]. unfold wrap_phase at 1. f_equal. rewrite map_map. apply map_ext. intros a. cbn [at_pos at_u at_occ at_sf]. f_equal.
  apply functional_extensionality. intros k. apply fmod_idem. apply IZR_lt. specialize (I k). lia.
Qed.
Lemma theory_wraps fuel ph sets ph' n r : (forall p, In p ph -> forall k, (1 <= cp_icc p k)%Z) -> fit_theory fuel ph sets = Ok (ph', n, r) ->
  Forall2 wrapped ph ph' /\ fit_theory fuel ph' sets = Ok (ph', n, r).
Proof.
  intros I E. assert (P : ph' = map wrap_phase ph).
  { unfold fit_theory in E. destruct (ofold _ (map wrap_phase ph) []); try discriminate. cbn [obind] in E. destruct (ofold _ sets _); try discriminate. cbn [obind] in E. inversion E; auto. }
  subst ph'. split.
  - clear E. induction ph as [|p ph IH]; cbn [map]; constructor. apply wrap_ok, I. left; auto. apply IH. intros q H. apply I. right; auto.
  - rewrite <- E. unfold fit_theory. rewrite map_map. rewrite (map_ext_in (fun x => wrap_phase (wrap_phase x)) wrap_phase). reflexivity. intros p H. apply wrap_idem, I, H.
Qed.

(** ** all data sets *)
Lemma wrap_lattice p : phase_lattice (wrap_phase p) = phase_lattice p.
Proof.
  unfold phase_lattice. cbn [wrap_phase cp_a0 cp_win cp_icc cp_atoms].
  assert (E : forall l x, fold_left (fun s a => s + at_occ a) (map (fun a => mkAt (fun i => fmod (at_pos a i) (IZR (cp_icc p i))) (at_u a) (at_occ a) (at_sf a)) l) x = fold_left (fun s a => s + at_occ a) l x).
  { induction l as [|a l IH]; intros x; cbn [map fold_left at_occ]; auto. }
  rewrite E. reflexivity.
Qed.
Lemma lattices_ok : forall ph, Forall calculable ph -> forall acc, exists l, ofold (fun acc p => obind (phase_lattice p) (fun de => Ok (acc ++ [(p, de)]))) (map wrap_phase ph) acc = Ok (acc ++ l) /\
  Forall (fun pd => phase_lattice (fst pd) = Ok (snd pd) /\ exists q, calculable q /\ fst pd = wrap_phase q) l.
Proof.
  induction ph as [|p ph IH]; intros H acc; cbn [map ofold].
  - exists []. rewrite app_nil_r. auto.
  - inversion H as [|? ? C C']; subst. pose proof C as ((de & E) & _). rewrite wrap_lattice, E. cbn [obind].
    destruct (IH C' (acc ++ [(wrap_phase p, de)])) as (l & E' & F). exists ((wrap_phase p, de) :: l). rewrite E', <- app_assoc. split; auto. constructor; auto. split. cbn. rewrite wrap_lattice; auto. exists p. auto.
Qed.
Lemma entries_ok : forall phd sel, Forall (fun pd => phase_lattice (fst pd) = Ok (snd pd) /\ exists q, calculable q /\ fst pd = wrap_phase q) phd ->
  forall e, In e (selected_entries (entries phd sel)) -> cell_ok e.
Proof.
  induction phd as [|[p de] phd IH]; intros sel H e I. destruct I. inversion H as [|? ? [C1 (q & (C2 & C3 & C4 & C5) & C6)] C']; subst. cbn [fst snd] in *.
  destruct sel as [|[[gi gj]|] sel]; cbn [entries selected_entries] in I. destruct I.
  - destruct I as [<-|I]; [|eapply IH; eauto]. subst p. split; auto.
  - eapply IH; eauto.
Qed.
Lemma fit_theory_ok ph : Forall calculable ph -> forall sets, Forall (fun s => good_grid (cs_data s) /\ good_filter (cs_data s)) sets ->
  exists f0, forall fuel, (f0 <= fuel)%nat -> exists ph' n r, fit_theory fuel ph sets = Ok (ph', n, r) /\
  Forall2 (fun s x => let '(f1, f2, t) := x in exists lo hi, point_ranges (cs_data s) lo hi f1 f2 /\ length t = Z.to_nat (hi + 1)) sets r /\
  n = fold_right (fun x s => (snd (fst x) - fst (fst x) + 1 + s)%Z) 0%Z r.
Proof.
  intros C sets S. unfold fit_theory. destruct (lattices_ok ph C []) as (phd & E & F).
  assert (X : exists f0, forall fuel, (f0 <= fuel)%nat -> forall acc, exists r, ofold (fun acc s =>
           obind (determine fuel (cs_data s) (entries phd (cs_sel s))) (fun r =>
           let '(nfmin, nfmax, t) := r in
           Ok (fst acc + (nfmax - nfmin + 1), snd acc ++ [r])%Z)) sets acc = Ok ((fst acc + fold_right (fun x s => (snd (fst x) - fst (fst x) + 1 + s)%Z) 0 r)%Z, snd acc ++ r) /\
    Forall2 (fun s x => let '(f1, f2, t) := x in exists lo hi, point_ranges (cs_data s) lo hi f1 f2 /\ length t = Z.to_nat (hi + 1)) sets r).
  { induction S as [|s sets [G1 G2] S IH].
    - exists 0%nat. intros fuel _ [n r]. exists []. cbn. rewrite app_nil_r, Z.add_0_r. auto.
    - destruct IH as (f0 & IH). destruct (ranges_any (cs_data s) (entries phd (cs_sel s)) G1 G2 (entries_ok phd (cs_sel s) F)) as (lo & hi & f1 & f2 & f0' & R & _ & D).
      exists (Nat.max f0 f0'). intros fuel Hf acc. destruct (D fuel ltac:(lia)) as (t & Et & Lt & _).
      destruct (IH fuel ltac:(lia) ((fst acc + (f2 - f1 + 1))%Z, snd acc ++ [(f1, f2, t)])) as (r & Er & Fr). exists ((f1, f2, t) :: r). cbn [ofold]. rewrite Et. cbn [obind]. rewrite Er. cbn [fst snd fold_right]. rewrite <- app_assoc. split.
      + do 2 f_equal. lia.
      + constructor; auto. exists lo, hi. auto. }
  destruct X as (f0 & X). exists f0. intros fuel Hf. destruct (X fuel Hf (0%Z, [])) as (r & Er & Fr). rewrite E. cbn [app obind]. rewrite Er. cbn [obind fst snd app].
  do 3 eexists. split. reflexivity. split; auto.
Qed.

(** ** cases *)
Definition qdata : cdata := mkCd 1 3 4 1 1 (1 / 10) 0 2 "N"%char.
Lemma qdata_ok : good_grid qdata /\ off_origin qdata /\ good_filter qdata /\ 0 < cd_qmax qdata.
Proof.
  pose proof PI_RGT_0. pose proof PI_4. assert (HI : calc_hi qdata = 4 + 12 * PI) by (unfold calc_hi; cbn; destruct (Rlt_dec 0 1); lra).
  assert (LO : 1 <= calc_lo qdata) by (unfold calc_lo; cbn; destruct (Rlt_dec 0 1); [apply Rmax_l|lra]).
  split; [|split; [|split]]. split; [cbn; lra|]. split; [cbn; lra|]. split; [cbn; lra|]. rewrite HI. cbn. lra. left. cbn. lra. intros _. rewrite HI. cbn. lra. cbn. lra.
Qed.
Lemma two_entry : exists de, up_to_date (ent (two (9 / 10) (1 / 10)) de) /\ cell_ok (ent (two (9 / 10) (1 / 10)) de) /\ sane_phase xdata (two (9 / 10) (1 / 10)) /\ sane_phase qdata (two (9 / 10) (1 / 10)).
Proof.
  destruct (cub_lat [xatom (9 / 10) (1 / 2) 1; xatom (1 / 10) (1 / 2) 1]) as (de & L). exists de. split. exact L. split.
  - split. exact L. split. apply cub_cell. split. intros; cbn; lia. cbn. lra.
  - split; apply two_sane.
Qed.
Definition odata : cdata := mkCd 0 0 4 1 0 0 0 1 "N"%char.
Lemma odata_ok : good_grid odata /\ good_filter odata /\ nearest odata (calc_lo odata) 0 /\ cd_rmin odata = 0.
Proof.
  assert (HI : calc_hi odata = 4) by (unfold calc_hi; cbn; destruct (Rlt_dec 0 0); lra). assert (LO : calc_lo odata = 0) by (unfold calc_lo; cbn; destruct (Rlt_dec 0 0); lra).
  split. split; [cbn; lra|]. split; [cbn; lra|]. split; [cbn; lra|]. rewrite HI. cbn. lra. split. intros H. cbn in H. lra. split; auto. rewrite LO. unfold nearest, grid. cbn. lra.
Qed.
Lemma two_calculable : calculable (two (23 / 10) (- (1 / 10))).
Proof. split. apply cub_lat. split. apply cub_cell. split. intros; cbn; lia. cbn. lra. Qed.

(** ** statements for PdfProps.v *)
Lemma half_counted n igni ignj (f : nat -> nat -> R) : (forall i j, (i < n)%nat -> (j < n)%nat -> f i j = f j i) ->
  lsum (fun ij : nat * nat => let (i, j) := ij in
          if skip_pair igni ignj i j then 0 else (if (i =? j)%nat then 1 else 2) * f i j) (half_loop n) =
  rsum n (fun i => rsum n (fun j => if counted igni ignj i j then f i j else 0)).
Proof.
  intros S. rewrite <- (half_ordered n (fun i j => if counted igni ignj i j then f i j else 0)).
  - apply lsum_ext. intros [i j] _. cbn [fst snd]. rewrite skip_counted. destruct (counted igni ignj i j); cbn [negb]; ring.
  - intros i j Hi Hj. rewrite counted_sym. destruct (counted igni ignj j i); auto.
Qed.
Lemma skip_rule igni ignj i j :
  (skip_pair igni ignj i j = true <-> (igni i = true \/ ignj j = true) /\ (igni j = true \/ ignj i = true)) /\
  skip_pair igni ignj i j = skip_pair igni ignj j i /\
  ((forall k, igni k = false) -> (forall k, ignj k = false) -> skip_pair igni ignj i j = false) /\
  ((forall k, igni k = true) \/ (forall k, ignj k = true) -> skip_pair igni ignj i j = true) /\
  ((forall k, igni k = ignj k) -> skip_pair igni ignj i j = igni i || igni j).
Proof.
  unfold skip_pair. split. rewrite andb_true_iff, !orb_true_iff. tauto. split. apply andb_comm. split. intros A B. rewrite !A, !B. reflexivity.
  split. intros [A|A]; rewrite !A, ?orb_true_r; reflexivity. intros A. rewrite <- !A. destruct (igni i), (igni j); reflexivity.
Qed.
Lemma share_ok d p igni ignj : mean_sf d p <> 0 -> occ_sum p <> 0 -> rsum (natoms p) (fun i => at_sf (atom_no p i) (cd_type d)) <> 0 ->
  pair_norm igni ignj (weights (cd_type d) (occ_sum p) (cp_atoms p)) = Some (counted_share d p igni ignj).
Proof.
  intros M O S. set (n := natoms p). set (w := weight_no d p).
  assert (WE : weights (cd_type d) (occ_sum p) (cp_atoms p) = map Some (map w (seq 0 n))).
  { unfold weights. rewrite (sum_nth (fun a => at_occ a * at_sf a (cd_type d))).
    unfold ndiv at 2. destruct (Req_EM_T (occ_sum p) 0); [contradiction|].
    fold (natoms p). change (rsum (natoms p) (fun i => at_occ (nth i (cp_atoms p) no_atom) * at_sf (nth i (cp_atoms p) no_atom) (cd_type d)) / occ_sum p) with (mean_sf d p).
    rewrite map_map. apply (nth_ext _ _ None None). rewrite !map_length, seq_length. reflexivity.
    intros i Hi. rewrite map_length in Hi.
    rewrite (nth_indep _ None (ndiv (Some (at_sf no_atom (cd_type d))) (Some (mean_sf d p)))) by (rewrite map_length; auto).
    rewrite (map_nth (fun a => ndiv (Some (at_sf a (cd_type d))) (Some (mean_sf d p)))).
    rewrite (nth_indep _ None (Some (w 0%nat))) by (rewrite map_length, seq_length; auto).
    rewrite (map_nth (fun x => Some (w x))). rewrite seq_nth by auto. simpl.
    destruct (Req_EM_T (mean_sf d p) 0); [contradiction|]. reflexivity. }
  assert (WS : rsum n w <> 0).
  { assert (E : rsum n w = rsum n (fun i => at_sf (atom_no p i) (cd_type d)) * / mean_sf d p) by exact (rsum_scal_r n (/ mean_sf d p) (fun i => at_sf (atom_no p i) (cd_type d))).
    rewrite E. apply Rmult_integral_contrapositive_currified; auto. apply Rinv_neq_0_compat; auto. }
  rewrite WE. pose proof (pair_norm_ok igni ignj (map w (seq 0 n))) as P. cbv zeta in P. rewrite map_length, seq_length in P.
  assert (E : forall i, (i < n)%nat -> nth i (map w (seq 0 n)) 0 = w i).
  { intros i Hi. rewrite (nth_indep _ 0 (w 0%nat)) by (rewrite map_length, seq_length; auto). rewrite map_nth, seq_nth by auto. reflexivity. }
  rewrite (rsum_ext n (fun i => nth i (map w (seq 0 n)) 0) w) in P by auto.
  rewrite P by auto. f_equal. unfold counted_share. fold n w. f_equal.
  apply rsum_ext. intros i Hi. apply rsum_ext. intros j Hj. rewrite !E by auto. reflexivity.
Qed.
Lemma empty_site_wit : exists d p de igni f0 t t', good_grid d /\ phase_lattice p = Ok de /\
  (forall i, igni i = true -> at_occ (atom_no p i) = 0) /\
  (forall fuel, (f0 <= fuel)%nat -> determine fuel d [Some (mkEnt p de (fun _ => false) (fun _ => false))] = Ok (2%Z, 3%Z, t)) /\
  (forall fuel, (f0 <= fuel)%nat -> determine fuel d [Some (mkEnt p de igni igni)] = Ok (2%Z, 3%Z, t')) /\
  el t 2 <> el t' 2.
Proof.
  destruct empty_site_differs as (de & f0 & t & t' & L & A & B & C). exists xdata, half_empty, de, second, f0, t, t'. split. apply xgrid. split; auto. split; auto.
  intros i H. apply Nat.eqb_eq in H. subst. reflexivity.
Qed.
Lemma ranges_case : exists de, good_grid qdata /\ good_filter qdata /\ 0 < cd_qmax qdata /\ cell_ok (ent (two (9 / 10) (1 / 10)) de) /\
  calculable (two (23 / 10) (- (1 / 10))).
Proof. destruct qdata_ok as (A & B & C & D). destruct two_entry as (de & E & F & _). exists de. pose proof two_calculable. auto. Qed.
Lemma filter_case : 4 * 25 * (1 / 100) * INR (length [1; 2; 3; 4; 5]) <= 1000000000 /\ is_pad 5 16 /\
  (forall P k, is_pad 2 P -> (k < P)%nat -> kept 10 1 P k).
Proof.
  split. simpl. lra. split. split; [exists 4%nat; reflexivity|simpl; lia].
  intros P k H L. assert (P = 4%nat). { apply (pad_unique 2); auto. split; [exists 2%nat; reflexivity|lia]. } subst P.
  pose proof PI_RGT_0. pose proof PI_4. unfold kept. simpl (4 - 1)%nat. destruct k as [|[|[|[|k]]]]; try lia.
  - left. simpl. lra.
  - left. simpl. lra.
  - left. simpl. lra.
  - right. simpl. lra.
Qed.
Lemma selected_same fuel d psel psel' : selected_entries psel = selected_entries psel' -> determine fuel d psel = determine fuel d psel'.
Proof. intros E. rewrite (selected_only fuel d psel), (selected_only fuel d psel'), E. reflexivity. Qed.
Lemma linear_case : exists de, good_grid qdata /\ off_origin qdata /\ good_filter qdata /\
  up_to_date (ent (two (9 / 10) (1 / 10)) de) /\ sane_phase qdata (two (9 / 10) (1 / 10)) /\
  selected_entries [None; Some (ent (two (9 / 10) (1 / 10)) de)] = selected_entries [Some (ent (two (9 / 10) (1 / 10)) de); None; None].
Proof. destruct qdata_ok as (A & B & C & D). destruct two_entry as (de & E & F & _ & G). exists de. auto 10. Qed.
Lemma wrap_case : exists fuel ph' n r, fit_theory fuel [two (23 / 10) (- (1 / 10))] [mkCset xdata [Some (none, none)]] = Ok (ph', n, r).
Proof.
  destruct (fit_theory_ok [two (23 / 10) (- (1 / 10))]) with (sets := [mkCset xdata [Some (none, none)]]) as (f0 & D).
  - constructor; auto. apply two_calculable.
  - constructor; auto. split. apply xgrid. apply xfilter.
  - destruct (D f0 (le_n _)) as (ph' & n & r & E & _). exists f0, ph', n, r. exact E.
Qed.
Lemma translated_wit : exists d p p' de de' f0 t t', good_grid d /\ off_origin d /\ good_filter d /\ sane_phase d p /\ sane_phase d p' /\
  translated p p' /\ (forall a k, In a (cp_atoms p) \/ In a (cp_atoms p') -> Rabs (at_pos a k) < 1) /\
  phase_lattice p = Ok de /\ phase_lattice p' = Ok de' /\
  (forall fuel, (f0 <= fuel)%nat -> determine fuel d [Some (mkEnt p de (fun _ => false) (fun _ => false))] = Ok (2%Z, 3%Z, t)) /\
  (forall fuel, (f0 <= fuel)%nat -> determine fuel d [Some (mkEnt p' de' (fun _ => false) (fun _ => false))] = Ok (2%Z, 3%Z, t')) /\
  el t 2 <> el t' 2.
Proof.
  destruct translated_atom_differs as (de & de' & f0 & t & t' & A & B & C & D & E). exists xdata, (two (9 / 10) (1 / 10)), (two (9 / 10) (- (9 / 10))), de, de', f0, t, t'.
  split. apply xgrid. split. apply xoff. split. apply xfilter. split. apply two_sane. split. apply two_sane. split.
  - repeat split. cbn [two cub cp_atoms]. constructor. repeat split. intros k. exists 0%Z. cbn. ring. constructor; [|constructor]. repeat split. intros k. exists (-1)%Z. cbn. lra.
  - split; auto. intros a k H. cbn in H. destruct H as [[<-|[<-|[]]]|[<-|[<-|[]]]]; cbn; apply Rabs_def1; lra.
Qed.
Lemma pdf_case : exists de, up_to_date (ent (two (9 / 10) (1 / 10)) de) /\ sane_phase qdata (two (9 / 10) (1 / 10)) /\ good_grid qdata /\ off_origin qdata /\ good_filter qdata /\ one_cell (two (9 / 10) (1 / 10)).
Proof.
  destruct qdata_ok as (A & B & C & D). destruct two_entry as (de & E & F & _ & G). exists de. repeat (split; auto). apply two_one. rewrite Rabs_right; lra.
Qed.
Lemma negative_case : exists de, good_grid xdata /\ good_filter xdata /\ cell_ok (ent neg de) /\ spoiler xdata (ent neg de).
Proof. destruct neg_spoils as (de & A & B). exists de. pose proof xgrid. pose proof xfilter. auto. Qed.
Lemma origin_case : exists de, good_grid odata /\ good_filter odata /\ nearest odata (calc_lo odata) 0 /\ cd_rmin odata = 0 /\ cell_ok (ent (two (9 / 10) (1 / 10)) de).
Proof. destruct odata_ok as (A & B & C & D). destruct two_entry as (de & E & F & _ & G). exists de. auto. Qed.
Lemma alloc_wit : exists qmax qdamp rmin rmax bin, SessSpec.alloc_args qmax qdamp rmin rmax bin /\
  forall psel fuel tp, determine fuel (mkCd rmin rmin rmax ((rmax - rmin) / (IZR bin - 1)) qmax qdamp 0 1 tp) psel = UB.
Proof.
  exists 0, 0, 1, 1, 10%Z. split. unfold SessSpec.alloc_args. repeat split; try lra; try lia. intros psel fuel tp. apply zero_step. cbn. unfold Rdiv. rewrite Rminus_diag_eq by reflexivity. ring.
Qed.
