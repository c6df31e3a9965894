(** Concrete data sets for the grid theorems: alloc with r from 0 to 14 in 26 points. *)
From Coq Require Import List ZArith Bool Reals Lia Lra.
From Flocq Require Import Core.Core IEEE754.BinarySingleNaN.
From Verif Require Import Base PdfModel PdfProof PdfTotal FloatModel FloatSpec FloatArith FloatProof FloatCalc FloatRead FloatFinal.
Import ListNotations.
Local Open Scope R_scope.

Definition ex_set : fset :=
  mkFs (fofz 0) (fofz 14) (fofz 0) (fofz 14) 26 (fstep (fofz 0) (fofz 14) 26) (fofz 25) 0 0.
Lemma ex_alloc : falloc (fofz 25) (fofz 0) (fofz 14) 26 = Ok ex_set.
Proof.
  unfold falloc. replace (flt (fofz 14) (fofz 0) || flt (fofz 0) fzero || flt (fofz 14) fzero)%bool with false by (vm_compute; reflexivity).
  replace (flt (fofz 25) fzero) with false by (vm_compute; reflexivity). reflexivity.
Qed.
Lemma ex_reached : reached ex_set. Proof. eapply re_alloc, ex_alloc. Qed.
Lemma v0 : val (fofz 0) = 0. Proof. apply (fofz_ok 0). lia. Qed.
Lemma v14 : val (fofz 14) = 14. Proof. apply (fofz_ok 14). lia. Qed.
Lemma v25 : val (fofz 25) = 25. Proof. apply (fofz_ok 25). lia. Qed.
Lemma ex_step : step ex_set = 14 / 25.
Proof.
  unfold step, width, steps, ex_set. cbn [fs_rmin fs_rmax fs_bin]. rewrite v0, v14. change (26 - 1)%Z with 25%Z. lra.
Qed.
Lemma ex_apart : apart ex_set.
Proof.
  assert (B : 14 <= bpow radix2 900) by (apply Rle_trans with (bpow radix2 4); [change (bpow radix2 4) with 16; lra|apply bpow_le; lia]).
  assert (B2 : bpow radix2 (-900) <= 1) by (change 1 with (bpow radix2 0); apply bpow_le; lia).
  unfold apart, width, ex_set. cbn [fs_rmin fs_rmax fs_bin]. rewrite v0, v14. rewrite Rabs_R0, Rabs_pos_eq by lra.
  repeat split; try lra; try lia.
Qed.
Lemma ex_resolved : resolved ex_set.
Proof.
  unfold resolved. rewrite ex_step. unfold ex_set. cbn [fs_rmin fs_rmax]. rewrite v0, v14. rewrite Rabs_R0, Rabs_pos_eq by lra.
  change (bpow radix2 46) with 70368744177664. lra.
Qed.
Lemma ex_roomy : roomy ex_set.
Proof.
  unfold roomy. rewrite ex_step. unfold ex_set. cbn [fs_rmin fs_bin]. rewrite v0. rewrite Rabs_R0.
  change (bpow radix2 29) with 536870912. split; [lia|lra].
Qed.
Lemma ex_ripples : ripples_ok ex_set.
Proof.
  intros _ _. rewrite ex_step. unfold ex_set. cbn [fs_qmax]. rewrite v25. change (bpow radix2 29) with 536870912. lra.
Qed.
(** a distance of 3 with width 1/4, and NaN for both *)
Lemma ex_peak_args : peak_args ex_set (fofz 3) (flit 1 (-2)) /\ peak_args ex_set B754_nan B754_nan.
Proof.
  split; split; [|vm_compute; reflexivity|now left|reflexivity].
  right. destruct (fofz_ok 3 ltac:(lia)) as [F V]. split; [exact F|]. rewrite V, ex_step. unfold ex_set. cbn [fs_rmin]. rewrite v0.
  rewrite Rabs_pos_eq by lra. change (bpow radix2 29) with 536870912. lra.
Qed.
(** the calculation of this set *)
Lemma ex_calc : exists s' c, fdetermine ex_set = Ok (s', c) /\ fs_nfmin s' = 0%Z /\ fs_nfmax s' = 25%Z /\ (fc_nmin c, fc_nmax c) = (0%Z, 28%Z)
  /\ fpeak s' c (fofz 3) (flit 1 (-2)) fzero = Ok (3%Z, 8%Z).
Proof.
  assert (X : findex ex_set (fs_rfmin ex_set) = Ok 0%Z) by (vm_compute; reflexivity).
  assert (Y : findex ex_set (fs_rfmax ex_set) = Ok 25%Z) by (vm_compute; reflexivity).
  unfold fdetermine. rewrite X, Y. cbn [obind].
  set (s' := mkFs _ _ _ _ _ _ _ _ _).
  assert (C0 : omap (fun c => (fc_nmin c, fc_nmax c)) (fextend s') = Ok (0%Z, 28%Z)) by (vm_compute; reflexivity).
  assert (P0 : obind (fextend s') (fun c => fpeak s' c (fofz 3) (flit 1 (-2)) fzero) = Ok (3%Z, 8%Z)) by (vm_compute; reflexivity).
  destruct (fextend s') as [c|e| |] eqn:E; try discriminate C0.
  exists s', c. cbn [obind]. cbn [omap obind] in C0, P0. injection C0 as C1 C2. rewrite C1, C2. repeat split; assumption.
Qed.
(** a narrower fit range *)
Lemma ex_range : exists s', frange ex_set (fofz 2) (fofz 9) = Ok s' /\ reached s' /\ good_fit_range s' 4 16.
Proof.
  assert (E : exists s', frange ex_set (fofz 2) (fofz 9) = Ok s' /\ findex s' (fs_rfmin s') = Ok 4%Z /\ findex s' (fs_rfmax s') = Ok 16%Z
     /\ fs_rmin s' = fs_rmin ex_set /\ fs_rmax s' = fs_rmax ex_set /\ fs_bin s' = fs_bin ex_set).
  { unfold frange. replace (fle (fofz 9) (fofz 2)) with false by (vm_compute; reflexivity).
    replace (fle (fs_rmin ex_set) (fofz 2) && fle (fofz 2) (fs_rmax ex_set) && fle (fofz 9) (fs_rmax ex_set) && flt (fofz 2) (fofz 9))%bool
      with true by (vm_compute; reflexivity).
    eexists. split; [reflexivity|]. split; [vm_compute; reflexivity|]. split; [vm_compute; reflexivity|]. repeat split. }
  destruct E as (s' & E & E1 & E2 & E3 & E4 & E5). exists s'. split; [exact E|].
  assert (H : reached s') by (eapply re_range; [apply ex_reached|exact E]). split; [exact H|].
  destruct (fit_range_all s' H) as (a & b & G). { eapply apart_keep; [..|apply ex_apart]; assumption. }
  pose proof G as G'. destruct G' as (G1 & G2 & _). rewrite E1 in G1. rewrite E2 in G2. injection G1 as <-. injection G2 as <-. exact G.
Qed.

(** ** findings *)
(** getR of the fresh set has 25 of the 26 points *)
Lemma ex_getr_short : exists l, fget_r ex_set = Ok l /\ length l = 25%nat.
Proof.
  eexists. split; [|].
  - unfold fget_r. replace (ftrunc _) with (Ok 24%Z : outcome Z) by (vm_compute; reflexivity). cbn [fs_nfmin fs_nfmax ex_set Z.sub Z.add Z.eqb Z.opp Pos.eqb obind]. reflexivity.
  - rewrite map_length. reflexivity.
Qed.
(** the last point of the calculated grid is above rmax and refused by pdfrange *)
Lemma ex_last_refused : good_point ex_set 25 /\ flt (fs_rmax ex_set) (fgrid ex_set 25) = true /\
  frange ex_set (fgrid ex_set 0) (fgrid ex_set 25) = Err ErrValue.
Proof.
  split; [apply grid_all; [apply ex_reached|apply ex_apart|apply ex_resolved|cbn; lia]|].
  split; [vm_compute; reflexivity|]. unfold frange.
  destruct (fle (fgrid ex_set 25) (fgrid ex_set 0)); [reflexivity|].
  replace (fle (fgrid ex_set 25) (fs_rmax ex_set)) with false by (vm_compute; reflexivity). rewrite andb_false_r. reflexivity.
Qed.
(** an array of r with NaN inside passes the test of regular spacing *)
Lemma ex_nan : exists s, fread_arrays (fofz 25) [fofz 1; B754_nan; fofz 3] = Ok s.
Proof.
  unfold fread_arrays. replace (fregular _) with true by (vm_compute; reflexivity). now eexists.
Qed.
(** alloc takes rmin = rmax, and a positive qmax so small that the ripples do not
    fit; the calculation then converts NaN or an oversized value to int *)
Definition ex_flat : fset := mkFs (fofz 5) (fofz 5) (fofz 5) (fofz 5) 10 (fstep (fofz 5) (fofz 5) 10) (fofz 25) 0 0.
Definition ex_tiny : fset :=
  mkFs (fofz 0) (fofz 14) (fofz 0) (fofz 14) 26 (fstep (fofz 0) (fofz 14) 26) (flit 1 (-40)) 0 0.
Lemma ex_undefined : exists s1 s2, reached s1 /\ reached s2 /\
  fs_rmin s1 = fs_rmax s1 /\ apart s2 /\ roomy s2 /\ fdetermine s1 = UB /\ fdetermine s2 = UB.
Proof.
  exists ex_flat, ex_tiny. split; [|split; [|split; [reflexivity|split; [exact ex_apart|split; [exact ex_roomy|]]]]].
  - apply (re_alloc (fofz 25) (fofz 5) (fofz 5) 10). unfold falloc.
    replace (flt (fofz 5) (fofz 5) || flt (fofz 5) fzero || flt (fofz 5) fzero)%bool with false by (vm_compute; reflexivity).
    replace (flt (fofz 25) fzero) with false by (vm_compute; reflexivity). reflexivity.
  - apply (re_alloc (flit 1 (-40)) (fofz 0) (fofz 14) 26). unfold falloc.
    replace (flt (fofz 14) (fofz 0) || flt (fofz 0) fzero || flt (fofz 14) fzero)%bool with false by (vm_compute; reflexivity).
    replace (flt (flit 1 (-40)) fzero) with false by (vm_compute; reflexivity). reflexivity.
  - split; vm_compute; reflexivity.
Qed.
(** r values of a data file, and a list that is not regular *)
Definition ex_r : list f64 := [fofz 1; fofz 2; fofz 3; fofz 4].
Definition ex_bad : list f64 := [fofz 1; fofz 2; fofz 4; fofz 5].
Lemma small_ok k : (Z.abs k <= 1000)%Z -> usual (fofz k).
Proof.
  intros H. destruct (fofz_ok k) as [F V]; [lia|]. split; [exact F|]. rewrite V, p20. apply abs_bounds. split.
  - rewrite <- opp_IZR. apply IZR_le. lia.
  - apply IZR_le. lia.
Qed.
Lemma ex_read : Forall usual ex_r /\ steps_within (/ 1000 - bpow radix2 (-28)) ex_r /\ Forall usual ex_bad /\ ~ steps_within (/ 1000 + bpow radix2 (-28)) ex_bad.
Proof.
  assert (V1 : val (fofz 1) = 1) by (apply (fofz_ok 1); lia). assert (V2 : val (fofz 2) = 2) by (apply (fofz_ok 2); lia).
  assert (V3 : val (fofz 3) = 3) by (apply (fofz_ok 3); lia). assert (V4 : val (fofz 4) = 4) by (apply (fofz_ok 4); lia).
  assert (V5 : val (fofz 5) = 5) by (apply (fofz_ok 5); lia).
  split; [repeat (apply Forall_cons; [apply small_ok; lia|]); apply Forall_nil|]. split.
  - intros i Hi. rewrite m28. apply abs_bounds. unfold mean_step, ex_r in *. cbn [last hd length Z.of_nat Pos.of_succ_nat Pos.succ] in *. rewrite V4, V1.
    change (Z.pos 4 - 1)%Z with 3%Z. destruct i as [|[|[|i]]]; cbn [nth]; rewrite ?V1, ?V2, ?V3, ?V4; try lra. cbn in Hi. lia.
  - split; [repeat (apply Forall_cons; [apply small_ok; lia|]); apply Forall_nil|]. intros H. specialize (H 0%nat). rewrite m28 in H.
    unfold mean_step, ex_bad in H. cbn [last hd length Z.of_nat Pos.of_succ_nat Pos.succ nth] in H. change (Z.pos 4 - 1)%Z with 3%Z in H. rewrite V1, V2, V5 in H.
    assert (G := H ltac:(lia)). apply abs_bounds in G. lra.
Qed.
