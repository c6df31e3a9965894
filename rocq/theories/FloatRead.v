(** Reading r values: which lists are taken as a regular grid. *)
From Coq Require Import List ZArith Bool Reals Lia Lra.
From Flocq Require Import Core.Core IEEE754.BinarySingleNaN.
From Verif Require Import Base PdfModel FloatModel FloatSpec FloatArith.
Import ListNotations.
Local Open Scope R_scope.

Lemma rn_err x e : (-1000 <= e)%Z -> Rabs x <= bpow radix2 e -> Rabs (rn x - x) <= bpow radix2 (e - 53).
Proof.
  intros He H. unfold rn. eapply Rle_trans; [apply error_le_half_ulp; auto with typeclass_instances|].
  apply Rle_trans with (/ 2 * bpow radix2 (e + 1 - 53)).
  - apply Rmult_le_compat_l; [lra|]. destruct (Req_dec x 0) as [->|N].
    + rewrite ulp_FLT_small with (emin := (-1074)%Z) by (try exact eq_refl; rewrite Rabs_R0; apply bpow_gt_0). apply bpow_le. lia.
    + rewrite ulp_neq_0 by exact N. apply bpow_le. unfold cexp, FLT_exp.
      assert (mag radix2 x <= e + 1)%Z by (apply mag_le_bpow; [exact N|]; eapply Rle_lt_trans; [exact H|apply bpow_lt; lia]). lia.
  - replace (e + 1 - 53)%Z with ((e - 53) + 1)%Z by lia. rewrite bpow_plus. change (bpow radix2 1) with 2. lra.
Qed.
Lemma abs_bounds x b : Rabs x <= b <-> - b <= x <= b.
Proof. split; [|intros; now apply Rabs_le]. unfold Rabs. destruct (Rcase_abs x); lra. Qed.
Lemma p20 : bpow radix2 20 = 1048576. Proof. reflexivity. Qed.
Lemma p21 : bpow radix2 21 = 2097152. Proof. reflexivity. Qed.
Lemma p22 : bpow radix2 22 = 4194304. Proof. reflexivity. Qed.
Lemma p23 : bpow radix2 23 = 8388608. Proof. reflexivity. Qed.
Lemma m28 : bpow radix2 (-28) = / 268435456. Proof. reflexivity. Qed.
Lemma m30 : bpow radix2 (-30) = / 1073741824. Proof. reflexivity. Qed.
Lemma m32 : bpow radix2 (-32) = / 4294967296. Proof. reflexivity. Qed.

Lemma tol_ok : fin fdeltar_tol /\ Rabs (val fdeltar_tol - / 1000) <= bpow radix2 (-30).
Proof.
  split; [vm_compute; reflexivity|].
  assert (V : val fdeltar_tol = 1152921504606847 * / 1152921504606846976) .
  { unfold fdeltar_tol, flit. pose proof (binary_normalize_correct 53 1024 _ _ mode_NE 1152921504606847 (-60) false) as C.
    assert (E : F2R (Float radix2 1152921504606847 (-60)) = 1152921504606847 * / 1152921504606846976) by reflexivity.
    cbv zeta in C. rewrite E in C.
    assert (G : round radix2 (SpecFloat.fexp 53 1024) (round_mode mode_NE) (1152921504606847 * / 1152921504606846976) = 1152921504606847 * / 1152921504606846976).
    { apply round_generic; auto with typeclass_instances. rewrite <- E. apply generic_format_FLT. exists (Float radix2 1152921504606847 (-60)); [reflexivity| |]; cbn; lia. }
    rewrite G in C. rewrite Rlt_bool_true in C; [apply C|].
    apply Rlt_trans with (bpow radix2 0); [|apply bpow_lt; lia]. change (bpow radix2 0) with 1. rewrite Rabs_pos_eq; lra. }
  rewrite V, m30. apply abs_bounds. lra.
Qed.

Lemma sub_err x y e : fin x -> fin y -> (-1000 <= e <= 1000)%Z -> Rabs (val x - val y) <= bpow radix2 e ->
  fin (fsub x y) /\ Rabs (val (fsub x y) - (val x - val y)) <= bpow radix2 (e - 53).
Proof.
  intros Fx Fy He H. destruct (fsub_ok x y Fx Fy) as [F V]; [apply rn_small with e; [lia|exact H]|].
  split; [exact F|]. rewrite V. apply rn_err; [lia|exact H].
Qed.

Section Read.
Variable h : R.
Variable dx : f64.
Hypothesis (Fd : fin dx) (Vd : Rabs (val dx - h) <= bpow radix2 (-30)) (Hh : Rabs h <= bpow radix2 21).
Lemma step_test p0 p1 : usual p0 -> usual p1 ->
  let a := fabs (fsub (fsub p1 p0) dx) in
  (flt fdeltar_tol a = false -> Rabs (val p1 - val p0 - h) <= / 1000 + bpow radix2 (-28)) /\
  (Rabs (val p1 - val p0 - h) <= / 1000 - bpow radix2 (-28) -> flt fdeltar_tol a = false).
Proof.
  intros [F0 B0] [F1 B1]. rewrite p20 in B0, B1. rewrite p21 in Hh. rewrite m30 in Vd. cbv zeta.
  assert (C0 := proj1 (abs_bounds _ _) B0). assert (C1 := proj1 (abs_bounds _ _) B1). assert (Ch := proj1 (abs_bounds _ _) Hh). assert (Cd := proj1 (abs_bounds _ _) Vd).
  destruct (sub_err p1 p0 21 F1 F0) as [F2 E2]; [lia|rewrite p21; apply abs_bounds; lra|].
  change (21 - 53)%Z with (-32)%Z in E2. rewrite m32 in E2. apply abs_bounds in E2.
  destruct (sub_err (fsub p1 p0) dx 23 F2 Fd) as [F3 E3]; [lia|rewrite p23; apply abs_bounds; lra|].
  change (23 - 53)%Z with (-30)%Z in E3. rewrite m30 in E3. apply abs_bounds in E3.
  destruct tol_ok as [Ft Et]. rewrite m30 in Et. apply abs_bounds in Et. rewrite m28.
  assert (Va : val (fabs (fsub (fsub p1 p0) dx)) = Rabs (val (fsub (fsub p1 p0) dx))) by apply B2R_Babs.
  assert (Fa : fin (fabs (fsub (fsub p1 p0) dx))) by (unfold fin, fabs; rewrite is_finite_Babs; exact F3).
  rewrite (flt_val _ _ Ft Fa), Va. split.
  - intros L. assert (X : Rabs (val (fsub (fsub p1 p0) dx)) <= val fdeltar_tol) by (revert L; case Rlt_bool_spec; [discriminate|auto]).
    apply abs_bounds in X. apply abs_bounds. lra.
  - intros L. apply abs_bounds in L. apply Rlt_bool_false. apply abs_bounds. lra.
Qed.
Lemma steps_test r : Forall usual r -> forall p0, usual p0 ->
  (fsteps_ok dx p0 r = true -> forall i, (i < length r)%nat -> Rabs (val (nth (S i) (p0 :: r) fzero) - val (nth i (p0 :: r) fzero) - h) <= / 1000 + bpow radix2 (-28)) /\
  ((forall i, (i < length r)%nat -> Rabs (val (nth (S i) (p0 :: r) fzero) - val (nth i (p0 :: r) fzero) - h) <= / 1000 - bpow radix2 (-28)) -> fsteps_ok dx p0 r = true).
Proof.
  induction r as [|p1 t IH]; intros U p0 U0.
  - split; [intros _ i Hi; cbn in Hi; lia|reflexivity].
  - assert (U1 := Forall_inv U). apply Forall_inv_tail in U. destruct (IH U p1 U1) as [IH1 IH2]. destruct (step_test p0 p1 U0 U1) as [T1 T2].
    cbn [fsteps_ok]. split.
    + intros E i Hi. destruct (flt fdeltar_tol (fabs (fsub (fsub p1 p0) dx))); [discriminate|].
      destruct i as [|i]; [exact (T1 eq_refl)|]. apply (IH1 E i). cbn in Hi. lia.
    + intros H. rewrite (T2 (H 0%nat ltac:(cbn; lia))). apply IH2. intros i Hi. exact (H (S i) ltac:(cbn; lia)).
Qed.
End Read.

Lemma last_cons (p : f64) t d : last (p :: t) d = last t p.
Proof.
  revert p d. induction t as [|q t IH]; intros p d; [reflexivity|].
  change (last (p :: q :: t) d) with (last (q :: t) d). rewrite !IH. reflexivity.
Qed.
Lemma mean_ok p t : Forall usual (p :: t) -> t <> [] -> (Z.of_nat (length (p :: t)) <= 2147483648)%Z ->
  let dx := fdiv (fsub (last (p :: t) p) p) (fofz (Z.of_nat (length (p :: t)) - 1)) in
  fin dx /\ Rabs (val dx - mean_step (p :: t)) <= bpow radix2 (-30) /\ Rabs (mean_step (p :: t)) <= bpow radix2 21.
Proof.
  intros U Nt Hl. cbv zeta. set (k := (Z.of_nat (length (p :: t)) - 1)%Z) in *.
  assert (Hk : (1 <= k)%Z) by (unfold k; destruct t; [contradiction|cbn [length]; lia]).
  assert (La := last_cons p t).
  unfold mean_step. rewrite !La. cbn [hd].
  assert (Ul : usual (last t p)). { rewrite <- (La p). rewrite Forall_forall in U. apply U. destruct (exists_last (l := p :: t)) as (l' & a & E); [discriminate|]. rewrite E, last_last. apply in_or_app. right. left. reflexivity. }
  assert (Up := Forall_inv U). destruct Ul as [Fl Bl], Up as [Fp Bp]. rewrite p20 in Bl, Bp. apply abs_bounds in Bl. apply abs_bounds in Bp.
  destruct (sub_err (last t p) p 21 Fl Fp) as [F1 E1]; [lia|rewrite p21; apply abs_bounds; lra|].
  change (21 - 53)%Z with (-32)%Z in E1. rewrite m32 in E1. apply abs_bounds in E1.
  destruct (fofz_ok k) as [Fk Vk]; [unfold k in *; lia|].
  assert (Rk : 1 <= IZR k) by (apply IZR_le; exact Hk). fold k.
  set (w := val (last t p) - val p) in *. set (v := val (fsub (last t p) p)) in *.
  assert (Bw : - 2097152 <= w <= 2097152) by (unfold w; lra).
  assert (Dv : forall b y, 0 <= b -> - b <= y <= b -> - b <= y / IZR k <= b).
  { intros b y Hb [Y1 Y2]. assert (P : 0 < / IZR k) by (apply Rinv_0_lt_compat; lra). assert (Q : / IZR k <= 1) by (rewrite <- Rinv_1; apply Rinv_le; lra).
    unfold Rdiv. split.
    - apply Rle_trans with (- b * / IZR k); [|apply Rmult_le_compat_r; lra]. assert (b * / IZR k <= b * 1) by (apply Rmult_le_compat_l; lra). lra.
    - apply Rle_trans with (b * / IZR k); [apply Rmult_le_compat_r; lra|]. assert (b * / IZR k <= b * 1) by (apply Rmult_le_compat_l; lra). lra. }
  assert (Vq : - 4194304 <= v / IZR k <= 4194304) by (apply Dv; lra).
  destruct (fdiv_ok (fsub (last t p) p) (fofz k)) as [F2 V2]; [exact F1|rewrite Vk; lra| |].
  { apply rn_small with 22%Z; [lia|]. rewrite p22. fold v. rewrite Vk. apply abs_bounds. exact Vq. }
  split; [exact F2|]. fold v in V2. rewrite Vk in V2.
  assert (E2 : Rabs (rn (v / IZR k) - v / IZR k) <= bpow radix2 (22 - 53)) by (apply rn_err; [lia|rewrite p22; apply abs_bounds; exact Vq]).
  change (bpow radix2 (22 - 53)) with (/ 2147483648) in E2. apply abs_bounds in E2.
  assert (E3 : - (/ 4294967296) <= (v - w) / IZR k <= / 4294967296) by (apply Dv; lra).
  assert (S : (v - w) / IZR k = v / IZR k - w / IZR k) by (unfold Rdiv; ring).
  split.
  - rewrite m30, V2. apply abs_bounds. lra.
  - rewrite p21. apply abs_bounds. apply Dv; lra.
Qed.

Lemma regular_test r : Forall usual r -> (2 <= length r)%nat -> (Z.of_nat (length r) <= 2147483648)%Z ->
  (fregular r = true -> steps_within (/ 1000 + bpow radix2 (-28)) r) /\ (steps_within (/ 1000 - bpow radix2 (-28)) r -> fregular r = true).
Proof.
  intros U L Hl. destruct r as [|p [|q t]]; [cbn in L; lia|cbn in L; lia|].
  destruct (mean_ok p (q :: t) U ltac:(discriminate) Hl) as (F & V & B).
  destruct (steps_test _ _ F V B (q :: t) (Forall_inv_tail U) p (Forall_inv U)) as [T1 T2].
  unfold fregular. destruct (Z.of_nat (length (p :: q :: t)) <? 2)%Z eqn:E; [apply Z.ltb_lt in E; cbn [length] in E; lia|].
  split.
  - intros H i Hi. apply (T1 H i). cbn [length] in *. lia.
  - intros H. apply T2. intros i Hi. apply (H i). cbn [length] in *. lia.
Qed.

Lemma last_default (r : list f64) a b : r <> [] -> last r a = last r b.
Proof. destruct r as [|p t]; [contradiction|]. intros _. revert p. induction t as [|q t IH]; intros p; [reflexivity|]. cbn [last] in *. exact (IH q). Qed.
Lemma regular_single (p : f64) : fregular [p] = true. Proof. reflexivity. Qed.
Lemma read_lists q r :
  (r = [] -> fread_arrays q r = UB /\ fread_stream q r = Err ErrData) /\
  (length r = 1%nat -> (exists s, fread_arrays q r = Ok s /\ placed q r s /\ fs_nfmax s = 0%Z) /\ fread_stream q r = Err ErrData) /\
  ((2 <= length r)%nat -> Forall usual r -> (Z.of_nat (length r) <= 2147483648)%Z ->
     ((exists s1 s2, fread_arrays q r = Ok s1 /\ fread_stream q r = Ok s2 /\ placed q r s1 /\ placed q r s2 /\ fs_nfmax s1 = 0%Z /\ fs_nfmax s2 = (fs_bin s2 - 1)%Z) \/
      (fread_arrays q r = Err ErrData /\ fread_stream q r = Err ErrData)) /\
     (forall s, fread_arrays q r = Ok s \/ fread_stream q r = Ok s -> steps_within (/ 1000 + bpow radix2 (-28)) r) /\
     (steps_within (/ 1000 - bpow radix2 (-28)) r -> exists s, fread_arrays q r = Ok s)).
Proof.
  split; [intros ->; split; reflexivity|]. split.
  - destruct r as [|p [|x t]]; try discriminate. intros _. split; [|reflexivity]. eexists. split; [reflexivity|]. repeat split.
  - intros L U Hl. destruct (regular_test r U L Hl) as [T1 T2].
    destruct r as [|p [|x t]]; [cbn in L; lia|cbn in L; lia|].
    unfold fread_arrays, fread_stream. destruct (fregular (p :: x :: t)) eqn:E.
    + split; [left; eexists; eexists; split; [reflexivity|]; split; [reflexivity|]|].
      * unfold placed. cbn [fs_rmin fs_rmax fs_rfmin fs_rfmax fs_bin fs_qmax fs_nfmin fs_nfmax hd]. repeat split; apply last_default; discriminate.
      * split; [intros s _; apply T1; reflexivity|]. intros _. eexists. reflexivity.
    + split; [right; split; reflexivity|]. split; [intros s [H|H]; discriminate H|]. intros H. discriminate (T2 H).
Qed.
