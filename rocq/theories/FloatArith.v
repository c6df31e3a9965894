(** Facts about binary64 operations used for the grid: value, monotony, error. *)
From Coq Require Import List ZArith Bool Reals Lia Lra Psatz.
From Flocq Require Import Core.Core Relative Plus_error IEEE754.BinarySingleNaN.
From Verif Require Import Base PdfModel FloatModel FloatSpec.
Import ListNotations.
Local Open Scope R_scope.

Definition rn (x : R) : R := round radix2 (FLT_exp (-1074) 53) ZnearestE x.
Definition big : R := bpow radix2 1024.

Global Instance fexpv : Valid_exp (FLT_exp (-1074) 53).
Proof. apply FLT_exp_valid. reflexivity. Qed.

Lemma rn_mono x y : x <= y -> rn x <= rn y.
Proof. apply round_le; auto with typeclass_instances. Qed.
Lemma rn_0 : rn 0 = 0.
Proof. apply round_0; auto with typeclass_instances. Qed.
Lemma rn_pos x : 0 <= x -> 0 <= rn x.
Proof. intros H. rewrite <- rn_0. now apply rn_mono. Qed.
Lemma rn_neg x : x <= 0 -> rn x <= 0.
Proof. intros H. rewrite <- rn_0. now apply rn_mono. Qed.
Lemma val_format (x : f64) : generic_format radix2 (FLT_exp (-1074) 53) (val x).
Proof. apply (generic_format_B2R 53 1024). Qed.
Lemma rn_val (x : f64) : rn (val x) = val x.
Proof. apply round_generic; auto with typeclass_instances. apply val_format. Qed.
Lemma rn_bpow e : (-1074 <= e)%Z -> rn (bpow radix2 e) = bpow radix2 e.
Proof.
  intros He. apply round_generic; auto with typeclass_instances.
  apply generic_format_bpow. unfold FLT_exp. lia.
Qed.
Lemma rn_abs_le x e : (-1074 <= e)%Z -> Rabs x <= bpow radix2 e -> Rabs (rn x) <= bpow radix2 e.
Proof.
  intros He H. apply Rabs_le.
  assert (A : - bpow radix2 e <= x <= bpow radix2 e) by (revert H; unfold Rabs; destruct (Rcase_abs x); lra).
  split.
  - rewrite <- (rn_bpow e He) at 1. unfold rn at 1. rewrite <- round_NE_opp. apply rn_mono. lra.
  - rewrite <- (rn_bpow e He). apply rn_mono. lra.
Qed.
Lemma rn_small x e : (-1074 <= e < 1024)%Z -> Rabs x <= bpow radix2 e -> Rabs (rn x) < big.
Proof.
  intros [He H1] H. apply Rle_lt_trans with (bpow radix2 e). now apply rn_abs_le. now apply bpow_lt.
Qed.

(** the operations when they do not overflow *)
Lemma over_fin (x : f64) s : B2SF x = binary_overflow 53 1024 mode_NE s -> is_finite x = false.
Proof. destruct x; cbn; intros H; try reflexivity; discriminate H. Qed.

Lemma fsub_ok x y : fin x -> fin y -> Rabs (rn (val x - val y)) < big ->
  fin (fsub x y) /\ val (fsub x y) = rn (val x - val y).
Proof.
  intros Fx Fy H. pose proof (Bminus_correct 53 1024 _ _ mode_NE x y Fx Fy) as C.
  rewrite Rlt_bool_true in C by exact H. destruct C as (V & F & _). split; assumption.
Qed.
Lemma fadd_ok x y : fin x -> fin y -> Rabs (rn (val x + val y)) < big ->
  fin (fadd x y) /\ val (fadd x y) = rn (val x + val y).
Proof.
  intros Fx Fy H. pose proof (Bplus_correct 53 1024 _ _ mode_NE x y Fx Fy) as C.
  rewrite Rlt_bool_true in C by exact H. destruct C as (V & F & _). split; assumption.
Qed.
Lemma fmul_ok x y : fin x -> fin y -> Rabs (rn (val x * val y)) < big ->
  fin (fmul x y) /\ val (fmul x y) = rn (val x * val y).
Proof.
  intros Fx Fy H. pose proof (Bmult_correct 53 1024 _ _ mode_NE x y) as C.
  rewrite Rlt_bool_true in C by exact H. destruct C as (V & F & _). split; [|exact V].
  unfold fin in *. unfold fmul. rewrite F, Fx, Fy. reflexivity.
Qed.
Lemma fdiv_ok x y : fin x -> val y <> 0 -> Rabs (rn (val x / val y)) < big ->
  fin (fdiv x y) /\ val (fdiv x y) = rn (val x / val y).
Proof.
  intros Fx Fy H. pose proof (Bdiv_correct 53 1024 _ _ mode_NE x y Fy) as C.
  rewrite Rlt_bool_true in C by exact H. destruct C as (V & F & _). split; [|exact V].
  unfold fin in *. unfold fdiv. rewrite F. exact Fx.
Qed.
(** and when the result is known to be finite *)
Lemma fsub_fin x y : fin (fsub x y) -> fin x /\ fin y /\ val (fsub x y) = rn (val x - val y).
Proof.
  intros F.
  assert (Fx : fin x) by (destruct x, y; try reflexivity; cbn in F; try discriminate F; destruct s, s0; discriminate F).
  assert (Fy : fin y) by (destruct x, y; try reflexivity; cbn in F; try discriminate F; destruct s, s0; discriminate F).
  split; [exact Fx|]. split; [exact Fy|].
  pose proof (Bminus_correct 53 1024 _ _ mode_NE x y Fx Fy) as C.
  match type of C with if ?c then _ else _ => destruct c eqn:E end.
  - apply C.
  - destruct C as [C _]. apply over_fin in C. unfold fin, fsub in F. congruence.
Qed.
Lemma fadd_fin x y : fin (fadd x y) -> fin x /\ fin y /\ val (fadd x y) = rn (val x + val y).
Proof.
  intros F.
  assert (Fx : fin x) by (destruct x, y; try reflexivity; cbn in F; try discriminate F; destruct s, s0; discriminate F).
  assert (Fy : fin y) by (destruct x, y; try reflexivity; cbn in F; try discriminate F; destruct s, s0; discriminate F).
  split; [exact Fx|]. split; [exact Fy|].
  pose proof (Bplus_correct 53 1024 _ _ mode_NE x y Fx Fy) as C.
  match type of C with if ?c then _ else _ => destruct c eqn:E end.
  - apply C.
  - destruct C as [C _]. apply over_fin in C. unfold fin, fadd in F. congruence.
Qed.
Lemma fdiv_fin x y : val y <> 0 -> fin (fdiv x y) -> fin x /\ val (fdiv x y) = rn (val x / val y).
Proof.
  intros Ny F. pose proof (Bdiv_correct 53 1024 _ _ mode_NE x y Ny) as C.
  match type of C with if ?c then _ else _ => destruct c eqn:E end.
  - destruct C as (V & G & _). split; [|exact V]. unfold fin, fdiv in *. congruence.
  - apply over_fin in C. unfold fin, fdiv in F. congruence.
Qed.
Lemma flt_val x y : fin x -> fin y -> flt x y = Rlt_bool (val x) (val y).
Proof. apply Bltb_correct. Qed.
Lemma fle_val x y : fin x -> fin y -> fle x y = Rle_bool (val x) (val y).
Proof. apply Bleb_correct. Qed.

(** an int is converted exactly *)
Lemma fofz_ok k : (Z.abs k <= 2 ^ 53)%Z -> fin (fofz k) /\ val (fofz k) = IZR k.
Proof.
  intros Hk.
  assert (FF : generic_format radix2 (FLT_exp (-1074) 53) (IZR k)).
  { destruct (Z.eq_dec (Z.abs k) (2 ^ 53)) as [E|E].
    - assert (Ek : (k = 2 ^ 53 \/ k = - 2 ^ 53)%Z) by lia.
      assert (G : generic_format radix2 (FLT_exp (-1074) 53) (IZR (2 ^ 53))).
      { change (2 ^ 53)%Z with (Zpower radix2 53). rewrite IZR_Zpower by lia.
        apply generic_format_bpow. unfold FLT_exp. lia. }
      destruct Ek as [-> | ->]; [exact G|]. rewrite opp_IZR. now apply generic_format_opp.
    - apply generic_format_FLT. exists (Float radix2 k 0); cbn [Fnum Fexp].
      + unfold F2R. cbn. ring.
      + change (Zpower radix2 53) with (2 ^ 53)%Z. lia.
      + lia. }
  assert (RR : rn (IZR k) = IZR k) by (apply round_generic; auto with typeclass_instances).
  assert (B : Rabs (rn (IZR k)) < big).
  { apply rn_small with 53%Z; [lia|]. rewrite <- abs_IZR.
    replace (bpow radix2 53) with (IZR (2 ^ 53)) by (change (2 ^ 53)%Z with (Zpower radix2 53); rewrite IZR_Zpower by lia; reflexivity).
    now apply IZR_le. }
  pose proof (binary_normalize_correct 53 1024 _ _ mode_NE k 0 false) as C. cbv zeta in C.
  assert (EF : F2R (Float radix2 k 0) = IZR k) by (unfold F2R; cbn; ring).
  rewrite EF in C. rewrite Rlt_bool_true in C by exact B. destruct C as (V & F & _).
  split; [exact F|]. rewrite <- RR. exact V.
Qed.

(** rounding to int *)
Lemma mag_bounds m e : (0 <= e)%Z -> IZR (Zpos m) * bpow radix2 e = IZR (Zpos m * 2 ^ e).
Proof. intros He. rewrite mult_IZR. f_equal. change 2%Z with (radix_val radix2). now rewrite IZR_Zpower. Qed.
Lemma round_mag_spec m e :
  IZR (round_mag m e) - / 2 <= IZR (Zpos m) * bpow radix2 e < IZR (round_mag m e) + / 2.
Proof.
  unfold round_mag. destruct (Z.leb_spec 0 e) as [He|He].
  - rewrite <- mag_bounds by exact He. lra.
  - assert (D : (0 < 2 ^ (- e))%Z) by (apply Z.pow_pos_nonneg; lia).
    set (d := (2 ^ (- e))%Z) in *. set (q := ((2 * Zpos m + d) / (2 * d))%Z).
    assert (E : bpow radix2 e = / IZR d).
    { unfold d. change 2%Z with (radix_val radix2). rewrite IZR_Zpower by lia. rewrite bpow_opp. now rewrite Rinv_inv. }
    rewrite E. assert (Dr : 0 < IZR d) by now apply IZR_lt.
    pose proof (Z.div_mod (2 * Zpos m + d) (2 * d) ltac:(lia)) as Q. fold q in Q.
    pose proof (Z.mod_pos_bound (2 * Zpos m + d) (2 * d) ltac:(lia)) as M.
    set (r := ((2 * Zpos m + d) mod (2 * d))%Z) in *.
    assert (Qr : 2 * IZR (Zpos m) + IZR d = 2 * IZR d * IZR q + IZR r).
    { rewrite <- !mult_IZR, <- !plus_IZR. f_equal. lia. }
    assert (M0 : 0 <= IZR r) by (apply IZR_le; lia).
    assert (M1 : IZR r < 2 * IZR d) by (rewrite <- mult_IZR; apply IZR_lt; lia).
    assert (V : IZR (Zpos m) * / IZR d = IZR q - / 2 + IZR r / (2 * IZR d)).
    { replace (IZR (Zpos m)) with ((2 * IZR d * IZR q + IZR r - IZR d) / 2) by lra. field. lra. }
    rewrite V.
    assert (0 <= IZR r / (2 * IZR d)) by (apply Rmult_le_pos; [exact M0|left; apply Rinv_0_lt_compat; lra]).
    assert (IZR r / (2 * IZR d) < 1).
    { apply Rmult_lt_reg_r with (2 * IZR d); [lra|]. unfold Rdiv. rewrite Rmult_assoc, Rinv_l by lra. lra. }
    lra.
Qed.

(** nint as a relation between a real and an integer *)
Definition near (x : R) (k : Z) : Prop :=
  (0 <= x -> IZR k - / 2 <= x < IZR k + / 2) /\ (x <= 0 -> IZR k - / 2 < x <= IZR k + / 2).
Lemma near_mono x y i j : near x i -> near y j -> x <= y -> (i <= j)%Z.
Proof.
  intros [X1 X2] [Y1 Y2] L. apply Znot_gt_le. intros G.
  assert (G' : IZR j + 1 <= IZR i) by (rewrite <- plus_IZR; apply IZR_le; lia).
  destruct (Rle_or_lt 0 x) as [P|P].
  - specialize (X1 P). assert (P' : 0 <= y) by lra. specialize (Y1 P'). lra.
  - assert (P0 : x <= 0) by lra. specialize (X2 P0).
    destruct (Rle_or_lt 0 y) as [Q|Q].
    + specialize (Y1 Q). 
      assert (0 < IZR j + / 2) by lra.
      assert (IZR i - / 2 < 0) by lra.
      assert (j < i)%Z by lia.
      assert (0 <= j)%Z. { apply Znot_gt_le. intros GG. assert (IZR j <= -1) by (apply IZR_le; lia). lra. }
      assert (i <= 0)%Z. { apply Znot_gt_le. intros GG. assert (1 <= IZR i) by (apply IZR_le; lia). lra. }
      lia.
    + assert (Q0 : y <= 0) by lra. specialize (Y2 Q0). lra.
Qed.
Lemma near_abs x i : near x i -> Rabs (x - IZR i) <= / 2.
Proof.
  intros [X1 X2]. apply Rabs_le. destruct (Rle_or_lt 0 x) as [P|P].
  - specialize (X1 P). lra.
  - assert (P0 : x <= 0) by lra. specialize (X2 P0). lra.
Qed.
Lemma near_of x i : Rabs (x - IZR i) < / 2 -> near x i.
Proof. intros H. apply Rabs_def2 in H. split; intros _; lra. Qed.
Lemma near_uniq x i j : near x i -> near x j -> i = j.
Proof. intros A B. apply Z.le_antisymm; eapply near_mono; eauto; lra. Qed.

Lemma fround_near (x : f64) : fin x ->
  exists k, near (val x) k /\ fnint x = to_int k.
Proof.
  intros F. destruct x as [s|s| |s m e H]; try discriminate F.
  - exists 0%Z. split; [|reflexivity]. apply near_of. cbn. rewrite Rminus_0_r, Rabs_R0. lra.
  - exists (cond_Zopp s (round_mag m e)). split; [|reflexivity].
    pose proof (round_mag_spec m e) as B.
    assert (P : 0 < IZR (Zpos m) * bpow radix2 e) by (apply Rmult_lt_0_compat; [now apply IZR_lt|apply bpow_gt_0]).
    unfold near, val, B2R, F2R. cbn [Fnum Fexp]. destruct s; cbn [cond_Zopp].
    + rewrite !opp_IZR, <- Ropp_mult_distr_l. revert B P. generalize (IZR (Zpos m) * bpow radix2 e) (IZR (round_mag m e)). intros v w B P. split; intros Q; lra.
    + revert B P. generalize (IZR (Zpos m) * bpow radix2 e) (IZR (round_mag m e)). intros v w B P. split; intros Q; lra.
Qed.
Lemma fnint_ok x k : fnint x = Ok k -> fin x /\ near (val x) k.
Proof.
  intros E.
  assert (F : fin x) by (destruct x; try reflexivity; discriminate E).
  split; [exact F|]. destruct (fround_near x F) as (k' & N & E'). rewrite E' in E.
  unfold to_int in E. destruct (_ && _)%bool; [|discriminate E]. injection E as ->. exact N.
Qed.
Lemma fnint_in x k : fin x -> near (val x) k -> (-2147483648 <= k <= 2147483647)%Z -> fnint x = Ok k.
Proof.
  intros F N B. destruct (fround_near x F) as (k' & N' & ->). rewrite (near_uniq _ _ _ N N') in B |- *.
  unfold to_int. rewrite (proj2 (Z.leb_le _ _) (proj1 B)), (proj2 (Z.leb_le _ _) (proj2 B)). reflexivity.
Qed.

(** relative errors *)
Definition uu : R := bpow radix2 (-53).
Lemma uu_half : / 2 * bpow radix2 (-53 + 1) = uu.
Proof. unfold uu. rewrite (bpow_plus radix2 (-53) 1). change (bpow radix2 1) with 2. lra. Qed.
Lemma rn_rel x : bpow radix2 (-1022) <= Rabs x -> exists e, Rabs e <= uu /\ rn x = x * (1 + e).
Proof.
  intros H. destruct (relative_error_N_FLT_ex radix2 (-1074) 53 eq_refl (fun x => negb (Z.even x)) x) as (e & He & E).
  - exact H.
  - exists e. split; [|exact E]. now rewrite <- uu_half.
Qed.
Lemma rn_plus x y : exists e, Rabs e <= uu /\ rn (val x + val y) = (val x + val y) * (1 + e).
Proof.
  destruct (FLT_plus_error_N_ex radix2 (-1074) 53 (fun x => negb (Z.even x)) (val x) (val y) (val_format x) (val_format y)) as (e & He & E).
  exists e. split; [|exact E].
  eapply Rle_trans; [exact He|]. replace (u_ro radix2 53) with uu by (symmetry; apply uu_half).
  apply Rle_trans with (uu / 1); [|lra].
  unfold Rdiv. apply Rmult_le_compat_l; [apply bpow_ge_0|]. apply Rinv_le; [lra|]. pose proof (bpow_ge_0 radix2 (-53)). fold uu in H. lra.
Qed.
Lemma rn_minus x y : exists e, Rabs e <= uu /\ rn (val x - val y) = (val x - val y) * (1 + e).
Proof.
  assert (E : - val y = val (Bopp y)) by (symmetry; apply B2R_Bopp).
  unfold Rminus. rewrite E. apply rn_plus.
Qed.
