(** Grid and index theorems in binary64. *)
From Coq Require Import List ZArith Bool Reals Lia Lra Psatz SpecFloat.
From Flocq Require Import Core.Core IEEE754.BinarySingleNaN.
From Verif Require Import Base PdfModel FloatModel FloatSpec FloatArith.
Import ListNotations.
Local Open Scope R_scope.

(** ** comparisons that bound a value make it finite *)
Lemma fle_fin a x b : fin a -> fin b -> fle a x = true -> fle x b = true -> fin x.
Proof.
  intros A B H1 H2. destruct x as [s|s| |s m e H]; try reflexivity.
  - destruct s; [destruct a as [sa|sa| |sa ma ea Ha]|destruct b as [sb|sb| |sb mb eb Hb]]; try discriminate A; try discriminate B;
      try discriminate H1; try discriminate H2; try (destruct sa; discriminate H1); try (destruct sb; discriminate H2).
  - destruct a; try discriminate A; discriminate H1.
Qed.
Lemma flt_fle x y : flt x y = true -> fle x y = true.
Proof. unfold flt, fle, Bltb, Bleb, SFltb, SFleb. destruct (SFcompare _ _) as [[]|]; congruence. Qed.
Lemma fle_R x y : fin x -> fin y -> fle x y = true -> val x <= val y.
Proof. intros A B. rewrite fle_val by assumption. intros H. destruct (Rle_bool_spec (val x) (val y)); [assumption|discriminate]. Qed.
Lemma flt_R x y : fin x -> fin y -> flt x y = true -> val x < val y.
Proof. intros A B. rewrite flt_val by assumption. intros H. destruct (Rlt_bool_spec (val x) (val y)); [assumption|discriminate]. Qed.

(** ** what every reachable set satisfies *)
Definition inv (s : fset) : Prop :=
  fs_dr s = fstep (fs_rmin s) (fs_rmax s) (fs_bin s) /\ (1 <= fs_bin s)%Z /\
  (fs_bin s = 1%Z -> fs_rmax s = fs_rmin s) /\
  ((fs_rfmin s = fs_rmin s /\ fs_rfmax s = fs_rmax s) \/
   (fle (fs_rmin s) (fs_rfmin s) = true /\ fle (fs_rfmin s) (fs_rmax s) = true /\
    fle (fs_rfmax s) (fs_rmax s) = true /\ flt (fs_rfmin s) (fs_rfmax s) = true)).
Lemma last_one {A} (l : list A) (d : A) : length l = 1%nat -> last l d = hd d l.
Proof. destruct l as [|x [|y l]]; intros H; try discriminate H. reflexivity. Qed.
Lemma inv_keep s s' :
  fs_rmin s' = fs_rmin s -> fs_rmax s' = fs_rmax s -> fs_bin s' = fs_bin s -> fs_dr s' = fs_dr s ->
  fs_rfmin s' = fs_rfmin s -> fs_rfmax s' = fs_rfmax s -> inv s -> inv s'.
Proof. intros A B C D E F I. unfold inv in *. rewrite A, B, C, D, E, F. exact I. Qed.
Lemma fdetermine_inv s s' c : fdetermine s = Ok (s', c) ->
  exists a b, findex s (fs_rfmin s) = Ok a /\ findex s (fs_rfmax s) = Ok b /\
  s' = mkFs (fs_rmin s) (fs_rmax s) (fs_rfmin s) (fs_rfmax s) (fs_bin s) (fs_dr s) (fs_qmax s) a b /\
  fextend s' = Ok c.
Proof.
  unfold fdetermine. destruct (findex s (fs_rfmin s)) as [a|e| |]; cbn [obind]; try discriminate.
  destruct (findex s (fs_rfmax s)) as [b|e| |]; cbn [obind]; try discriminate.
  destruct (fextend _) as [d|e| |] eqn:E; cbn [obind]; try discriminate.
  intros H. injection H as <- <-. exists a, b. repeat split. exact E.
Qed.
Lemma reached_inv s : reached s -> inv s.
Proof.
  induction 1 as [q a b n s H|q r s H|q r s H|s a b s' _ IH H|s s' c _ IH H].
  - unfold falloc in H. destruct (_ || _)%bool; [discriminate H|]. destruct (Z.leb_spec n 1); [discriminate H|].
    destruct (flt q fzero); [discriminate H|]. injection H as <-. unfold inv. cbn. repeat split; try lia. now left.
  - unfold fread_arrays in H. destruct r as [|p t]; [discriminate H|]. destruct (fregular (p :: t)); [|discriminate H].
    injection H as <-. unfold inv. cbn [fs_dr fs_rmin fs_rmax fs_bin fs_rfmin fs_rfmax]. split; [reflexivity|].
    split; [cbn [length]; lia|]. split; [|now left]. intros E. apply (last_one (p :: t) p). cbn [length] in *. lia.
  - unfold fread_stream in H. destruct (fregular r); [|discriminate H]. destruct r as [|p [|p2 t]]; try discriminate H.
    injection H as <-. unfold inv. cbn [fs_dr fs_rmin fs_rmax fs_bin fs_rfmin fs_rfmax]. split; [reflexivity|].
    split; [cbn [length]; lia|]. split; [|now left]. intros E. cbn [length] in E. lia.
  - unfold frange in H. destruct (fle b a); [discriminate H|].
    destruct (fle (fs_rmin s) a && _ && _ && _)%bool eqn:E; [|discriminate H]. injection H as <-.
    apply andb_prop in E. destruct E as [E E4]. apply andb_prop in E. destruct E as [E E3]. apply andb_prop in E. destruct E as [E1 E2].
    destruct IH as (I1 & I2 & I3 & _). unfold inv. cbn. repeat split; try assumption. right. repeat split; assumption.
  - destruct (fdetermine_inv _ _ _ H) as (a & b & _ & _ & -> & _). eapply inv_keep; [..|exact IH]; reflexivity.
Qed.

(** ** bounds on the step *)
Section Steps.
Variable s : fset.
Hypothesis (I : inv s) (A : apart s).
Let D := width s.
Let n := steps s.

Lemma width_pos : 0 < D.
Proof. destruct A as (_ & _ & _ & _ & H & _). pose proof (bpow_gt_0 radix2 (-900)). unfold D. lra. Qed.
Lemma bin_ge : (2 <= fs_bin s)%Z.
Proof.
  destruct I as (_ & B & C & _). destruct (Z.eq_dec (fs_bin s) 1) as [E|E]; [|lia].
  specialize (C E). pose proof width_pos as W. unfold D, width in W. rewrite C in W. lra.
Qed.
Lemma n_bounds : 1 <= n <= bpow radix2 31.
Proof.
  destruct A as (_ & _ & _ & _ & _ & H). pose proof bin_ge. unfold n, steps. split.
  - apply IZR_le. lia.
  - change (bpow radix2 31) with (IZR (Zpower radix2 31)). apply IZR_le. change (Zpower radix2 31) with 2147483648%Z. lia.
Qed.
Lemma step_pos : 0 < step s.
Proof. pose proof width_pos. pose proof n_bounds. unfold step. fold D n. apply Rdiv_lt_0_compat; lra. Qed.
Lemma step_n : step s * n = D.
Proof. pose proof n_bounds. unfold step. fold D n. field. lra. Qed.

(** range of r *)
Lemma D_le : D <= bpow radix2 901.
Proof.
  destruct A as (_ & _ & H1 & H2 & _). unfold D, width. replace (bpow radix2 901) with (2 * bpow radix2 900) by (symmetry; apply (bpow_plus radix2 1 900)).
  revert H1 H2. unfold Rabs. destruct (Rcase_abs _), (Rcase_abs _); lra.
Qed.
Lemma rnD : exists e, Rabs e <= uu /\ rn D = D * (1 + e) /\ bpow radix2 (-900) <= rn D <= bpow radix2 901.
Proof.
  destruct (rn_minus (fs_rmax s) (fs_rmin s)) as (e & He & E). fold (width s) in E. fold D in E.
  exists e. split; [exact He|]. split; [exact E|]. split.
  - rewrite <- (rn_bpow (-900)) by lia. apply rn_mono. apply A.
  - rewrite <- (rn_bpow 901) by lia. apply rn_mono. apply D_le.
Qed.
Lemma sub_ok : fin (fsub (fs_rmax s) (fs_rmin s)) /\ val (fsub (fs_rmax s) (fs_rmin s)) = rn D.
Proof.
  apply fsub_ok; try apply A. fold (width s). fold D. apply rn_small with 901%Z; [lia|].
  pose proof width_pos. rewrite Rabs_pos_eq by lra. apply D_le.
Qed.
Lemma dr_ok : fin (fs_dr s) /\ val (fs_dr s) = rn (rn D / n).
Proof.
  destruct I as (E & _). rewrite E. unfold fstep. destruct sub_ok as [F V].
  destruct (fofz_ok (fs_bin s - 1)) as [F' V']. { destruct A as (_ & _ & _ & _ & _ & H). pose proof bin_ge. lia. }
  pose proof n_bounds as N. destruct rnD as (e & _ & _ & B).
  pose proof (bpow_gt_0 radix2 (-900)).
  assert (Z : val (fofz (fs_bin s - 1)) <> 0) by (rewrite V'; fold (steps s); fold n; lra).
  rewrite <- V. replace n with (val (fofz (fs_bin s - 1))) by (rewrite V'; reflexivity).
  apply fdiv_ok; [exact F|exact Z|]. rewrite V, V'. fold (steps s). fold n.
  apply rn_small with 901%Z; [lia|].
  assert (P : 0 <= rn D / n) by (apply Rmult_le_pos; [lra|left; apply Rinv_0_lt_compat; lra]).
  rewrite Rabs_pos_eq by exact P. apply Rle_trans with (rn D / 1); [|lra].
  unfold Rdiv. apply Rmult_le_compat_l; [lra|]. apply Rinv_le; lra.
Qed.
Definition hh : R := val (fs_dr s).
Lemma quo_lo : bpow radix2 (-931) <= rn D / n.
Proof.
  pose proof n_bounds as N. destruct rnD as (e & _ & _ & B).
  apply Rmult_le_reg_r with n; [lra|]. unfold Rdiv. rewrite Rmult_assoc, Rinv_l, Rmult_1_r by lra.
  apply Rle_trans with (bpow radix2 (-931) * bpow radix2 31); [apply Rmult_le_compat_l; [apply bpow_ge_0|lra]|].
  rewrite <- bpow_plus. change (-931 + 31)%Z with (-900)%Z. lra.
Qed.
Lemma quo_hi : rn D / n <= bpow radix2 901.
Proof.
  pose proof n_bounds as N. destruct rnD as (e & _ & _ & B). pose proof (bpow_gt_0 radix2 (-900)).
  apply Rle_trans with (rn D / 1); [|lra].
  unfold Rdiv. apply Rmult_le_compat_l; [lra|]. apply Rinv_le; lra.
Qed.
Lemma hh_rel : exists e, Rabs e <= uu /\ hh = rn D / n * (1 + e).
Proof.
  unfold hh. destruct dr_ok as [_ ->]. apply rn_rel. pose proof quo_lo as Q. pose proof (bpow_gt_0 radix2 (-931)).
  rewrite Rabs_pos_eq by lra. apply Rle_trans with (bpow radix2 (-931)); [apply bpow_le; lia|exact Q].
Qed.
Lemma hh_lo : bpow radix2 (-931) <= hh.
Proof. unfold hh. destruct dr_ok as [_ ->]. rewrite <- (rn_bpow (-931)) by lia. apply rn_mono. exact quo_lo. Qed.
Lemma hh_hi : hh <= bpow radix2 901.
Proof. unfold hh. destruct dr_ok as [_ ->]. rewrite <- (rn_bpow 901) by lia. apply rn_mono. exact quo_hi. Qed.
Lemma hh_pos : 0 < hh.
Proof. pose proof hh_lo. pose proof (bpow_gt_0 radix2 (-931)). lra. Qed.
Lemma uu_val : uu = / 9007199254740992.
Proof. reflexivity. Qed.
(** the computed step is the exact step up to 2.1 units *)
Lemma hh_step : exists e, Rabs e <= 3 * uu /\ hh = step s * (1 + e).
Proof.
  destruct hh_rel as (e & He & E). destruct rnD as (f & Hf & F & _).
  exists (e + f + e * f). split.
  - assert (Rabs (e * f) <= uu).
    { rewrite Rabs_mult. rewrite uu_val in *. pose proof (Rabs_pos e). pose proof (Rabs_pos f). nra. }
    pose proof (Rabs_triang (e + f) (e * f)). pose proof (Rabs_triang e f). lra.
  - rewrite E, F. unfold step. fold D n. unfold Rdiv. ring.
Qed.

(** ** the index of a value *)
Definition quo (x : R) : R := rn (rn (x - val (fs_rmin s)) / hh).
Lemma quo_mono x y : x <= y -> quo x <= quo y.
Proof.
  intros H. unfold quo. apply rn_mono. apply Rmult_le_compat_r; [left; apply Rinv_0_lt_compat, hh_pos|].
  apply rn_mono. lra.
Qed.
Lemma hh_ne : val (fs_dr s) <> 0.
Proof. pose proof hh_pos as H. unfold hh in H. lra. Qed.
Lemma findex_ok x k : findex s x = Ok k -> fin x /\ near (quo (val x)) k.
Proof.
  intros E. unfold findex in E. apply fnint_ok in E. destruct E as [F N].
  destruct (fdiv_fin _ _ hh_ne F) as [F1 V1]. destruct (fsub_fin _ _ F1) as (F2 & _ & V2).
  split; [exact F2|]. rewrite V1, V2 in N. exact N.
Qed.
Lemma findex_in x k : fin x -> Rabs (rn (val x - val (fs_rmin s))) < big -> Rabs (quo (val x)) < big ->
  near (quo (val x)) k -> (-2147483648 <= k <= 2147483647)%Z -> findex s x = Ok k.
Proof.
  intros F B1 B2 N K. unfold findex.
  destruct (fsub_ok x (fs_rmin s) F (proj1 A) B1) as [F1 V1].
  unfold quo in B2. rewrite <- V1 in B2.
  destruct (fdiv_ok _ _ F1 hh_ne B2) as [F2 V2].
  apply fnint_in; try assumption. rewrite V2, V1. exact N.
Qed.
Lemma findex_big x k : findex s x = Ok k -> Rabs (rn (val x - val (fs_rmin s))) < big /\ Rabs (quo (val x)) < big.
Proof.
  intros E. unfold findex in E. apply fnint_ok in E. destruct E as [F N].
  destruct (fdiv_fin _ _ hh_ne F) as [F1 V1]. destruct (fsub_fin _ _ F1) as (F2 & _ & V2).
  split.
  - rewrite <- V2. apply (abs_B2R_lt_emax 53 1024).
  - unfold quo. fold hh in V1. rewrite <- V2, <- V1. apply (abs_B2R_lt_emax 53 1024).
Qed.
Lemma findex_mono x y i j : findex s x = Ok i -> findex s y = Ok j -> val x <= val y -> (i <= j)%Z.
Proof.
  intros X Y L. apply findex_ok in X. apply findex_ok in Y. eapply near_mono; [apply X|apply Y|]. now apply quo_mono.
Qed.
Lemma findex_val x y i : findex s x = Ok i -> fin y -> val x = val y -> findex s y = Ok i.
Proof.
  intros X F E. pose proof (findex_big _ _ X) as [B1 B2]. pose proof (findex_ok _ _ X) as [_ N].
  rewrite E in *. apply findex_in; try assumption.
  unfold findex, fnint, fconv in X. 
  destruct (fdiv (fsub x (fs_rmin s)) (fs_dr s)) as [z|z| |z m e H]; try discriminate X.
  - injection X as <-. lia.
  - unfold to_int in X. destruct (_ && _)%bool eqn:Q; [|discriminate X]. injection X as <-.
    apply andb_prop in Q. destruct Q as [Q1 Q2]. apply Z.leb_le in Q1. apply Z.leb_le in Q2. lia.
Qed.
Lemma near_total x : exists k, near x k.
Proof.
  destruct (Rle_or_lt 0 x) as [P|P].
  - exists (Zfloor (x + / 2)). pose proof (Zfloor_lb (x + / 2)). pose proof (Zfloor_ub (x + / 2)). split; intros Q; [lra|].
    assert (x = 0) by lra. subst x. replace (0 + / 2) with (/ 2) in * by lra.
    rewrite (Zfloor_imp 0) by (cbn; lra). lra.
  - exists (- Zfloor (- x + / 2))%Z. unfold near. rewrite opp_IZR. pose proof (Zfloor_lb (- x + / 2)). pose proof (Zfloor_ub (- x + / 2)). split; intros Q; lra.
Qed.
Lemma int_range x i : findex s x = Ok i -> (-2147483648 <= i <= 2147483647)%Z.
Proof.
  intros X. unfold findex, fnint, fconv in X. 
  destruct (fdiv (fsub x (fs_rmin s)) (fs_dr s)) as [z|z| |z m e H]; try discriminate X.
  - injection X as <-. lia.
  - unfold to_int in X. destruct (_ && _)%bool eqn:Q; [|discriminate X]. injection X as <-.
    apply andb_prop in Q. destruct Q as [Q1 Q2]. apply Z.leb_le in Q1. apply Z.leb_le in Q2. lia.
Qed.
Lemma abs_between a b c m : a <= b <= c -> Rabs a < m -> Rabs c < m -> Rabs b < m.
Proof. intros H P Q. apply Rabs_def2 in P. apply Rabs_def2 in Q. apply Rabs_def1; lra. Qed.
(** a value between two values that have an index has one, in between *)
Lemma findex_between x y z i j : findex s x = Ok i -> findex s z = Ok j -> fin y -> val x <= val y <= val z ->
  exists k, findex s y = Ok k /\ (i <= k <= j)%Z.
Proof.
  intros X Z F L. pose proof (findex_big _ _ X) as [X1 X2]. pose proof (findex_big _ _ Z) as [Z1 Z2].
  pose proof (int_range _ _ X). pose proof (int_range _ _ Z).
  pose proof (findex_ok _ _ X) as [_ NX]. pose proof (findex_ok _ _ Z) as [_ NZ].
  destruct (near_total (quo (val y))) as (k & N). exists k.
  assert (K : (i <= k <= j)%Z) by (split; eapply near_mono; eauto; apply quo_mono; lra).
  split; [|exact K]. apply findex_in; try assumption; [..|lia].
  - eapply abs_between; [|exact X1|exact Z1]. split; apply rn_mono; lra.
  - eapply abs_between; [|exact X2|exact Z2]. split; apply quo_mono; lra.
Qed.

(** the two ends *)
Lemma quo_rmin : quo (val (fs_rmin s)) = 0.
Proof. unfold quo. rewrite Rminus_diag_eq by reflexivity. rewrite rn_0. unfold Rdiv. rewrite Rmult_0_l. apply rn_0. Qed.
Lemma big_pos : 0 < big. Proof. apply bpow_gt_0. Qed.
Lemma index_rmin : findex s (fs_rmin s) = Ok 0%Z.
Proof.
  apply findex_in; [apply A|..].
  - rewrite Rminus_diag_eq by reflexivity. rewrite rn_0, Rabs_R0. apply big_pos.
  - rewrite quo_rmin, Rabs_R0. apply big_pos.
  - rewrite quo_rmin. apply near_of. rewrite Rminus_0_r, Rabs_R0. lra.
  - lia.
Qed.
Lemma b31 : bpow radix2 31 = 2147483648. Proof. reflexivity. Qed.
Lemma quo_rmax : Rabs (quo (val (fs_rmax s)) - n) <= / 1000.
Proof.
  unfold quo. fold (width s). fold D.
  destruct hh_rel as (e & He & E). destruct rnD as (f & Hf & F & B). pose proof n_bounds as N.
  pose proof (bpow_gt_0 radix2 (-900)) as BP.
  assert (P : rn D <> 0) by lra.
  rewrite uu_val in *. rewrite b31 in N.
  assert (He' : -/ 9007199254740992 <= e <= / 9007199254740992) by (revert He; unfold Rabs; destruct (Rcase_abs e); lra).
  assert (Q : rn D / hh = n * / (1 + e)).
  { rewrite E. field. repeat split; lra. }
  assert (QI : / 2 <= / (1 + e) <= 2).
  { split; [apply Rinv_le; lra|]. replace 2 with (/ (/ 2)) by lra. apply Rinv_le; lra. }
  destruct (rn_rel (rn D / hh)) as (g & Hg & G).
  { rewrite Q. rewrite Rabs_pos_eq by nra. apply Rle_trans with (/ 2); [|nra]. change (/ 2) with (bpow radix2 (-1)). apply bpow_le. lia. }
  rewrite G, Q. rewrite uu_val in Hg.
  replace (n * / (1 + e) * (1 + g) - n) with (n * (/ (1 + e) * (g - e))) by (field; lra).
  rewrite Rabs_mult, (Rabs_pos_eq n) by lra.
  assert (Rabs (/ (1 + e) * (g - e)) <= 2 * (2 * / 9007199254740992)).
  { rewrite Rabs_mult. rewrite (Rabs_pos_eq (/ (1 + e))) by lra.
    assert (Rabs (g - e) <= 2 * / 9007199254740992).
    { pose proof (Rabs_triang g (- e)). rewrite Rabs_Ropp in H. unfold Rminus. lra. }
    pose proof (Rabs_pos (g - e)). apply Rmult_le_compat; lra. }
  pose proof (Rabs_pos (/ (1 + e) * (g - e))).
  apply Rle_trans with (2147483648 * (2 * (2 * / 9007199254740992))); [apply Rmult_le_compat; lra|lra].
Qed.
Lemma index_rmax : findex s (fs_rmax s) = Ok (fs_bin s - 1)%Z.
Proof.
  pose proof quo_rmax as Q. pose proof n_bounds as N. rewrite b31 in N.
  apply findex_in; [apply A|..].
  - fold (width s). fold D. apply rn_small with 901%Z; [lia|]. pose proof width_pos. rewrite Rabs_pos_eq by lra. apply D_le.
  - apply Rlt_trans with (bpow radix2 32); [|apply bpow_lt; lia]. change (bpow radix2 32) with 4294967296.
    assert (Q' : -/1000 <= quo (val (fs_rmax s)) - n <= / 1000) by (revert Q; unfold Rabs; destruct (Rcase_abs _); lra).
    apply Rabs_def1; lra.
  - apply near_of. fold (steps s). fold n. lra.
  - destruct A as (_ & _ & _ & _ & _ & H). pose proof bin_ge. lia.
Qed.

(** quotient error for any value within 2^31 steps of rmin *)
Lemma quo_err x t : Rabs (val x - val (fs_rmin s)) <= t * step s -> 0 <= t <= bpow radix2 32 ->
  Rabs (quo (val x) * step s - (val x - val (fs_rmin s))) <= bpow radix2 (-16) * step s.
Proof.
  intros H T. unfold quo. set (d := val x - val (fs_rmin s)) in *.
  destruct (rn_minus x (fs_rmin s)) as (f & Hf & F). fold d in F. rewrite F.
  destruct hh_step as (e & He & E). pose proof step_pos as SP. rewrite E.
  rewrite uu_val in *. change (bpow radix2 32) with 4294967296 in T. change (bpow radix2 (-16)) with (/ 65536).
  assert (He' : - (3 * / 9007199254740992) <= e <= 3 * / 9007199254740992) by (revert He; unfold Rabs; destruct (Rcase_abs e); lra).
  set (z := d * (1 + f) / (step s * (1 + e))).
  assert (QI : / 2 <= / (1 + e) <= 2).
  { split; [apply Rinv_le; lra|]. replace 2 with (/ (/ 2)) by lra. apply Rinv_le; lra. }
  assert (Zv : z * step s - d = d * (/ (1 + e) * (f - e))).
  { unfold z. field. split; lra. }
  assert (W : Rabs (/ (1 + e) * (f - e)) <= 8 * / 9007199254740992).
  { rewrite Rabs_mult. rewrite (Rabs_pos_eq (/ (1 + e))) by lra.
    assert (Rabs (f - e) <= 4 * / 9007199254740992).
    { pose proof (Rabs_triang f (- e)). rewrite Rabs_Ropp in H0. unfold Rminus. lra. }
    pose proof (Rabs_pos (f - e)). nra. }
  assert (Z1 : Rabs (z * step s - d) <= t * step s * (8 * / 9007199254740992)).
  { rewrite Zv, Rabs_mult. apply Rmult_le_compat; try apply Rabs_pos; assumption. }
  assert (Zb : Rabs (z * step s) <= 2 * t * step s).
  { replace (z * step s) with ((z * step s - d) + d) by ring. pose proof (Rabs_triang (z * step s - d) d).
    assert (t * step s * (8 * / 9007199254740992) <= t * step s) by (assert (0 <= t * step s) by (apply Rmult_le_pos; lra); lra). lra. }
  assert (Zr : Rabs (rn z - z) * step s <= (2 * t * / 9007199254740992 + bpow radix2 (-1000)) * step s).
  { destruct (Rle_or_lt (bpow radix2 (-1022)) (Rabs z)) as [L|L].
    - destruct (rn_rel z L) as (g & Hg & G). rewrite uu_val in Hg. rewrite G. replace (z * (1 + g) - z) with (z * g) by ring.
      rewrite Rabs_mult. rewrite Rabs_mult, (Rabs_pos_eq (step s)) in Zb by lra.
      pose proof (bpow_gt_0 radix2 (-1000)). pose proof (Rabs_pos z). pose proof (Rabs_pos g).
      assert (Zz : Rabs z <= 2 * t) by (apply Rmult_le_reg_r with (step s); lra).
      apply Rmult_le_compat_r; [lra|]. assert (Rabs z * Rabs g <= 2 * t * / 9007199254740992) by (apply Rmult_le_compat; lra). lra.
    - apply Rmult_le_compat_r; [lra|].
      pose proof (rn_abs_le z (-1022) ltac:(lia) (Rlt_le _ _ L)).
      pose proof (Rabs_triang (rn z) (- z)). rewrite Rabs_Ropp in H1. unfold Rminus.
      assert (2 * bpow radix2 (-1022) <= bpow radix2 (-1000)).
      { change 2 with (bpow radix2 1). rewrite <- bpow_plus. apply bpow_le. lia. }
      assert (0 <= 2 * t * / 9007199254740992) by lra. lra. }
  assert (bpow radix2 (-1000) <= / 1000000).
  { apply Rle_trans with (bpow radix2 (-20)); [apply bpow_le; lia|]. change (bpow radix2 (-20)) with (/ 1048576). apply Rinv_le; lra. }
  replace (rn z * step s - d) with ((rn z - z) * step s + (z * step s - d)) by ring.
  pose proof (Rabs_triang ((rn z - z) * step s) (z * step s - d)) as TR. rewrite Rabs_mult, (Rabs_pos_eq (step s)) in TR by lra.
  assert (t * step s * (8 * / 9007199254740992) <= 4294967296 * (8 * / 9007199254740992) * step s) by nra.
  assert ((2 * t * / 9007199254740992 + bpow radix2 (-1000)) * step s <= (2 * 4294967296 * / 9007199254740992 + / 1000000) * step s) by (apply Rmult_le_compat_r; lra).
  lra.
Qed.
(** the index is that of the nearest point *)
Lemma index_near x i : findex s x = Ok i -> Rabs (val x - val (fs_rmin s)) <= bpow radix2 32 * step s ->
  Rabs (val x - point s i) <= (/ 2 + bpow radix2 (-16)) * step s.
Proof.
  intros X H. pose proof (findex_ok _ _ X) as [_ N]. apply near_abs in N.
  pose proof (quo_err x (bpow radix2 32) H ltac:(split; [apply bpow_ge_0|lra])) as Q. pose proof step_pos as SP.
  unfold point. set (q := quo (val x)) in *.
  replace (val x - (val (fs_rmin s) + IZR i * step s)) with (- (q * step s - (val x - val (fs_rmin s))) + (q - IZR i) * step s) by ring.
  eapply Rle_trans; [apply Rabs_triang|]. rewrite Rabs_Ropp, Rabs_mult, (Rabs_pos_eq (step s)) by lra.
  assert (Rabs (q - IZR i) * step s <= / 2 * step s) by (apply Rmult_le_compat_r; lra). lra.
Qed.

(** ** the fit range *)
Lemma rf_bounds : fin (fs_rfmin s) /\ fin (fs_rfmax s) /\
  val (fs_rmin s) <= val (fs_rfmin s) /\ val (fs_rfmin s) <= val (fs_rfmax s) /\ val (fs_rfmax s) <= val (fs_rmax s).
Proof.
  destruct A as (F1 & F2 & _). destruct I as (_ & _ & _ & [[-> ->]|(L1 & L2 & L3 & L4)]).
  - pose proof width_pos as W. unfold D, width in W. repeat split; try assumption; lra.
  - assert (Fa : fin (fs_rfmin s)) by (eapply fle_fin; [exact F1|exact F2|exact L1|exact L2]).
    assert (Fb : fin (fs_rfmax s)) by (eapply fle_fin; [exact Fa|exact F2|now apply flt_fle|exact L3]).
    repeat split; try assumption; [now apply fle_R|left; now apply flt_R|now apply fle_R].
Qed.
Lemma D_steps : D <= bpow radix2 32 * step s.
Proof.
  pose proof step_n as E. pose proof n_bounds as N. pose proof step_pos. rewrite b31 in N. change (bpow radix2 32) with 4294967296. nra.
Qed.
Lemma fit_range : exists a b, good_fit_range s a b.
Proof.
  destruct rf_bounds as (F1 & F2 & L1 & L2 & L3). pose proof index_rmin as X. pose proof index_rmax as Y.
  destruct (findex_between _ (fs_rfmin s) _ _ _ X Y F1 ltac:(lra)) as (a & Ea & Ka).
  destruct (findex_between _ (fs_rfmax s) _ _ _ X Y F2 ltac:(lra)) as (b & Eb & Kb).
  pose proof (findex_mono _ _ _ _ Ea Eb L2) as M. exists a, b.
  pose proof D_steps as DS. unfold D, width in DS.
  unfold good_fit_range. repeat split; try assumption; try lia.
  - intros E. pose proof (findex_val _ _ _ X F1 (eq_sym E)). congruence.
  - intros E. pose proof (findex_val _ _ _ Y F2 (eq_sym E)). congruence.
  - apply index_near; [exact Ea|]. rewrite Rabs_pos_eq by lra. lra.
  - apply index_near; [exact Eb|]. rewrite Rabs_pos_eq by lra. lra.
Qed.

(** ** the points of the grid *)
Section Point.
Variable k : Z.
Hypothesis K : (0 <= k <= fs_bin s - 1)%Z.
Lemma k_n : 0 <= IZR k <= n.
Proof. unfold n, steps. split; apply IZR_le; lia. Qed.
Lemma kh_le : IZR k * hh <= bpow radix2 902.
Proof.
  destruct hh_step as (e & He & E). pose proof k_n as KN. pose proof step_pos as SP. pose proof step_n as SN. pose proof D_le as DL.
  rewrite uu_val in He. assert (He' : e <= 1) by (revert He; unfold Rabs; destruct (Rcase_abs e); lra).
  rewrite E. apply Rle_trans with (2 * (IZR k * step s)).
  - assert (0 <= IZR k * step s) by (apply Rmult_le_pos; lra). nra.
  - replace (bpow radix2 902) with (2 * bpow radix2 901) by (symmetry; apply (bpow_plus radix2 1 901)).
    assert (IZR k * step s <= n * step s) by (apply Rmult_le_compat_r; lra). lra.
Qed.
Lemma kh_ok : exists e, Rabs e <= uu /\ fin (fmul (fofz k) (fs_dr s)) /\ val (fmul (fofz k) (fs_dr s)) = IZR k * hh * (1 + e)
   /\ 0 <= IZR k * hh * (1 + e) <= bpow radix2 902.
Proof.
  destruct dr_ok as [F _]. pose proof n_bounds as N. rewrite b31 in N. pose proof k_n as KN. pose proof hh_pos as HP.
  destruct (fofz_ok k) as [Fk Vk]. { destruct A as (_ & _ & _ & _ & _ & H). lia. }
  assert (P : 0 <= IZR k * hh) by (apply Rmult_le_pos; lra). pose proof kh_le as KL.
  destruct (fmul_ok (fofz k) (fs_dr s) Fk F) as [F1 V1].
  { rewrite Vk. fold hh. apply rn_small with 902%Z; [lia|]. rewrite Rabs_pos_eq by exact P. exact KL. }
  rewrite Vk in V1. fold hh in V1.
  assert (B : 0 <= rn (IZR k * hh) <= bpow radix2 902).
  { split; [now apply rn_pos|]. rewrite <- (rn_bpow 902) by lia. now apply rn_mono. }
  destruct (Z.eq_dec k 0) as [E0|E0].
  - exists 0. rewrite Rabs_R0. split; [apply bpow_ge_0|]. split; [exact F1|]. subst k. rewrite V1. rewrite !Rmult_0_l in *. rewrite rn_0. split; [reflexivity|]. split; [lra|apply bpow_ge_0].
  - destruct (rn_rel (IZR k * hh)) as (e & He & E).
    + rewrite Rabs_pos_eq by exact P. assert (1 <= IZR k) by (apply IZR_le; lia). pose proof hh_lo.
      apply Rle_trans with (bpow radix2 (-931)); [apply bpow_le; lia|]. pose proof (bpow_ge_0 radix2 (-931)). nra.
    + exists e. split; [exact He|]. split; [exact F1|]. rewrite E in V1, B. split; [exact V1|exact B].
Qed.
Lemma grid_val : exists e f, Rabs e <= uu /\ Rabs f <= uu /\ fin (fgrid s k) /\
  val (fgrid s k) = (IZR k * hh * (1 + e) + val (fs_rmin s)) * (1 + f) /\ val (fs_rmin s) <= val (fgrid s k) <= bpow radix2 903 /\
  - bpow radix2 901 <= val (fs_rmin s).
Proof.
  destruct kh_ok as (e & He & F & V & B). unfold fgrid.
  destruct A as (F0 & _ & R0 & _).
  assert (R0' : - bpow radix2 900 <= val (fs_rmin s) <= bpow radix2 900) by (revert R0; unfold Rabs; destruct (Rcase_abs _); lra).
  assert (B1 : bpow radix2 900 <= bpow radix2 902) by (apply bpow_le; lia).
  assert (B2 : bpow radix2 900 <= bpow radix2 901) by (apply bpow_le; lia).
  assert (B3 : bpow radix2 903 = 2 * bpow radix2 902) by apply (bpow_plus radix2 1 902).
  assert (S1 : Rabs (val (fmul (fofz k) (fs_dr s)) + val (fs_rmin s)) <= bpow radix2 903) by (rewrite V; apply Rabs_le; lra).
  destruct (fadd_ok _ _ F F0) as [F1 V1]. { apply rn_small with 903%Z; [lia|exact S1]. }
  destruct (rn_plus (fmul (fofz k) (fs_dr s)) (fs_rmin s)) as (f & Hf & E).
  exists e, f. split; [exact He|]. split; [exact Hf|]. split; [exact F1|]. split; [rewrite V1, E, V; reflexivity|].
  split; [|lra]. rewrite V1. split.
  - rewrite <- (rn_val (fs_rmin s)) at 1. apply rn_mono. rewrite V. lra.
  - rewrite <- (rn_bpow 903) by lia. apply rn_mono. revert S1. unfold Rabs. destruct (Rcase_abs _); lra.
Qed.
Lemma grid_acc : Rabs (val (fgrid s k) - point s k) <= bpow radix2 (-50) * (Rabs (val (fs_rmin s)) + Rabs (val (fs_rmax s))).
Proof.
  destruct grid_val as (e & f & He & Hf & _ & V & _). rewrite V. destruct hh_step as (g & Hg & E). rewrite E.
  unfold point. pose proof k_n as KN. pose proof step_pos as SP. pose proof step_n as SN.
  set (a := val (fs_rmin s)) in *. set (b := val (fs_rmax s)) in *. set (T := Rabs a + Rabs b).
  assert (DT : D <= T).
  { unfold D, width. fold a b. unfold T, Rabs. destruct (Rcase_abs a), (Rcase_abs b); lra. }
  set (x := IZR k * step s).
  assert (X : 0 <= x <= T).
  { unfold x. split; [apply Rmult_le_pos; lra|]. apply Rle_trans with (n * step s); [apply Rmult_le_compat_r; lra|lra]. }
  assert (XA : Rabs (x + a) <= T).
  { assert (x <= D) by (unfold x; rewrite <- SN, Rmult_comm; apply Rmult_le_compat_l; lra).
    unfold D, width in H. fold a b in H. unfold T, Rabs. destruct (Rcase_abs _), (Rcase_abs a), (Rcase_abs b); lra. }
  replace (IZR k * (step s * (1 + g)) * (1 + e)) with (x * (1 + g) * (1 + e)) by (unfold x; ring).
  rewrite uu_val in *. change (bpow radix2 (-50)) with (/ 1125899906842624).
  set (d := x * (g + e + g * e)).
  replace ((x * (1 + g) * (1 + e) + a) * (1 + f) - (a + x)) with (d + (x + a + d) * f) by (unfold d; ring).
  assert (HD : Rabs d <= T * (5 * / 9007199254740992)).
  { unfold d. rewrite Rabs_mult, (Rabs_pos_eq x) by lra. apply Rmult_le_compat; try apply Rabs_pos; try lra.
    assert (Rabs (g * e) <= / 9007199254740992) by (rewrite Rabs_mult; pose proof (Rabs_pos e); pose proof (Rabs_pos g); nra).
    pose proof (Rabs_triang (g + e) (g * e)). pose proof (Rabs_triang g e). lra. }
  pose proof (Rabs_triang d ((x + a + d) * f)) as TR. rewrite Rabs_mult in TR. pose proof (Rabs_triang (x + a) d) as TR2.
  pose proof (Rabs_pos f). pose proof (Rabs_pos (x + a + d)).
  assert (Rabs (x + a + d) * Rabs f <= 2 * T * / 9007199254740992) by (apply Rmult_le_compat; lra).
  lra.
Qed.
Hypothesis Rz : resolved s.
Lemma grid_index : findex s (fgrid s k) = Ok k.
Proof.
  destruct grid_val as (e & f & He & Hf & F & V & (G1 & G2) & G3).
  destruct Rz as [R1 _]. pose proof step_pos as SP. pose proof k_n as KN. pose proof n_bounds as N. rewrite b31 in N.
  destruct hh_step as (g & Hg & E).
  assert (ER : Rabs (val (fgrid s k) - point s k) <= / 8 * step s).
  { eapply Rle_trans; [apply grid_acc|]. destruct Rz as [Ra Rb].
    change (bpow radix2 (-50)) with (/ 1125899906842624). change (bpow radix2 46) with 70368744177664 in *. lra. }
  assert (H : Rabs (val (fgrid s k) - val (fs_rmin s)) <= bpow radix2 32 * step s).
  { change (bpow radix2 32) with 4294967296. rewrite Rabs_pos_eq by lra. unfold point in ER.
    assert (IZR k * step s <= 2147483648 * step s) by (apply Rmult_le_compat_r; lra).
    revert ER. unfold Rabs. destruct (Rcase_abs _); lra. }
  pose proof (quo_err (fgrid s k) (bpow radix2 32) H ltac:(split; [apply bpow_ge_0|lra])) as Q.
  set (q := quo (val (fgrid s k))) in *. change (bpow radix2 (-16)) with (/ 65536) in Q.
  assert (QK : Rabs (q - IZR k) <= / 4).
  { apply Rmult_le_reg_r with (step s); [exact SP|]. rewrite <- (Rabs_pos_eq (step s)) at 1 by lra. rewrite <- Rabs_mult.
    replace ((q - IZR k) * step s) with ((q * step s - (val (fgrid s k) - val (fs_rmin s))) + (val (fgrid s k) - point s k)) by (unfold point; ring).
    eapply Rle_trans; [apply Rabs_triang|]. lra. }
  assert (QK' : - / 4 <= q - IZR k <= / 4) by (revert QK; unfold Rabs; destruct (Rcase_abs _); lra).
  apply findex_in; [exact F|..].
  - apply rn_small with 904%Z; [lia|]. rewrite Rabs_pos_eq by lra.
    assert (bpow radix2 901 <= bpow radix2 903) by (apply bpow_le; lia).
    replace (bpow radix2 904) with (2 * bpow radix2 903) by (symmetry; apply (bpow_plus radix2 1 903)). lra.
  - fold q. apply Rlt_trans with (bpow radix2 32); [|apply bpow_lt; lia]. change (bpow radix2 32) with 4294967296. apply Rabs_def1; lra.
  - fold q. apply near_of. lra.
  - destruct A as (_ & _ & _ & _ & _ & HH). lia.
Qed.
Lemma grid_point : good_point s k.
Proof. destruct grid_val as (e & f & _ & _ & F & _). repeat split; [exact F|exact grid_index|exact grid_acc]. Qed.
End Point.

Section Grid.
Hypothesis Rz : resolved s.
Lemma grid_lt i j : (0 <= i < j)%Z -> (j <= fs_bin s - 1)%Z -> val (fgrid s i) < val (fgrid s j).
Proof.
  intros H J. apply Rnot_le_lt. intros L.
  pose proof (grid_index i ltac:(lia) Rz) as X. pose proof (grid_index j ltac:(lia) Rz) as Y.
  pose proof (findex_mono _ _ _ _ Y X L). lia.
Qed.
Lemma grid_below j : (0 <= j < fs_bin s - 1)%Z -> val (fgrid s j) <= val (fs_rmax s).
Proof.
  intros J. pose proof (grid_acc j ltac:(lia)) as G. destruct Rz as [Ra Rb]. pose proof step_pos as SP. pose proof step_n as SN.
  change (bpow radix2 (-50)) with (/ 1125899906842624) in G. change (bpow radix2 46) with 70368744177664 in *.
  assert (P : point s j <= val (fs_rmax s) - step s).
  { unfold point. assert (IZR j <= n - 1) by (unfold n, steps; rewrite <- minus_IZR; apply IZR_le; lia).
    unfold D, width in SN. assert (IZR j * step s <= (n - 1) * step s) by (apply Rmult_le_compat_r; lra). lra. }
  revert G. unfold Rabs at 1. destruct (Rcase_abs _); lra.
Qed.
Lemma range_grid i j : (0 <= i < j)%Z -> (j < fs_bin s - 1)%Z ->
  exists s', frange s (fgrid s i) (fgrid s j) = Ok s' /\ findex s' (fs_rfmin s') = Ok i /\ findex s' (fs_rfmax s') = Ok j.
Proof.
  intros H J. destruct (grid_val i ltac:(lia)) as (_ & _ & _ & _ & Fi & _ & (Gi & _) & _).
  destruct (grid_val j ltac:(lia)) as (_ & _ & _ & _ & Fj & _ & (Gj & _) & _).
  pose proof (grid_lt i j H ltac:(lia)) as L. pose proof (grid_below i ltac:(lia)) as Bi. pose proof (grid_below j ltac:(lia)) as Bj.
  destruct A as (F0 & F1 & _). unfold frange. rewrite !fle_val, flt_val by assumption.
  rewrite Rle_bool_false by exact L. rewrite !Rle_bool_true, Rlt_bool_true by assumption. cbn [andb].
  eexists. split; [reflexivity|]. cbn [fs_rfmin fs_rfmax].
  split; [exact (grid_index i ltac:(lia) Rz)|exact (grid_index j ltac:(lia) Rz)].
Qed.
End Grid.
End Steps.
