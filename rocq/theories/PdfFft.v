(** The Qmax cutoff: a symmetric filter. *)
From Coq Require Import List Arith ZArith Reals Bool Lia Lra.
From Verif Require Import Base RSum MathModel MetricModel SphereModel SphereProof PdfModel PdfSpec PdfProof.
Import ListNotations.
Local Open Scope R_scope.

(** ** the Fourier sums *)
Definition re (z : list cplx) j := fst (nth j z (0, 0)).
Definition im (z : list cplx) j := snd (nth j z (0, 0)).
Definition ang (n j k : nat) : R := 2 * PI * INR j * INR k / INR n.

Lemma dft_length s z : length (dft s z) = length z.
Proof. unfold dft. rewrite map_length, seq_length. reflexivity. Qed.
Lemma fold_cplx (f g : nat -> R) n a b :
  fold_left (fun (acc : cplx) j => (fst acc + f j, snd acc + g j)) (seq 0 n) (a, b) = (a + rsum n f, b + rsum n g).
Proof.
  induction n. simpl. f_equal; lra. rewrite seq_S, fold_left_app, IHn. simpl. f_equal; lra.
Qed.
Lemma fold_left_ext A B (f g : A -> B -> A) l a : (forall x y, f x y = g x y) -> fold_left f l a = fold_left g l a.
Proof. intros H. revert a. induction l; simpl; intros; auto. rewrite H. auto. Qed.
Lemma nth_map_seq A (f : nat -> A) n k (x : A) : (k < n)%nat -> nth k (map f (seq 0 n)) x = f k.
Proof.
  intros H. rewrite (nth_indep _ _ (f 0%nat)) by (rewrite map_length, seq_length; auto). rewrite map_nth, seq_nth by auto. reflexivity.
Qed.
Lemma dft_nth s z k : (k < length z)%nat -> nth k (dft s z) (0, 0) =
  (rsum (length z) (fun j => re z j * cos (ang (length z) j k) - s * (im z j * sin (ang (length z) j k))),
   rsum (length z) (fun j => s * (re z j * sin (ang (length z) j k)) + im z j * cos (ang (length z) j k))).
Proof.
  intros H. unfold dft. set (n := length z) in *.
  rewrite nth_map_seq by auto.
  rewrite (fold_left_ext _ _ _ (fun (acc : cplx) j => (fst acc + (re z j * cos (ang n j k) - s * (im z j * sin (ang n j k))), snd acc + (s * (re z j * sin (ang n j k)) + im z j * cos (ang n j k))))).
  rewrite fold_cplx. f_equal; lra.
  intros acc j. unfold re, im, ang. destruct (nth j z (0, 0)); reflexivity.
Qed.

(** zeroing a set of slots *)
Lemma zero_ok idx : forall z : list cplx, (forall g, In g idx -> (0 <= g < Z.of_nat (length z))%Z) ->
  exists z', ofold (fun z i => wrz z i (0, 0)) idx z = Ok z' /\ length z' = length z /\
  forall k, (In (Z.of_nat k) idx -> nth k z' (0, 0) = (0, 0)) /\ (~ In (Z.of_nat k) idx -> nth k z' (0, 0) = nth k z (0, 0)).
Proof.
  induction idx as [|a idx IH]; intros z B.
  - exists z. split; auto. split; auto. intros k. split; auto. intros [].
  - cbn [ofold]. pose proof (B a (or_introl eq_refl)) as Ba. 
    assert (W : wrz z a (0, 0) = Ok (upd (Z.to_nat a) (0, 0) z)).
    { unfold wrz, wr. destruct (Z.ltb_spec a 0); [lia|]. destruct (Nat.ltb_spec (Z.to_nat a) (length z)); [|lia]. reflexivity. }
    rewrite W. cbn [obind].
    destruct (IH (upd (Z.to_nat a) (0, 0) z)) as (z' & E & L & X). { intros g Hg. rewrite upd_length. apply B; right; auto. }
    exists z'. split; auto. split. rewrite L, upd_length; auto. intros k. destruct (X k) as [X1 X2]. split.
    + intros [->|I]; auto. destruct (in_dec Z.eq_dec (Z.of_nat k) idx); auto. rewrite X2 by auto. rewrite upd_nth by lia. rewrite Nat2Z.id, Nat.eqb_refl. reflexivity.
    + intros I. rewrite X2 by (intros J; apply I; right; auto). rewrite upd_nth by lia. destruct (Nat.eqb_spec k (Z.to_nat a)); auto. subst. exfalso. apply I. left. lia.
Qed.

(** ** the filter *)
Lemma pad_ok len : (1 <= len)%nat -> is_pad len (2 ^ Nat.log2_up (2 * len)).
Proof.
  intros H. split. eexists; reflexivity. pose proof (Nat.log2_up_spec (2 * len) ltac:(lia)) as [A B].
  destruct (Nat.log2_up (2 * len)) as [|k] eqn:E. simpl in *. lia. cbn [Nat.pred] in A. rewrite Nat.pow_succ_r' in *. lia.
Qed.

Definition mask (lo : Z) (P k : nat) : bool := ((Z.of_nat k <? lo) || (Z.of_nat (P - k) <? lo))%Z.

Lemma rsum_if n (b : nat -> bool) f : rsum n (fun k => if b k then f k else 0) = rsum n (fun k => (if b k then 1 else 0) * f k).
Proof. apply rsum_ext. intros. destruct (b i); lra. Qed.

Lemma nth_pad (y : list R) P j : (length y <= P)%nat -> (j < P)%nat -> nth j (map (fun x => (x, 0)) y ++ repeat (0, 0) (P - length y)) (0, 0) = (nth j y 0, 0).
Proof.
  intros H1 H2. destruct (lt_dec j (length y)).
  - rewrite app_nth1 by (rewrite map_length; auto). exact (map_nth (fun x : R => (x, 0)) y 0 j) || (rewrite (nth_indep _ _ ((fun x : R => (x, 0)) 0)) by (rewrite map_length; auto); exact (map_nth (fun x : R => (x, 0)) y 0 j)).
  - rewrite app_nth2 by (rewrite map_length; lia). rewrite map_length. rewrite nth_overflow with (l := y) by lia.
    apply nth_repeat.
Qed.

Lemma cutoff_ok qmax deltar y : 0 < qmax -> 0 < deltar -> (1 <= length y)%nat ->
  4 * qmax * deltar * INR (length y) <= 1000000000 ->
  exists out, cutoff_fin qmax deltar y = Ok out /\ filtered qmax deltar y out.
Proof.
  intros Q D Ln Big. set (len := length y) in *. set (P := (2 ^ Nat.log2_up (2 * len))%nat).
  pose proof (pad_ok len Ln) as PAD. fold P in PAD. destruct PAD as [PW [PA PB]].
  unfold cutoff_fin. cbv zeta. fold len. fold P.
  set (dQ := 2 * PI / (INR (P - 1) * deltar)).
  assert (P1 : 1 <= INR (P - 1)) by (change 1 with (INR 1); apply le_INR; lia).
  pose proof PI_RGT_0 as PI0. assert (DQ : 0 < dQ). { apply Rdiv_lt_0_compat. lra. apply Rmult_lt_0_compat; lra. }
  set (lo := zceil (qmax / dQ)).
  assert (LO1 : (0 < lo)%Z). { apply zceil_gt. apply Rdiv_lt_0_compat; auto. }
  assert (LOQ : forall k : nat, (Z.of_nat k < lo)%Z <-> INR k * dQ < qmax).
  { intros k. unfold lo. rewrite zceil_gt, <- INR_IZR_INZ. split; intros H.
    - apply (Rmult_lt_compat_r dQ) in H; auto. replace (qmax / dQ * dQ) with qmax in H by (field; lra). auto.
    - apply (Rmult_lt_reg_r dQ); auto. replace (qmax / dQ * dQ) with qmax by (field; lra). auto. }
  assert (LO2 : (lo <= 1000000000)%Z).
  { apply zceil_le. assert (PB' : INR (P - 1) <= 4 * INR len). { replace (4 * INR len) with (INR (4 * len)) by (rewrite mult_INR; simpl; lra). apply le_INR. lia. }
    assert (H2 : 3 < PI). { pose proof PI2_3_2. lra. }
    assert (E : qmax / dQ = qmax * deltar * INR (P - 1) / (2 * PI)) by (unfold dQ; field; lra). rewrite E.
    assert (A1 : qmax * deltar * INR (P - 1) <= 1000000000).
    { assert (qmax * deltar * INR (P - 1) <= qmax * deltar * (4 * INR len)) by (apply Rmult_le_compat_l; auto; apply Rlt_le, Rmult_lt_0_compat; auto). lra. }
    assert (A0 : 0 < qmax * deltar * INR (P - 1)) by (repeat apply Rmult_lt_0_compat; lra).
    apply (Rmult_le_reg_r (2 * PI)); [lra|]. replace (qmax * deltar * INR (P - 1) / (2 * PI) * (2 * PI)) with (qmax * deltar * INR (P - 1)) by (field; lra). lra. }
  rewrite to_int_ok by lia. cbn [obind].
  set (Y := map (fun x => (x, 0)) y ++ repeat (0, 0) (P - len)).
  assert (LY : length Y = P) by (unfold Y; rewrite app_length, map_length, repeat_length; fold len; lia).
  destruct (zero_ok (zloop lo (Z.of_nat P + 1 - lo - 1)) (dft (-1) Y)) as (Z & E & LZ & ZX).
  { intros g Hg. apply zloop_in in Hg. rewrite dft_length, LY. lia. }
  rewrite E. cbn [obind]. rewrite dft_length, LY in LZ.
  eexists. split. reflexivity.
  assert (LEN : length (map fst (firstn len (map (fun z : cplx => (fst z / INR P, snd z / INR P)) (dft 1 Z)))) = len).
  { rewrite map_length, firstn_length, map_length, dft_length, LZ. lia. }
  exists P. split. split; auto. fold len. split; auto.
  intros m Hm.
  assert (PN : INR P <> 0) by (apply not_0_INR; lia).
  assert (FT : forall (l : list cplx) k, (k < len)%nat -> (len <= length l)%nat -> nth k (map fst (firstn len l)) 0 = fst (nth k l (0, 0))).
  { intros l k H1 H2. transitivity (nth k (map fst (firstn len l)) (fst (0, 0))); [reflexivity|]. rewrite (map_nth fst). f_equal.
    rewrite <- (firstn_skipn len l) at 2. rewrite app_nth1; auto. rewrite firstn_length. lia. }
  rewrite FT by (rewrite ?map_length, ?dft_length, ?LZ; lia).
  assert (ND : forall l : list cplx, (m < length l)%nat -> fst (nth m (map (fun z : cplx => (fst z / INR P, snd z / INR P)) l) (0, 0)) = fst (nth m l (0, 0)) / INR P).
  { intros l H. rewrite (nth_indep _ (0, 0) (0 / INR P, 0 / INR P)) by (rewrite map_length; auto). pose proof (map_nth (fun z : cplx => (fst z / INR P, snd z / INR P)) l (0, 0) m) as E1. cbn [fst snd] in E1. rewrite E1. reflexivity. }
  rewrite ND by (rewrite dft_length, LZ; lia). rewrite dft_nth by lia. cbn [fst]. rewrite LZ.
  (* the masked spectrum *)
  assert (MZ : forall k, (k < P)%nat -> nth k Z (0, 0) = if mask lo P k then nth k (dft (-1) Y) (0, 0) else (0, 0)).
  { intros k Hk. destruct (ZX k) as [Z1 Z2]. unfold mask. destruct (Z.ltb_spec (Z.of_nat k) lo), (Z.ltb_spec (Z.of_nat (P - k)) lo); cbn [orb].
    1-3: apply Z2; intros I; apply zloop_in in I; lia. apply Z1, zloop_in. lia. }
  assert (SP : forall k, (k < P)%nat -> nth k (dft (-1) Y) (0, 0) = (rsum P (fun j => nth j y 0 * cos (ang P j k)), rsum P (fun j => - (nth j y 0 * sin (ang P j k))))).
  { intros k Hk. rewrite dft_nth by lia. rewrite LY. f_equal; apply rsum_ext; intros j Hj; unfold re, im, Y; rewrite nth_pad by lia; cbn [fst snd]; ring. }
  unfold Rdiv at 1. rewrite Rmult_comm. f_equal.
  transitivity (rsum P (fun k => if mask lo P k then rsum P (fun j => nth j y 0 * cos (ang P j k - ang P k m)) else 0)).
  { apply rsum_ext. intros k Hk. unfold re, im. rewrite MZ by auto. destruct (mask lo P k); cbn [fst snd]; [|ring]. rewrite SP by auto. cbn [fst snd].
    rewrite <- !rsum_scal_r. rewrite <- rsum_scal, <- rsum_minus. apply rsum_ext. intros j Hj. rewrite cos_minus. ring. }
  rewrite (rsum_ext P _ (fun k => rsum P (fun j => nth j y 0 * (if mask lo P k then cos (ang P j k - ang P k m) else 0)))).
  2:{ intros k Hk. destruct (mask lo P k); auto. symmetry. apply rsum_zero. intros. ring. }
  rewrite rsum_swap. rewrite (rsum_ext P _ (fun j => nth j y 0 * rsum P (fun k => if mask lo P k then cos (ang P j k - ang P k m) else 0))) by (intros; apply rsum_scal).
  replace P with (len + (P - len))%nat at 1 by lia. rewrite rsum_split. rewrite (rsum_zero (P - len)).
  2:{ intros i Hi. rewrite nth_overflow by (fold len; lia). ring. }
  rewrite Rplus_0_r. apply rsum_ext. intros j Hj. f_equal.
  rewrite rsum_if. apply rsum_ext. intros k Hk.
  assert (KM : mask lo P k = true <-> kept qmax deltar P k).
  { unfold kept, mask. rewrite orb_true_iff, !Z.ltb_lt, !LOQ. fold dQ. reflexivity. }
  replace (ang P j k - ang P k m) with (- (2 * PI * INR k * (INR m - INR j) / INR P)) by (unfold ang; field; auto).
  rewrite cos_neg. destruct (kept_dec qmax deltar P k) as [K|K], (mask lo P k) eqn:M; try (exfalso; apply KM in K; congruence); try (exfalso; apply K, KM; congruence); ring.
Qed.

(** ** sums of cosines *)
Lemma cos_sum (P : nat) x : 2 * sin (x / 2) * rsum P (fun k => cos (INR k * x)) = sin ((INR P - 1 / 2) * x) + sin (x / 2).
Proof.
  induction P. simpl. replace ((0 - 1 / 2) * x) with (- (x / 2)) by field. rewrite sin_neg. ring.
  cbn [rsum]. rewrite Rmult_plus_distr_l, IHP. rewrite S_INR.
  replace ((INR P + 1 - 1 / 2) * x) with (INR P * x + x / 2) by field. replace ((INR P - 1 / 2) * x) with (INR P * x - x / 2) by field.
  rewrite sin_plus, sin_minus. ring.
Qed.
Lemma cos_zero (P : nat) (n : Z) : (0 < n < Z.of_nat P)%Z -> rsum P (fun k => cos (INR k * (2 * PI * IZR n / INR P))) = 0.
Proof.
  intros H. set (x := 2 * PI * IZR n / INR P). assert (PP : 0 < INR P) by (apply lt_0_INR; lia).
  assert (N0 : 0 < IZR n < INR P). { rewrite INR_IZR_INZ. split; apply IZR_lt; lia. }
  pose proof PI_RGT_0 as PI0. assert (X2 : 0 < x / 2 < PI).
  { assert (E : x / 2 = PI * (IZR n / INR P)) by (unfold x; field; lra). assert (0 < IZR n / INR P < 1).
    { split. apply Rdiv_lt_0_compat; lra. apply (Rmult_lt_reg_r (INR P)); auto. replace (IZR n / INR P * INR P) with (IZR n) by (field; lra). lra. }
    rewrite E. split. apply Rmult_lt_0_compat; lra. assert (PI * (IZR n / INR P) < PI * 1) by (apply Rmult_lt_compat_l; lra). lra. }
  pose proof (sin_gt_0 (x / 2) ltac:(lra) ltac:(lra)) as S. pose proof (cos_sum P x) as C.
  assert (E : (INR P - 1 / 2) * x = - (x / 2) + 2 * INR (Z.to_nat n) * PI).
  { rewrite (INR_IZR_INZ (Z.to_nat n)), Z2Nat.id by lia. unfold x. field. lra. }
  rewrite E in C. rewrite (sin_period (- (x / 2)) (Z.to_nat n)) in C. rewrite sin_neg in C.
  assert (Z : 2 * sin (x / 2) * rsum P (fun k => cos (INR k * x)) = 0) by lra. apply Rmult_integral in Z. destruct Z; [lra|]. auto.
Qed.

(** nothing cut: nothing changed *)
Lemma filter_id qmax deltar y out : filtered qmax deltar y out -> (forall P k, is_pad (length y) P -> (k < P)%nat -> kept qmax deltar P k) -> out = y.
Proof.
  intros (P & PAD & L & X) K. apply (nth_ext _ _ 0 0); auto. intros m Hm. rewrite L in Hm. rewrite X by auto.
  pose proof PAD as [_ [PA PB]]. assert (PN : 0 < INR P) by (apply lt_0_INR; lia).
  rewrite (rsum_single (length y) _ m); auto.
  - rewrite (rsum_ext P _ (fun _ => 1)).
    + assert (S : forall n, rsum n (fun _ => 1) = INR n) by (induction n; [reflexivity|]; cbn [rsum]; rewrite IHn, S_INR; ring). rewrite S. field. lra.
    + intros k Hk. destruct (kept_dec qmax deltar P k) as [_|N]; [|exfalso; apply N, K; auto]. replace (2 * PI * INR k * (INR m - INR m) / INR P) with 0 by (field; lra). rewrite cos_0. ring.
  - intros j Hj NE. rewrite (rsum_ext P _ (fun k => cos (INR k * (2 * PI * IZR (Z.abs (Z.of_nat m - Z.of_nat j)) / INR P)))).
    + rewrite cos_zero by lia. ring.
    + intros k Hk. destruct (kept_dec qmax deltar P k) as [_|N]; [|exfalso; apply N, K; auto]. rewrite Rmult_1_l.
      assert (E : INR m - INR j = IZR (Z.of_nat m - Z.of_nat j)) by (rewrite minus_IZR, <- !INR_IZR_INZ; reflexivity). rewrite E.
      destruct (Z.abs_spec (Z.of_nat m - Z.of_nat j)) as [[_ ->]|[_ ->]].
      * f_equal. field. lra.
      * rewrite opp_IZR, <- cos_neg. f_equal. field. lra.
Qed.
