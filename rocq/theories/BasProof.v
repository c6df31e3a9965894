(** Proofs: sums over pairs in other coordinates. *)
From Coq Require Import List Arith ZArith Reals Bool Lia Lra Permutation.
From Verif Require Import Base RSum MathModel MetricModel MetricSpec MetricProof SphereModel SphereSpec SphereProof PdfModel PdfSpec PdfProof PdfGeo PdfSum PdfPeak PdfPhase PdfFft PdfTotal RelSpec RelProof SupSpec SupProof AxSpec AxProof BasSpec.
Import ListNotations.
Local Open Scope R_scope.

Definition rz (m : zmat) : t33 := fun i j => IZR (m i j).
Lemma det_mul a b : det33 (mul33 a b) = det33 a * det33 b.
Proof. unfold det33, mul33. ring. Qed.
Lemma det_ext a b : (forall i j, (i < 3)%nat -> (j < 3)%nat -> a i j = b i j) -> det33 a = det33 b.
Proof. intros H. unfold det33. rewrite !H by lia. reflexivity. Qed.
Lemma scalar_mul m g i j : scalar m g i j = mul33 (fun i j => rz m j i) (mul33 g (rz m)) i j.
Proof. unfold scalar, dot33, mul33, rz. ring. Qed.
Lemma det_tr a : det33 (fun i j => a j i) = det33 a.
Proof. unfold det33. ring. Qed.
Lemma inv_r m n : inverse m n -> forall i j, (i < 3)%nat -> (j < 3)%nat ->
  IZR (m i 0%nat) * IZR (n 0%nat j) + IZR (m i 1%nat) * IZR (n 1%nat j) + IZR (m i 2%nat) * IZR (n 2%nat j) = if (i =? j)%nat then 1 else 0.
Proof. intros H i j Hi Hj. rewrite <- !mult_IZR, <- !plus_IZR, H by auto. destruct (i =? j)%nat; reflexivity. Qed.
Lemma inv_det m n : inverse m n -> det33 (rz m) * det33 (rz n) = 1.
Proof.
  intros H. rewrite <- det_mul. rewrite (det_ext _ one33). unfold det33, one33. cbn. ring.
  intros i j Hi Hj. unfold mul33, rz. rewrite inv_r by auto. unfold one33. reflexivity.
Qed.
Definition zdet (m : zmat) : Z :=
  (m 0%nat 0%nat * (m 1%nat 1%nat * m 2%nat 2%nat - m 1%nat 2%nat * m 2%nat 1%nat)
  - m 0%nat 1%nat * (m 1%nat 0%nat * m 2%nat 2%nat - m 1%nat 2%nat * m 2%nat 0%nat)
  + m 0%nat 2%nat * (m 1%nat 0%nat * m 2%nat 1%nat - m 1%nat 1%nat * m 2%nat 0%nat))%Z.
Lemma det_z m : det33 (rz m) = IZR (zdet m).
Proof. unfold det33, rz, zdet. rewrite ?plus_IZR, ?minus_IZR, ?mult_IZR, ?minus_IZR, ?mult_IZR. reflexivity. Qed.
Lemma det_one m n : inverse m n -> det33 (rz m) * det33 (rz m) = 1.
Proof.
  intros H. pose proof (inv_det m n H) as D. rewrite !det_z in *. rewrite <- mult_IZR in *. apply eq_IZR in D. assert (zdet m = 1 \/ zdet m = -1)%Z as [-> | ->]; [|reflexivity|reflexivity].
  destruct (Z.mul_eq_1 (zdet m) (zdet n) D); auto.
Qed.
Lemma mr_mr m n h i : inverse m n -> (i < 3)%nat -> mr m (mr n h) i = h i.
Proof.
  intros H Hi. pose proof (inv_r m n H i 0%nat Hi ltac:(lia)) as A. pose proof (inv_r m n H i 1%nat Hi ltac:(lia)) as B. pose proof (inv_r m n H i 2%nat Hi ltac:(lia)) as C. unfold mr.
  transitivity ((if (i =? 0)%nat then 1 else 0) * h 0%nat + (if (i =? 1)%nat then 1 else 0) * h 1%nat + (if (i =? 2)%nat then 1 else 0) * h 2%nat).
  rewrite <- A, <- B, <- C. ring. destruct i as [|[|[|i]]]; [| | |lia]; cbn; ring.
Qed.
Lemma mz_comp m t i : (i < 3)%nat -> comp (mz m t) i = (m i 0%nat * comp t 0 + m i 1%nat * comp t 1 + m i 2%nat * comp t 2)%Z.
Proof. intros H. destruct i as [|[|[|i]]]; [| | |lia]; reflexivity. Qed.
Lemma mz_mr m t i : (i < 3)%nat -> IZR (comp (mz m t) i) = mr m (fun j => IZR (comp t j)) i.
Proof. intros H. rewrite mz_comp, !plus_IZR, !mult_IZR by auto. reflexivity. Qed.
Lemma mz_mz m n t : inverse m n -> mz m (mz n t) = t.
Proof.
  intros H. apply trip_eq. intros j Hj. apply eq_IZR. rewrite mz_mr by auto. transitivity (mr m (mr n (fun j => IZR (comp t j))) j). unfold mr at 1 2. rewrite !mz_mr by lia. reflexivity. exact (mr_mr m n (fun j => IZR (comp t j)) j H Hj).
Qed.
Lemma off_sym i j : off i j = off j i. Proof. unfold off. lia. Qed.

Section Basis.
Variables (d : cdata) (e e' : centry) (m n : zmat) (v : v3) (z : nat -> trip) (g : Z).
Let p := en_ph e.
Let p' := en_ph e'.
Hypothesis RB : rebased m n v z p p'.
Hypothesis FL : forall i, (i < natoms p)%nat -> en_igni e' i = en_igni e i /\ en_ignj e' i = en_ignj e i.

Lemma ba_mn : inverse m n. Proof. apply RB. Qed.
Lemma ba_nm : inverse n m. Proof. apply RB. Qed.
Lemma ba_n : natoms p' = natoms p. Proof. apply RB. Qed.
Lemma ba_atom i : (i < natoms p)%nat -> rebased_atom m n v p p' (z i) (atom_no p i) (atom_no p' i). Proof. apply RB. Qed.
Lemma ba_icc k : cp_icc p' k = 1%Z /\ cp_icc p k = 1%Z.
Proof. destruct RB as (_ & _ & I & E & _). rewrite E. cbn. auto. Qed.
Lemma ba_occ : occ_sum p' = occ_sum p.
Proof. unfold occ_sum. rewrite ba_n. apply rsum_ext. intros i Hi. apply (ba_atom i Hi). Qed.
Lemma ba_mean : mean_sf d p' = mean_sf d p.
Proof. unfold mean_sf. rewrite ba_occ, ba_n. f_equal. apply rsum_ext. intros i Hi. destruct (ba_atom i Hi) as (-> & -> & _). auto. Qed.
Lemma ba_weight i : (i < natoms p)%nat -> weight_no d p' i = weight_no d p i.
Proof. intros Hi. unfold weight_no. rewrite ba_mean. destruct (ba_atom i Hi) as (_ & -> & _). auto. Qed.
Lemma ba_counted i j : (i < natoms p)%nat -> (j < natoms p)%nat -> counted (en_igni e') (en_ignj e') i j = counted (en_igni e) (en_ignj e) i j.
Proof. intros Hi Hj. unfold counted. destruct (FL i Hi) as (-> & ->), (FL j Hj) as (-> & ->). auto. Qed.
Lemma ba_share : counted_share d p' (en_igni e') (en_ignj e') = counted_share d p (en_igni e) (en_ignj e).
Proof.
  unfold counted_share. rewrite ba_n. rewrite (rsum_ext _ (weight_no d p') (weight_no d p)) by (intros; apply ba_weight; auto). f_equal.
  apply rsum_ext. intros i Hi. apply rsum_ext. intros j Hj. rewrite ba_counted, !ba_weight; auto.
Qed.
Let G := metric (cp_a0 p) (cp_win p).
Lemma ba_metric i j : (i < 3)%nat -> (j < 3)%nat -> metric (cp_a0 p') (cp_win p') i j = scalar m G i j.
Proof. apply RB. Qed.
Lemma ba_det : det33 (metric (cp_a0 p') (cp_win p')) = det33 G.
Proof.
  rewrite (det_ext _ _ ba_metric), (det_ext _ _ (fun i j _ _ => scalar_mul m G i j)), !det_mul, det_tr. pose proof (det_one m n ba_mn). transitivity (det33 (rz m) * det33 (rz m) * det33 G). ring. rewrite H. ring.
Qed.
Lemma ba_density : density p' = density p.
Proof. unfold density. rewrite ba_occ, ba_det. destruct (ba_icc 0) as (-> & ->), (ba_icc 1) as (-> & ->), (ba_icc 2) as (-> & ->). reflexivity. Qed.
Section Vec.
Variables h h' : v3.
Hypothesis H : forall j, (j < 3)%nat -> h' j = mr n h j.
Lemma ba_back i : (i < 3)%nat -> h i = mr m h' i.
Proof. intros Hi. rewrite <- (mr_mr m n h i ba_mn Hi). unfold mr at 1 3. rewrite !H by lia. reflexivity. Qed.
Lemma ba_len : length_of p' h' = length_of p h.
Proof.
  unfold length_of. f_equal. fold G. unfold dot33 at 1. rewrite !ba_metric by lia. unfold dot33 at 1. rewrite !ba_back by lia. unfold scalar, dot33, mr. ring.
Qed.
Definition gh (p : cphase) (h : v3) (k : nat) : R := metric (cp_a0 p) (cp_win p) k 0%nat * h 0%nat + metric (cp_a0 p) (cp_win p) k 1%nat * h 1%nat + metric (cp_a0 p) (cp_win p) k 2%nat * h 2%nat.
Lemma ba_gh k : (k < 3)%nat -> gh p' h' k = IZR (m 0%nat k) * gh p h 0%nat + IZR (m 1%nat k) * gh p h 1%nat + IZR (m 2%nat k) * gh p h 2%nat.
Proof. intros Hk. unfold gh at 1. rewrite !ba_metric by lia. unfold gh. fold G. rewrite !ba_back by lia. unfold scalar, dot33, mr. ring. Qed.
End Vec.
Lemma msd_tensor q a b h : msd q a b h = (dot33 (tensor q a) (gh q h) (gh q h) + dot33 (tensor q b) (gh q h) (gh q h)) / (length_of q h * length_of q h).
Proof.
  unfold msd. fold (gh q h 0%nat) (gh q h 1%nat) (gh q h 2%nat). unfold dot33, tensor, off. cbn [Nat.eqb Nat.add]. unfold Rdiv. rewrite Rinv_mult. ring.
Qed.
Lemma ba_form a a' zi h h' : (forall j, (j < 3)%nat -> h' j = mr n h j) -> rebased_atom m n v p p' zi a a' -> dot33 (tensor p' a') (gh p' h') (gh p' h') = dot33 (tensor p a) (gh p h) (gh p h).
Proof.
  intros H (_ & _ & _ & T). unfold dot33 at 2. rewrite !T by lia. unfold dot33 at 1. rewrite !(ba_gh h h' H) by lia. unfold dot33. ring.
Qed.
Lemma ba_msd a b a' b' za zb h h' : (forall j, (j < 3)%nat -> h' j = mr n h j) -> rebased_atom m n v p p' za a a' -> rebased_atom m n v p p' zb b b' -> msd p' a' b' h' = msd p a b h.
Proof. intros H A B. rewrite !msd_tensor, (ba_form a a' za h h' H A), (ba_form b b' zb h h' H B), (ba_len h h' H). reflexivity. Qed.
Lemma ba_fields : cp_delta2 p' = cp_delta2 p /\ cp_delta1 p' = cp_delta1 p /\ cp_pscale p' = cp_pscale p /\ cp_spd p' = cp_spd p /\ cp_stepcut p' = cp_stepcut p /\ cp_sratio p' = cp_sratio p /\ cp_rcut p' = cp_rcut p.
Proof. destruct RB as (_ & _ & _ & E & _). rewrite E. cbn. auto 10. Qed.
Lemma ba_width a b a' b' za zb h h' : (forall j, (j < 3)%nat -> h' j = mr n h j) -> rebased_atom m n v p p' za a a' -> rebased_atom m n v p p' zb b b' -> width d p' a' b' h' = width d p a b h.
Proof. intros H A B. unfold width, width_factor. rewrite (ba_len h h' H), (ba_msd a b a' b' za zb h h' H A B). destruct ba_fields as (-> & -> & _ & _ & _ & -> & ->). reflexivity. Qed.
Lemma ba_wf r : width_factor d p' r = width_factor d p r.
Proof. unfold width_factor. destruct ba_fields as (-> & -> & _). reflexivity. Qed.

(** the translation between the copies of atoms i and k *)
Definition tnew (i k : nat) (t : trip) : trip := (fun c : trip => (comp c 0 + comp (z i) 0 - comp (z k) 0, comp c 1 + comp (z i) 1 - comp (z k) 1, comp c 2 + comp (z i) 2 - comp (z k) 2)%Z) (mz n t).
Definition told (i k : nat) (t : trip) : trip := mz m (comp t 0 - comp (z i) 0 + comp (z k) 0, comp t 1 - comp (z i) 1 + comp (z k) 1, comp t 2 - comp (z i) 2 + comp (z k) 2)%Z.
Lemma new_comp i k t j : (j < 3)%nat -> comp (tnew i k t) j = (comp (mz n t) j + comp (z i) j - comp (z k) j)%Z.
Proof. intros H. destruct j as [|[|[|j]]]; [| | |lia]; reflexivity. Qed.
Lemma old_new i k t : told i k (tnew i k t) = t.
Proof.
  unfold told. rewrite !new_comp by lia. transitivity (mz m (mz n t)); [|apply mz_mz, ba_mn]. f_equal. apply trip_eq. intros j Hj. destruct j as [|[|[|j]]]; [| | |lia]; cbn [comp]; lia.
Qed.
Lemma new_old i k t : tnew i k (told i k t) = t.
Proof.
  apply trip_eq. intros j Hj. rewrite new_comp by auto. unfold told. rewrite (mz_mz n m _ ba_nm). destruct t as [[a b] c], j as [|[|[|j]]]; [| | |lia]; cbn [comp]; lia.
Qed.
Lemma ba_sep i k t : (i < natoms p)%nat -> (k < natoms p)%nat -> forall j, (j < 3)%nat -> sep p' (atom_no p' i) (atom_no p' k) (tnew i k t) j = mr n (sep p (atom_no p i) (atom_no p k) t) j.
Proof.
  intros Hi Hk j Hj. destruct (ba_atom i Hi) as (_ & _ & A & _), (ba_atom k Hk) as (_ & _ & B & _).
  assert (S : forall q ai ak (t : trip) j, (j < 3)%nat -> sep q ai ak t j = at_pos ai j - (at_pos ak j + IZR (comp t j) * IZR (cp_icc q j))). { intros q ai ak [[a b] c] j0 H0. destruct j0 as [|[|[|j0]]]; [| | |lia]; reflexivity. }
  rewrite S by auto. rewrite (proj1 (ba_icc j)), A, B by auto. rewrite new_comp, minus_IZR, plus_IZR, mz_mr by auto. unfold mr. rewrite !S by lia. rewrite (proj2 (ba_icc 0)), (proj2 (ba_icc 1)), (proj2 (ba_icc 2)). ring.
Qed.
Lemma ba_value i k t : (i < natoms p)%nat -> (k < natoms p)%nat -> value d e' g (i, k, tnew i k t) = value d e g (i, k, t).
Proof.
  intros Hi Hk. pose proof (ba_atom i Hi) as Ai. pose proof (ba_atom k Hk) as Ak. pose proof (ba_sep i k t Hi Hk) as S.
  unfold value. fold p p'.
  assert (C : contributes d p' (atom_no p' i) (atom_no p' k) (tnew i k t) g <-> contributes d p (atom_no p i) (atom_no p k) t g).
  { unfold contributes, reaches. rewrite (ba_len _ _ S), (ba_msd _ _ _ _ _ _ _ _ S Ai Ak), (ba_width _ _ _ _ _ _ _ _ S Ai Ak), ba_wf. destruct ba_fields as (_ & _ & _ & _ & -> & _). reflexivity. }
  assert (P : pair_height d p' (atom_no p' i) (atom_no p' k) (tnew i k t) g = pair_height d p (atom_no p i) (atom_no p k) t g).
  { unfold pair_height. rewrite (ba_len _ _ S), (ba_width _ _ _ _ _ _ _ _ S Ai Ak). reflexivity. }
  rewrite P, !ba_weight by auto. destruct Ai as (-> & _), Ak as (-> & _).
  destruct (contributes_dec d p' _ _ _ _), (contributes_dec d p _ _ _ _); tauto.
Qed.
Lemma ba_pair i k t : is_pair d e' (i, k, tnew i k t) <-> is_pair d e (i, k, t).
Proof.
  unfold is_pair. fold p p'. rewrite ba_n. split; intros (Hi & Hk & H); split; auto; split; auto; revert H; rewrite ba_counted, (ba_len _ _ (ba_sep i k t Hi Hk)) by auto; auto.
Qed.
Variables (W W' : list pairT).
Hypothesis (C : complete e) (C' : complete e') (PL : pair_list d e W) (PL' : pair_list d e' W').
Lemma ba_sums : lsum (value d e' g) W' = lsum (value d e g) W.
Proof.
  pose proof (all_pairs d e W C PL) as A. pose proof (all_pairs d e' W' C' PL') as A'.
  transitivity (lsum (value d e' g) (map (fun w : pairT => (fst w, tnew (fst (fst w)) (snd (fst w)) (snd w))) W)).
  - apply RelProof.lsum_perm. apply NoDup_Permutation.
    + apply PL'.
    + apply inj_nodup; [|apply PL]. intros [[x1 x2] t] [[y1 y2] u] _ _ E. cbn [fst snd] in E. assert (E1 : x1 = y1) by congruence. assert (E2 : x2 = y2) by congruence. subst y1 y2. f_equal.
      rewrite <- (old_new x1 x2 t), <- (old_new x1 x2 u). f_equal. congruence.
    + intros [[i k] t]. rewrite in_map_iff, A'. split.
      * intros H. exists (i, k, told i k t). cbn [fst snd]. rewrite new_old. split; auto. apply A. apply ba_pair. rewrite new_old. auto.
      * intros ([[i2 k2] t2] & E & H). cbn [fst snd] in E. assert (E1 : i2 = i) by congruence. assert (E2 : k2 = k) by congruence. subst i2 k2. assert (E3 : tnew i k t2 = t) by congruence. subst t. apply A in H. apply ba_pair. auto.
  - rewrite PdfSum.lsum_map. apply lsum_ext. intros [[i k] t] H. apply A in H. destruct H as (Hi & Hk & _). apply ba_value; auto.
Qed.
Lemma ba_pdf V V' : phase_pdf d e W g V -> phase_pdf d e' W' g V' -> V' = V.
Proof.
  intros (x & S & ->) (x' & S' & ->). apply radial_value in S. apply radial_value in S'. fold p p'. rewrite S, S', ba_sums, ba_occ, ba_density, ba_share. unfold envelope.
  destruct ba_fields as (_ & _ & _ & -> & -> & _). reflexivity.
Qed.
End Basis.
